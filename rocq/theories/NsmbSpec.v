(** * Notions in which the properties of the N-template fits are stated *)
From Coq Require Import Reals ZArith List.
From Verif Require Import Base Dft.
From Coquelicot Require Import Coquelicot.
Import ListNotations.
Local Open Scope R_scope.

(** Noise power per bin; the bin 0 takes the value of bin 1. *)
Definition bin_noise (nt : nat) (psd : nat -> R) (fs : R) (f : nat) : R :=
  psd (if (f =? 0)%nat then 1%nat else f) * fs / INR nt.

(** chi2 of a residual trace: normalised transform, first [m] bins *)
Definition trace_chi2 (nt m : nat) (noise r : nat -> R) : R :=
  rsum m (fun f => cn2 (dft nt (fun t => RtoC (r t)) (Z.of_nat f) / RtoC (INR nt))%C / noise f).

(** Signal template delayed by [d] bins (cyclically) with amplitude [a 0], fixed backgrounds with
    amplitudes [a 1, a 2, ...] *)
Definition sb_model (nt : nat) (s : nat -> R) (bs : list (nat -> R)) (a : nat -> R) (d : Z) (t : nat) : R :=
  a O * s (Z.to_nat ((Z.of_nat t - d) mod Z.of_nat nt)) +
  rsum (length bs) (fun k => a (S k) * nth k bs (fun _ => 0) t).
Definition b_model (bs : list (nat -> R)) (b : nat -> R) (t : nat) : R :=
  rsum (length bs) (fun k => b k * nth k bs (fun _ => 0) t).
Definition trace_minus (x y : nat -> R) (t : nat) : R := x t - y t.

(** Sign constraint: 1 positive, -1 negative, other values none *)
Definition obeys (c a : R) : Prop := (c = 1 -> 0 <= a) /\ (c = -1 -> a <= 0).

(** Symmetric positive semi-definite matrices and the first Penrose equation [A X A = A] *)
Definition psd_matrix (k : nat) (A : nat -> nat -> R) : Prop :=
  (forall i j, (i < k)%nat -> (j < k)%nat -> A i j = A j i) /\
  (forall v : nat -> R, 0 <= rsum k (fun i => v i * rsum k (fun j => A i j * v j))).
Definition penrose (k : nat) (A X : nat -> nat -> R) : Prop :=
  forall i j, (i < k)%nat -> (j < k)%nat ->
  rsum k (fun l => rsum k (fun p => A i p * X p l) * A l j) = A i j.
(** What is assumed of [np.linalg.pinv] *)
Definition pinv_ok (pinv : nat -> (nat -> nat -> R) -> nat -> nat -> R) : Prop :=
  forall k A, psd_matrix k A -> penrose k A (pinv k A).
(** What is assumed of [np.polyfit(x, y, 2)]: three points are interpolated *)
Definition polyfit_ok (polyfit : list R -> list R -> R * R * R) : Prop :=
  forall x0 x1 x2 y0 y1 y2, x0 <> x1 -> x1 <> x2 -> x0 <> x2 ->
  let '(a, b, c) := polyfit [x0; x1; x2] [y0; y1; y2] in
  a * x0 ^ 2 + b * x0 + c = y0 /\ a * x1 ^ 2 + b * x1 + c = y1 /\ a * x2 ^ 2 + b * x2 + c = y2.
