(** * Specifications for qetpy/core/_noise.py, independent of the model's helpers *)
From Coq Require Import Reals.
From Coquelicot Require Import Complex.
From Verif Require Import Base Dft NoiseModel.
Local Open Scope R_scope.

(** Mean square of a trace of [n] samples. *)
Definition mean_square (n : nat) (x : nat -> R) : R := rsum n (fun j => x j ^ 2) / INR n.

(** A two-sided spectrum is symmetric under frequency reversal. *)
Definition symmetric_psd (n : nat) (p : nat -> R) : Prop :=
  forall k, (0 < k < n)%nat -> p (n - k)%nat = p k.

(** Two-sided power spectral density of one trace in bin [k]. *)
Definition psd_bin (n : nat) (fs : R) (x : nat -> R) (k : nat) : R :=
  Cmod (dft n (fun j => RtoC (x j)) (Z.of_nat k)) ^ 2 / (fs * INR n).

(** The one-sided spectrum of a two-sided one: positive frequencies, with the power of
    the negative frequency added (if there is one: not for DC and Nyquist). *)
Definition folded (n : nat) (p : nat -> R) (k : nat) : R :=
  if (k =? 0)%nat || (2 * k =? n)%nat then p k else p k + p (n - k)%nat.

(** [B] is the inverse of the [c x c] matrix [A]. *)
Definition right_inverse (c : nat) (A B : nat -> nat -> C) : Prop :=
  forall i j, (i < c)%nat -> (j < c)%nat ->
  csum c (fun l => A i l * B l j)%C = if (i =? j)%nat then RtoC 1 else RtoC 0.

(** A correct matrix inversion routine. *)
Definition correct_inversion (inv : nat -> (nat -> nat -> C) -> option (nat -> nat -> C)) : Prop :=
  forall c A B, inv c A = Some B -> right_inverse c A B.

(** It finds an inverse of every invertible 2 x 2 matrix. *)
Definition complete_inversion2 (inv : nat -> (nat -> nat -> C) -> option (nat -> nat -> C)) : Prop :=
  forall A B, right_inverse 2 A B -> inv 2%nat A <> None.

(** Pearson's correlation coefficient of two samples of size [m]. *)
Definition pearson (m : nat) (u v : nat -> R) : R :=
  let mean f := rsum m f / INR m in
  rsum m (fun t => (u t - mean u) * (v t - mean v))
  / sqrt (rsum m (fun t => (u t - mean u) ^ 2) * rsum m (fun t => (v t - mean v) ^ 2)).

(** The attributes a method stores. *)
Definition same_result (op : nop) (a b : noise) : Prop :=
  match op with
  | OpSlope => traces a = traces b
  | OpPsd => n_psd a = n_psd b /\ n_real_psd a = n_real_psd b /\ n_imag_psd a = n_imag_psd b
  | OpCorrcoeff => n_corrcoeff a = n_corrcoeff b
  | OpCsd => n_csd a = n_csd b /\ n_real_csd a = n_real_csd b /\ n_imag_csd a = n_imag_csd b /\
             n_real_csd_std a = n_real_csd_std b /\ n_imag_csd_std a = n_imag_csd_std b
  | OpUncorr => n_uncorr a = n_uncorr b /\ n_corr a = n_corr b
  end.
(** A new object holding the current traces. *)
Definition refreshed (o : noise) : noise := fresh_noise (nbins o) (nchan o) (nfs o) (ntime o) (traces o).

(** Welch's one-sided cross spectral density of bin [k] with a single segment: mean removed,
    Hann window, density scaling. *)
Definition welch (n : nat) (fs : R) (x y : nat -> R) (k : nat) : C :=
  let w j := sin (PI * INR j / INR n) ^ 2 in
  let F z := dft n (fun j => RtoC (w j * (z j - rsum n z / INR n))) (Z.of_nat k) in
  let sides := if ((k =? 0)%nat || (2 * k =? n)%nat)%bool then 1 else 2 in
  (RtoC (sides / (fs * rsum n (fun j => w j ^ 2))) * (Cconj (F x) * F y))%C.

(** Mean and population standard deviation of a sample of size [m]. *)
Definition sample_mean (m : nat) (f : nat -> R) : R := rsum m f / INR m.
Definition sample_std (m : nat) (f : nat -> R) : R :=
  sqrt (rsum m (fun t => (f t - sample_mean m f) ^ 2) / INR m).
