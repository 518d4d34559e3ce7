(** * Specifications for qetpy/utils/_utils.py, independent of the model *)
From Verif Require Import Base.
From Coq Require Import Znumtheory.
Local Open Scope R_scope.

(** [out] is [arr] moved right by [num] (left for negative [num]), the gap filled. *)
Definition is_shift_of {A} (arr : list A) (num : Z) (fill : A) (out : list A) : Prop :=
  length out = length arr /\
  forall i : nat, (i < length arr)%nat ->
    let src := (Z.of_nat i - num)%Z in
    ((0 <= src < Z.of_nat (length arr))%Z -> nth_error out i = nth_error arr (Z.to_nat src)) /\
    (~ (0 <= src < Z.of_nat (length arr))%Z -> nth_error out i = Some fill).

(** A real number that is an integer *)
Definition is_integer (r : R) : Prop := exists z : Z, r = IZR z.

(** Sum of squared residuals of the line [a*x + b] *)
Definition ssr (x y : list R) (a b : R) : R :=
  lsum (map (fun p => (snd p - (a * fst p + b)) ^ 2) (combine x y)).

(** [i] is the place of a strict new minimum of [y] (the first entry is one). *)
Definition new_minimum (y : list R) (i : nat) : Prop :=
  (i < length y)%nat /\ forall j, (j < i)%nat -> nth i y 0 < nth j y 0.

Definition nonincreasing (l : list R) : Prop :=
  forall i j, (i <= j < length l)%nat -> nth j l 0 <= nth i l 0.

Definition strictly_increasing (l : list R) : Prop :=
  forall i j, (i < j < length l)%nat -> nth i l 0 < nth j l 0.

(** [v] lies between [a] and [b] *)
Definition lies_between (a b v : R) : Prop := Rmin a b <= v <= Rmax a b.

(** Value of a linear interpolation at [i] between nodes at [l] and [r]. *)
Definition lin_interp (l r i : nat) (fl fr : R) : R :=
  fl + (fr - fl) * (INR i - INR l) / (INR r - INR l).

(** Gradient contraction: sqrt (sum_ab j_a C_ab j_b) is the linearly propagated
    standard deviation. *)
Definition propagated3 (ja jb jc : R) (cov : nat -> nat -> R) : R :=
  sqrt (ja*ja*cov 0%nat 0%nat + ja*jb*cov 0%nat 1%nat + ja*jc*cov 0%nat 2%nat
      + jb*ja*cov 1%nat 0%nat + jb*jb*cov 1%nat 1%nat + jb*jc*cov 1%nat 2%nat
      + jc*ja*cov 2%nat 0%nat + jc*jb*cov 2%nat 1%nat + jc*jc*cov 2%nat 2%nat).

(** At least two strict new minima: the first entry and a later one. *)
Definition two_minima (y : list R) : Prop := exists i, (0 < i)%nat /\ new_minimum y i.

(** [x] takes at least two different values. *)
Definition two_values (x : list R) : Prop :=
  exists i j, (i < length x)%nat /\ (j < length x)%nat /\ nth i x 0 <> nth j x 0.

(** [d] is the radical of [p]: the product of its distinct prime factors. *)
Definition is_radical (p d : Z) : Prop :=
  (0 < d)%Z /\ (forall r, prime r -> ((r | d)%Z <-> (r | p)%Z)) /\
  (forall r, prime r -> ~ (r * r | d)%Z).

(** [m] is the smallest prime factor of [q]. *)
Definition smallest_prime_factor (q m : Z) : Prop :=
  prime m /\ (m | q)%Z /\ forall r, prime r -> (r | q)%Z -> (m <= r)%Z.

(** [u] is a positive multiple of [m] closest to [x]; of two equally close ones the even
    multiple is taken. *)
Definition closest_multiple (m x u : Z) : Prop :=
  (m | u)%Z /\ (0 < u)%Z /\
  (forall k, (m | k)%Z -> (0 < k)%Z -> (Z.abs (u - x) <= Z.abs (k - x))%Z) /\
  (forall k, (m | k)%Z -> (0 < k)%Z -> k <> u -> Z.abs (u - x) = Z.abs (k - x) -> (2 * m | u)%Z).

(** Standard error of the mean of the numbers [l] (population convention). *)
Definition standard_error (l : list R) : R :=
  let n := INR (length l) in
  sqrt (rsum (length l) (fun k => (nth k l 0 - lmean l) ^ 2) / n) / sqrt n.

(** Electrical power in the TES carrying the measured current [i]. *)
Definition joule_power (ioffset vbias rload i : R) : R :=
  vbias * (i - ioffset) - rload * (i - ioffset) ^ 2.

(** Trapezoid rule for samples [y 0 .. y (n-1)] taken at the times [t 0 .. t (n-1)]. *)
Definition trapezoid (n : nat) (t y : nat -> R) : R :=
  rsum (n - 1) (fun k => (t (S k) - t k) * (y k + y (S k)) / 2).

(** Position [p] of the first maximum of [l]. *)
Definition first_maximum (l : list R) (p : nat) : Prop :=
  (p < length l)%nat /\ forall i, (i < length l)%nat ->
    nth i l 0 <= nth p l 0 /\ ((i < p)%nat -> nth i l 0 < nth p l 0).

(** [b] is the baseline of [trace]: the one given, or the mean of the samples before [pre]
    together with those from [post] on. *)
Definition baseline_of (trace : list R) (baseline : option R) (pre post : option nat) (b : R) : Prop :=
  match baseline with
  | Some v => b = v
  | None => exists p, pre = Some p /\ (p <= length trace)%nat /\
      match post with
      | None => b = lmean (firstn p trace)
      | Some q => (q <= length trace)%nat /\ b = lmean (firstn p trace ++ skipn q trace)
      end
  end.

