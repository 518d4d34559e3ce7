(** * Specification vocabulary for resampling, filtering and aligning, independent of the model *)
From Verif Require Import Base.
From Coquelicot Require Import Coquelicot.
Local Open Scope R_scope.

(** All entries lie between [lo] and [hi]. *)
Definition all_between (lo hi : R) (x : list R) : Prop := forall v, In v x -> lo <= v <= hi.

(** [a*x + b*y + c], sample by sample. *)
Definition combination (a b c : R) (x y : list R) : list R :=
  map (fun q => a * fst q + b * snd q + c) (combine x y).

(** Gain of the first-order difference equation [y_n = g (x_n + x_(n-1)) + p y_(n-1)] at the
    angular frequency [w] (per sample). *)
Definition gain (g p w : R) : C :=
  let e : C := (cos w, (- sin w)%R) in
  (RtoC g * (RtoC 1 + e) / (RtoC 1 - RtoC p * e))%C.

(** The overlap of [a] with [b] moved to the right by [s] bins. *)
Definition overlap (a b : list R) (s : Z) : R :=
  rsum (length a) (fun j =>
    let i := (Z.of_nat j - s)%Z in
    if ((0 <=? i)%Z && (i <? Z.of_nat (length b))%Z)%bool then nth j a 0 * nth (Z.to_nat i) b 0 else 0).

(** [s] is the smallest of the lags between [-(n-1)] and [n-1] with the largest overlap. *)
Definition best_lag (n : Z) (a b : list R) (s : Z) : Prop :=
  (- (n - 1) <= s <= n - 1)%Z /\
  forall r, (- (n - 1) <= r <= n - 1)%Z -> overlap a b r <= overlap a b s /\ ((r < s)%Z -> overlap a b r < overlap a b s).

(** The row with its mean subtracted. *)
Definition centred (x : list R) : list R := map (fun v => v - lmean x) x.

(** Sample [i] of [out] is sample [i - s] of [arr], or missing. *)
Definition moved_by (arr : list R) (s : Z) (out : list (option R)) : Prop :=
  length out = length arr /\
  forall i, (i < length arr)%nat ->
    let j := (Z.of_nat i - s)%Z in
    nth i out None = (if ((0 <=? j)%Z && (j <? Z.of_nat (length arr))%Z)%bool
                      then Some (nth (Z.to_nat j) arr 0) else None).
