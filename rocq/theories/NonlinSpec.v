(** * Vocabulary for the properties of the nonlinear pulse fits *)
From Coq Require Import Reals ZArith List Lra.
From Verif Require Import Base Dft.
From Coquelicot Require Import Complex RInt Lim_seq Rbar Continuity Hierarchy.
Import ListNotations.
Local Open Scope R_scope.

(** [p] is [A] times a shape that stays between 0 and 1 on [0, infinity) and reaches 1. *)
Definition has_peak (p : R -> R) (A : R) : Prop :=
  exists u, (forall t, p t = A * u t) /\ (forall t, 0 <= t -> 0 <= u t <= 1) /\
            (exists t, 0 < t /\ u t = 1).

(** The integral of [f] over [0, infinity) is [l]. *)
Definition improper (f : R -> R) (l : R) : Prop :=
  exists F, (forall T, is_RInt f 0 T (F T)) /\ is_lim F p_infty l.

(** [z] is the Fourier integral [f(t)*exp(-i*w*t)] over [0, infinity). *)
Definition fourier (f : R -> R) (w : R) (z : C) : Prop :=
  improper (fun t => f t * cos (w * t)) (fst z) /\ improper (fun t => f t * - sin (w * t)) (snd z).

(** The value of a frequency-domain pulse at bin [k] is the delayed transform [z]. *)
Definition shape_at (n : nat) (fs t0 : R) (k : nat) (z : C) : C :=
  (z * cis (- (2 * PI * fftfreq n fs k * t0)) * RtoC (sqrt (fs / INR n)))%C.

(** Sum of squares of an array *)
Definition sumsq (l : list R) : R := lsum (map (fun v => v * v) l).

(** |x|^2 weighted with the inverse noise power, for [errscale] averaged traces *)
Definition weighted (n : nat) (psd : nat -> R) (errscale : R) (x : nat -> C) : R :=
  rsum n (fun k => errscale * cn2 (x k) / psd k).

(** [x] lies between the bounds, [None] being no bound. *)
Definition inside (lb ub : list (option R)) (x : list R) : Prop :=
  length lb = length x /\ length ub = length x /\
  forall i, (i < length x)%nat ->
    (forall l, nth i lb None = Some l -> l <= nth i x 0) /\ (forall u, nth i ub None = Some u -> nth i x 0 <= u).
(** every lower bound is below its upper bound *)
Definition proper_bounds (lb ub : list (option R)) : Prop :=
  forall i l u, nth i lb None = Some l -> nth i ub None = Some u -> l < u.

(** What is assumed of the minimizer of [scipy.optimize.least_squares]: started inside the bounds, where
    the residuals are defined (a nonempty array), it ends inside the bounds, where they are defined too,
    and not at a larger sum of squares. *)
Definition minimizer_ok {T} (result : T -> list R)
  (lsq : (list R -> list R) -> list R -> list (option R) -> list (option R) -> list R -> T) : Prop :=
  forall f x0 lb ub s, f x0 <> [] -> inside lb ub x0 ->
    let x := result (lsq f x0 lb ub s) in
    length x = length x0 /\ inside lb ub x /\ f x <> [] /\ sumsq (f x) <= sumsq (f x0).

(** [m] is the place of the first maximum of [l]. *)
Definition first_max (l : list R) (m : nat) : Prop :=
  (m < length l)%nat /\ forall i, (i < length l)%nat ->
    nth i l 0 <= nth m l 0 /\ ((i < m)%nat -> nth i l 0 < nth m l 0).

(** The entries of a start vector of [fit_falltimes] are usable: all positive, and the time constants
    that enter a scaled two-pole pulse differ.  [rise] is the rise time of the one-pole fit. *)
Definition usable_start (npole : Z) (scale_amplitude : bool) (rise : option R) (g : list R) : Prop :=
  (forall v, In v g -> 0 < v) /\
  (npole = 2%Z -> scale_amplitude = true -> nth 1 g 0 <> nth 2 g 0) /\
  (npole <> 2%Z -> npole <> 3%Z -> npole <> 4%Z ->
   exists tau, rise = Some tau /\ (scale_amplitude = true -> 0 < tau /\ tau <> nth 1 g 0)).
(** Number of parameters of the fit *)
Definition param_count (npole : Z) : nat :=
  match npole with 4%Z => 8 | 3%Z => 6 | 2%Z => 4 | _ => 3 end.

(** [a] is the difference of the largest and the smallest entry of [l]. *)
Definition is_range (l : list R) (a : R) : Prop :=
  (exists i j, (i < length l)%nat /\ (j < length l)%nat /\ a = nth i l 0 - nth j l 0) /\
  forall i j, (i < length l)%nat -> (j < length l)%nat -> nth i l 0 - nth j l 0 <= a.

(** Number of amplitudes among the parameters; the start time is the last parameter, and the time
    constants lie between. *)
Definition amp_count (npole : Z) : nat := match npole with 4%Z => 3 | 3%Z => 2 | _ => 1 end.
(** The documented default bounds: a factor of 100 for amplitudes, a factor of 10 for time constants,
    30 samples for the start time. *)
Definition documented_box (fs : R) (npole : Z) (g : list R) (lb ub : list (option R)) : Prop :=
  length lb = param_count npole /\ length ub = param_count npole /\
  forall i, (i < param_count npole)%nat ->
    ((i < amp_count npole)%nat -> nth i lb None = Some (nth i g 0 / 100) /\ nth i ub None = Some (100 * nth i g 0)) /\
    ((amp_count npole <= i < param_count npole - 1)%nat -> nth i lb None = Some (nth i g 0 / 10) /\ nth i ub None = Some (10 * nth i g 0)) /\
    (i = (param_count npole - 1)%nat -> nth i lb None = Some (nth i g 0 - 30 / fs) /\ nth i ub None = Some (nth i g 0 + 30 / fs)).

(** Of the samples up to [T] after sample [m], the [j]-th is the first one closest to [v]. *)
Definition first_closest (fs : R) (pulse : list R) (m : nat) (T v : R) (j : nat) : Prop :=
  let inw i := (1 <= i)%nat /\ INR i / fs <= T /\ (m + i < length pulse)%nat in
  inw j /\ forall i, inw i -> Rabs (nth (m + j) pulse 0 - v) <= Rabs (nth (m + i) pulse 0 - v) /\
    ((i < j)%nat -> Rabs (nth (m + j) pulse 0 - v) < Rabs (nth (m + i) pulse 0 - v)).
(** The start values without [guess], for a maximum at sample [m] and amplitude [a]. *)
Definition auto_start (fs : R) (npole : Z) (pulse : list R) (m : nat) (a : R) (g : list R) : Prop :=
  match npole with
  | 4%Z => g = [a; a / 3; a / 3; 20 / 10 ^ 6; 100 / 10 ^ 6; 300 / 10 ^ 6; 500 / 10 ^ 6; INR m / fs]
  | 3%Z => g = [a; a / 3; 20 / 10 ^ 6; 100 / 10 ^ 6; 300 / 10 ^ 6; INR m / fs]
  | _ => exists j, first_closest fs pulse m (300 / 10 ^ 6) (37 / 100 * a) j /\
      g = if (npole =? 2)%Z then [a; 20 / 10 ^ 6; INR j / fs; INR m / fs] else [a; INR j / fs; INR m / fs]
  end.
