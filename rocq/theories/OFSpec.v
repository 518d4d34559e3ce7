(** * Specification vocabulary for the optimum filters

    Chi-squares are stated for real traces in the time domain. *)
From Verif Require Import Base Dft WindowSpec OFModel.
Local Open Scope R_scope.

(** Weight of frequency bin [k]: none for the zero bin of an AC-coupled trace. *)
Definition bin_weight (n : nat) (fs : R) (p : nat -> R) (ac : bool) (k : nat) : R :=
  if (ac && (k =? 0)%nat)%bool then 0 else / (p k * INR n * fs).

(** Noise-weighted chi-square of a real trace [r] of [n] bins sampled at rate [fs], for a
    two-sided noise spectrum [p]: the sum over frequency bins of |R_k|^2 / (p_k n fs). *)
Definition wchi2 (n : nat) (fs : R) (p : nat -> R) (ac : bool) (r : nat -> R) : R :=
  rsum n (fun k => bin_weight n fs p ac k * cn2 (dft n (fun j => RtoC (r j)) (Z.of_nat k))).

(** The trace minus a template of amplitude [a] delayed (circularly) by [d] bins. *)
Definition minus_pulse (n : nat) (x template : nat -> R) (a : R) (d : Z) : nat -> R :=
  fun i => x i - a * roll n d template i.

(** The template used: normalised to unit integral if requested. *)
Definition used_template (n : nat) (fs : R) (template : nat -> R) (integralnorm : bool) : nat -> R :=
  if integralnorm then fun i => fs / rsum n template * template i else template.

(** All entries of the noise spectrum are positive. *)
Definition positive_psd (n : nat) (p : nat -> R) : Prop := forall k, (k < n)%nat -> 0 < p k.

(** The template has power in a frequency bin that the fit uses. *)
Definition visible (n : nat) (ac : bool) (template : nat -> R) : Prop :=
  exists k, (k < n)%nat /\ (ac && (k =? 0)%nat)%bool = false /\
    dft n (fun j => RtoC (template j)) (Z.of_nat k) <> RtoC 0.

(** A usable fit problem: at least one bin, positive rate and noise, visible template; a
    template that is to be normalised to unit integral has a non-zero sum. *)
Definition fit_problem (n : nat) (template p : nat -> R) (fs : R) (ac inorm : bool) : Prop :=
  (0 < n)%nat /\ 0 < fs /\ positive_psd n p /\ visible n ac template /\
  (inorm = true -> rsum n template <> 0).

(** The pulse-direction constraint on an amplitude. *)
Definition direction_ok (dir : Z) (a : R) : Prop :=
  dir = 0%Z \/ (dir = 1%Z /\ 0 < a) \/ (dir = (-1)%Z /\ a < 0).

(** Valid arguments of a constrained fit of [n] bins. *)
Definition valid_args (n : nat) (nc : option Z) (dir wc : Z) : Prop :=
  (dir = -1 \/ dir = 0 \/ dir = 1)%Z /\ valid_center (Z.of_nat n) wc /\
  (forall k, nc = Some k -> (0 < k)%Z).

(** The bins among which a constrained fit may choose, when bin [j] has amplitude [amps j]. *)
Definition candidate (n : nat) (nc : option Z) (outside : bool) (dir wc : Z) (amps : Z -> R) (j : Z) : Prop :=
  allowed (Z.of_nat n) nc outside (fun j => direction_ok dir (amps j)) wc j.

(** The template and its copy delayed by [d] bins are not proportional in the bins used. *)
Definition distinct_delay (n : nat) (ac : bool) (t : nat -> R) (d : Z) : Prop :=
  visible n ac (fun i => t i - roll n d t i) /\ visible n ac (fun i => t i + roll n d t i).

(** The trace minus two pulses of amplitudes [a1], [a2] at delays [d1], [d2]. *)
Definition minus_two (n : nat) (x t : nat -> R) (a1 : R) (d1 : Z) (a2 : R) (d2 : Z) : nat -> R :=
  fun i => x i - a1 * roll n d1 t i - a2 * roll n d2 t i.

(** The trace minus a pulse and a constant baseline. *)
Definition minus_pulse_base (n : nat) (x t : nat -> R) (a : R) (d : Z) (b : R) : nat -> R :=
  fun i => x i - a * roll n d t i - b.

(** [a] is the one amplitude that minimises the chi-square at delay [d]. *)
Definition optimal_amp (n : nat) (fs : R) (p : nat -> R) (ac : bool) (x t : nat -> R) (d : Z) (a : R) : Prop :=
  forall b, b <> a ->
    wchi2 n fs p ac (minus_pulse n x t a d) < wchi2 n fs p ac (minus_pulse n x t b d).

(** The delay in bins of entry [j] of a scan. *)
Definition delay (n : nat) (j : Z) : Z := (j - Z.of_nat n / 2)%Z.

(** What a delay scan of the trace [x] with the template [t] is to return: with the
    optimal amplitude at each delay, the first best of the candidate bins, with the true
    chi-square of the residual; without candidates, no pulse. *)
Definition scan_outcome (n : nat) (fs : R) (p : nat -> R) (ac : bool) (x t : nat -> R)
  (nc : option Z) (outside : bool) (dir wc : Z) (r : res (R * R * R)) : Prop :=
  exists amp : Z -> R,
    (forall d, optimal_amp n fs p ac x t d (amp d)) /\
    let cand := candidate n nc outside dir wc (fun j => amp (delay n j)) in
    let chi := fun j => wchi2 n fs p ac (minus_pulse n x t (amp (delay n j)) (delay n j)) in
    ((forall j, ~ cand j) /\ r = Ok (0, 0, wchi2 n fs p ac x)) \/
    (exists j, first_minimum chi cand j /\ r = Ok (amp (delay n j), IZR (delay n j) / fs, chi j)).

(** The current signal after a sequence of calls. *)
Fixpoint current_signal (sg : nat -> R) (cs : list op) : nat -> R :=
  match cs with
  | [] => sg
  | OpUpdate sg' :: cs => current_signal sg' cs
  | _ :: cs => current_signal sg cs
  end.

(** The quadratic that takes the values [ym], [y0], [yp] at [-delta], 0 and [delta]. *)
Definition through3 (ym y0 yp delta t : R) : R :=
  y0 + (yp - ym) / (2 * delta) * t + (yp - 2 * y0 + ym) / (2 * delta ^ 2) * t ^ 2.

(** What a delay scan with interpolation is to return: around the first best bin, the
    quadratics through the scan at three neighbouring delays, both taken at the vertex of
    the quadratic of the chi-square; if the neighbours are no better, the vertex is within
    half a bin and the chi-square is no worse.  The scan has no neighbour behind its last
    bin. *)
Definition interp_outcome (n : nat) (fs : R) (p : nat -> R) (ac : bool) (x t : nat -> R)
  (nc : option Z) (outside : bool) (dir wc : Z) (r : res (R * R * R)) : Prop :=
  exists amp : Z -> R,
    (forall d, optimal_amp n fs p ac x t d (amp d)) /\
    let cand := candidate n nc outside dir wc (fun j => amp (delay n j)) in
    let chi := fun d => wchi2 n fs p ac (minus_pulse n x t (amp d) d) in
    ((forall j, ~ cand j) /\ r = Ok (0, 0, wchi2 n fs p ac x)) \/
    (exists j, first_minimum (fun j => chi (delay n j)) cand j /\
       let d := delay n j in
       let qc := through3 (chi (d - 1)%Z) (chi d) (chi (d + 1)%Z) (1 / fs) in
       let qa := through3 (amp (d - 1)%Z) (amp d) (amp (d + 1)%Z) (1 / fs) in
       (j = (Z.of_nat n - 1)%Z -> r = Err IndexError) /\
       (j <> (Z.of_nat n - 1)%Z -> chi (d - 1)%Z - 2 * chi d + chi (d + 1)%Z <> 0 ->
        exists dt, r = Ok (qa dt, IZR d / fs + dt, qc dt) /\
          (forall u, qc (dt + u) = qc (dt - u)) /\
          (chi d <= chi (d - 1)%Z -> chi d <= chi (d + 1)%Z ->
           Rabs dt <= 1 / fs / 2 /\ qc dt <= chi d))).
