(** * Properties of OFnonlin and MuonTailFit (qetpy/core/_fitting.py) *)
From Coq Require Import Reals ZArith List Bool Lia Lra.
From Verif Require Import Base Dft UtilsSpec OFModel NonlinModel NonlinSpec NonlinProofs1 NonlinProofs2 NonlinProofs3
  NonlinProofs4 NonlinProofs5 NonlinProofs6 NonlinProofs7.
From Coquelicot Require Import Complex.
Import ListNotations.
Local Open Scope R_scope.

(** ** C58: the scaled two-pole pulse *)

(** For both orderings of the time constants the time-domain pulse is a shifted sampling of a pulse
    c*(exp(-t/tau_f) - exp(-t/tau_r)) of height exactly A.  For tau_r < tau_f the frequency-domain form
    is the transform of the same pulse. *)
Theorem C58_peak_partial n fs A tau_r tau_f t0 : 0 < tau_r -> 0 < tau_f -> tau_r <> tau_f ->
  exists c out f, twopoletime n fs true A tau_r tau_f t0 = Ok (Some out) /\ twopole n fs true A tau_r tau_f t0 = Some f /\
    has_peak (fun t => c * (exp (- t / tau_f) - exp (- t / tau_r))) A /\
    is_shift_of (mk n (fun k => c * (exp (- (INR k / fs) / tau_f) - exp (- (INR k / fs) / tau_r)))) (int_trunc (t0 * fs)) 0 out /\
    (tau_r < tau_f -> forall k, exists z,
       fourier (fun t => c * (exp (- t / tau_f) - exp (- t / tau_r))) (2 * PI * fftfreq n fs k) z /\
       f k = shape_at n fs t0 k z).
Proof.
  intros H1 H2 N. destruct (scaled_twopole n fs A tau_r tau_f t0 H1 H2 N) as (c & out & f & E1 & E2 & P & S & F & _).
  exists c, out, f. auto.
Qed.
Print Assumptions C58_peak_partial.

(** For tau_f < tau_r the frequency-domain form is the transform of the negated pulse. *)
Theorem C58_sign_refuted n fs A tau_r tau_f t0 : 0 < tau_f -> tau_f < tau_r -> A <> 0 -> 0 < fs -> (0 < n)%nat ->
  exists c out f, twopoletime n fs true A tau_r tau_f t0 = Ok (Some out) /\ twopole n fs true A tau_r tau_f t0 = Some f /\
    has_peak (fun t => c * (exp (- t / tau_f) - exp (- t / tau_r))) A /\
    is_shift_of (mk n (fun k => c * (exp (- (INR k / fs) / tau_f) - exp (- (INR k / fs) / tau_r)))) (int_trunc (t0 * fs)) 0 out /\
    forall k z, fourier (fun t => c * (exp (- t / tau_f) - exp (- t / tau_r))) (2 * PI * fftfreq n fs k) z ->
                f k = shape_at n fs t0 k (- z)%C /\ f k <> shape_at n fs t0 k z.
Proof. exact (scaled_twopole_wrong n fs A tau_r tau_f t0). Qed.
Print Assumptions C58_sign_refuted.

(** Equal time constants: no exception, but no numbers either. *)
Theorem C58_equal_refuted n fs A tau t0 :
  twopoletime n fs true A tau tau t0 = Ok None /\ twopole n fs true A tau tau t0 = None /\
  onepole n fs true (Some tau) A tau t0 = Ok None.
Proof.
  unfold onepole, twopoletime, twopole, scaled_amp, Reqb.
  destruct (Req_EM_T (tau - tau) 0) as [_|N]; [repeat split|exfalso; apply N; ring].
Qed.
Print Assumptions C58_equal_refuted.

Example C58_ex : exists c out f, twopoletime 100 1000 true (- 3) 2 5 (/ 10) = Ok (Some out) /\
    twopole 100 1000 true (- 3) 2 5 (/ 10) = Some f /\
    has_peak (fun t => c * (exp (- t / 5) - exp (- t / 2))) (- 3).
Proof.
  destruct (C58_peak_partial 100 1000 (- 3) 2 5 (/ 10) ltac:(lra) ltac:(lra) ltac:(lra)) as (c & out & f & E1 & E2 & P & _).
  exists c, out, f. auto.
Qed.
Example C58_sign_ex : exists f, twopole 100 1000 true 1 5 2 0 = Some f /\
  exists c, has_peak (fun t => c * (exp (- t / 2) - exp (- t / 5))) 1 /\
    forall k z, fourier (fun t => c * (exp (- t / 2) - exp (- t / 5))) (2 * PI * fftfreq 100 1000 k) z -> f k <> shape_at 100 1000 0 k z.
Proof.
  destruct (C58_sign_refuted 100 1000 1 5 2 0 ltac:(lra) ltac:(lra) ltac:(lra) ltac:(lra) ltac:(lia)) as (c & out & f & _ & E2 & P & _ & F).
  exists f. split; [exact E2|]. exists c. split; [exact P|]. intros k z Z. exact (proj2 (F k z Z)).
Qed.

(** ** C59: residuals and chi2 *)

(** The reported chi2 times (bins - parameters) is the sum of squares of the residuals at the reported
    parameters, and is the noise-weighted distance between data and model. *)
Theorem C59_nonlin lsq pinv psd fs template taurise0 pulse npole errscale guess bounds taurise sc r c :
  let n := length psd in
  let rise := if (npole =? 1)%Z then taurise else taurise0 in
  snd (fit_falltimes lsq pinv psd fs template taurise0 pulse npole errscale guess bounds taurise sc) = Ok r ->
  nl_chi2 r = Some c ->
  exists z, nl_residuals n fs (nl_data fs pulse) (nl_error (nl_psd psd) errscale) npole sc rise (nl_variables r) = Ok (Some z) /\
    sumsq z = c * (INR n - INR (param_count npole)) /\
    ((forall k, (0 < k < n)%nat -> 0 < nth k psd 0) -> 0 < errscale ->
     exists f, nl_model n fs npole sc rise (nl_variables r) = Ok (Some f) /\
       sumsq z = weighted n (fun k => if Nat.eqb k 0 then 10 ^ 40 else nth k psd 0) errscale (fun k => nl_data fs pulse k - f k)%C).
Proof. exact (fit_chi2 lsq pinv psd fs template taurise0 pulse npole errscale taurise sc guess bounds r c). Qed.
Print Assumptions C59_nonlin.

Theorem C59_muon lsq pinv psd fs signal errscale r c :
  fitmuontail lsq pinv psd fs signal errscale = Ok r -> nl_chi2 r = Some c ->
  exists z, muon_residuals (length psd) fs (nl_data fs signal) (nl_error (fun k => nth k psd 0) errscale) (nl_variables r) = Ok (Some z) /\
    sumsq z = c /\
    ((forall k, (k < length psd)%nat -> 0 < nth k psd 0) -> 0 < errscale ->
     exists A tau, nl_variables r = [A; tau] /\
       c = weighted (length psd) (fun k => nth k psd 0) errscale
             (fun k => nl_data fs signal k - muontailfcn (length psd) fs A tau k)%C).
Proof. exact (muon_chi2 lsq pinv psd fs signal errscale r c). Qed.
Print Assumptions C59_muon.

(** A minimizer for the examples: it stays at the start. *)
Definition stay : lsq_oracle := fun _ x0 _ _ _ => mkLsq x0 (fun _ _ => 0) true.
Lemma stay_ok : minimizer_ok lsq_x stay.
Proof. intros f x0 lb ub s N I. simpl. split; [reflexivity|]. split; [exact I|]. split; [exact N|]. apply Rle_refl. Qed.
Definition nopinv : nat -> (nat -> nat -> R) -> nat -> nat -> R := fun _ _ _ _ => 0.

(** ** C60, C93: acceptance of the start values *)

(** Positive start values lie strictly inside the default bounds, and the fit is carried out. *)
Theorem C60_positive_partial lsq pinv psd fs template taurise0 pulse npole errscale g taurise sc :
  let rise := if (npole =? 1)%Z then taurise else taurise0 in
  minimizer_ok lsq_x lsq -> (0 < length psd)%nat -> length pulse = length psd -> 0 < fs ->
  (npole = 1%Z -> taurise <> None) -> length g = param_count npole -> usable_start npole sc rise g ->
  (inside (fst (default_bounds fs npole g)) (snd (default_bounds fs npole g)) g /\
   proper_bounds (fst (default_bounds fs npole g)) (snd (default_bounds fs npole g))) /\
  exists r, snd (fit_falltimes lsq pinv psd fs template taurise0 pulse npole errscale (Some g) None taurise sc) = Ok r.
Proof.
  intros rise O Hn L Hf T Lg U. split.
  - apply default_inside; [exact Hf|exact Lg|apply U].
  - exact (fit_succeeds lsq pinv psd fs template taurise0 pulse npole errscale taurise sc (Some g) None g O Hn L Hf T eq_refl Lg U I).
Qed.
Print Assumptions C60_positive_partial.

(** A negative amplitude (or time constant) inverts its default bounds, and the fit raises ValueError. *)
Theorem C60_negative_refuted lsq pinv psd fs template taurise0 pulse npole errscale g taurise sc v :
  In v g -> v < 0 ->
  default_upper fs PAmp v < v < default_lower fs PAmp v /\
  snd (fit_falltimes lsq pinv psd fs template taurise0 pulse npole errscale (Some g) None taurise sc) = Err ValueError.
Proof.
  intros Hv N. split; [unfold default_upper, default_lower; lra|].
  apply (fit_nonpositive lsq pinv psd fs template taurise0 pulse npole errscale taurise sc g None v Hv). lra.
Qed.
Print Assumptions C60_negative_refuted.

(** With bounds of the caller: accepted for positive start values ... *)
Theorem C93_bounds_partial lsq pinv psd fs template taurise0 pulse npole errscale g lb ub taurise sc :
  let rise := if (npole =? 1)%Z then taurise else taurise0 in
  minimizer_ok lsq_x lsq -> (0 < length psd)%nat -> length pulse = length psd -> 0 < fs ->
  (npole = 1%Z -> taurise <> None) -> length g = param_count npole -> usable_start npole sc rise g ->
  inside lb ub g -> proper_bounds lb ub ->
  exists r, snd (fit_falltimes lsq pinv psd fs template taurise0 pulse npole errscale (Some g) (Some (lb, ub)) taurise sc) = Ok r
            /\ inside lb ub (nl_variables r).
Proof.
  intros rise O Hn L Hf T Lg U I P.
  destruct (fit_succeeds lsq pinv psd fs template taurise0 pulse npole errscale taurise sc (Some g) (Some (lb, ub)) g O Hn L Hf T eq_refl Lg U (conj I P)) as (r & E).
  exists r. split; [exact E|].
  destruct (fit_descent lsq pinv psd fs template taurise0 pulse npole errscale taurise sc _ _ r O Hn E)
    as (p0 & lb' & ub' & z0 & z & _ & B & In & _). injection B as <- <-. exact In.
Qed.
Print Assumptions C93_bounds_partial.

(** ... but a start value that is zero or negative raises ValueError whatever the bounds, because the
    start values are also used as scales: a negative pulse or a pulse at time zero cannot be fitted. *)
Theorem C93_scale_refuted lsq pinv psd fs template taurise0 pulse npole errscale g bounds taurise sc v :
  In v g -> v <= 0 ->
  snd (fit_falltimes lsq pinv psd fs template taurise0 pulse npole errscale (Some g) bounds taurise sc) = Err ValueError.
Proof. exact (fit_nonpositive lsq pinv psd fs template taurise0 pulse npole errscale taurise sc g bounds v). Qed.
Print Assumptions C93_scale_refuted.

Example C60_ex : exists r,
  snd (fit_falltimes stay nopinv [1; 2; 3; 2] 1000 None None [0; 1; 0; 0] 2 1 (Some [1; 2; 3; 4]) None None true) = Ok r.
Proof.
  apply (C60_positive_partial stay nopinv [1; 2; 3; 2] 1000 None None [0; 1; 0; 0] 2 1 [1; 2; 3; 4] None true).
  - exact stay_ok.
  - simpl; lia.
  - reflexivity.
  - lra.
  - intros X; discriminate X.
  - reflexivity.
  - split; [|split].
    + intros v Hv. simpl in Hv. decompose [or] Hv; subst; lra || contradiction.
    + intros _ _. simpl. lra.
    + intros X. exfalso. now apply X.
Qed.
Example C60_neg_ex : snd (fit_falltimes stay nopinv [1; 2; 3; 2] 1000 None None [0; - 1; 0; 0] 2 1 (Some [- 1; 2; 3; 4]) None None true)
  = Err ValueError.
Proof.
  apply (C60_negative_refuted stay nopinv [1; 2; 3; 2] 1000 None None [0; - 1; 0; 0] 2 1 [- 1; 2; 3; 4] None true (- 1)); [left; reflexivity|lra].
Qed.
Example C93_ex : snd (fit_falltimes stay nopinv [1; 2; 3; 2] 1000 None None [5; 1; 0; 0] 2 1 (Some [5; 2; 3; 0])
   (Some ([Some (-10); Some 0; Some 0; Some (-1)], [Some 10; Some 9; Some 9; None])) None true) = Err ValueError.
Proof.
  apply (C93_scale_refuted stay nopinv [1; 2; 3; 2] 1000 None None [5; 1; 0; 0] 2 1 [5; 2; 3; 0] _ None true 0); [simpl; tauto|lra].
Qed.

(** ** C92: the fit is not worse than its start *)
Theorem C92_descent lsq pinv psd fs template taurise0 pulse npole errscale g bounds taurise sc r :
  let n := length psd in
  let rise := if (npole =? 1)%Z then taurise else taurise0 in
  let resid := nl_residuals n fs (nl_data fs pulse) (nl_error (nl_psd psd) errscale) npole sc rise in
  minimizer_ok lsq_x lsq -> (param_count npole < n)%nat ->
  snd (fit_falltimes lsq pinv psd fs template taurise0 pulse npole errscale (Some g) bounds taurise sc) = Ok r ->
  exists c z0 lb ub,
    nl_chi2 r = Some c /\ resid g = Ok (Some z0) /\ 0 <= c <= sumsq z0 / (INR n - INR (param_count npole)) /\
    match bounds with Some b => b | None => default_bounds fs npole g end = (lb, ub) /\
    inside lb ub (nl_variables r) /\ length (nl_variables r) = length g.
Proof.
  intros n rise resid O Hn E.
  destruct (fit_descent lsq pinv psd fs template taurise0 pulse npole errscale taurise sc _ _ r O ltac:(fold n; lia) E)
    as (p0 & lb & ub & z0 & z & -> & B & I & Lv & Z0 & Z & D & C).
  exists (sumsq z / (INR n - INR (param_count npole))), z0, lb, ub.
  assert (P : 0 < INR n - INR (param_count npole)) by (apply lt_INR in Hn; lra).
  split; [apply C; fold n; lia|]. split; [exact Z0|]. split; [|auto].
  assert (Sq : forall l, 0 <= sumsq l).
  { intros l. unfold sumsq. induction l as [|x l IH]; simpl; [lra|]. assert (H := Rle_0_sqr x). unfold Rsqr in H. lra. }
  split.
  - apply Rmult_le_pos; [apply Sq|]. left. now apply Rinv_0_lt_compat.
  - apply Rmult_le_compat_r; [left; now apply Rinv_0_lt_compat|exact D].
Qed.
Print Assumptions C92_descent.

Example C92_ex : exists r c, snd (fit_falltimes stay nopinv [1; 2; 3; 3; 2] 1000 None None [0; 1; 0; 0; 0] 2 1 (Some [1; 2; 3; 4]) None None true) = Ok r
  /\ nl_chi2 r = Some c /\ 0 <= c.
Proof.
  destruct (C60_positive_partial stay nopinv [1; 2; 3; 3; 2] 1000 None None [0; 1; 0; 0; 0] 2 1 [1; 2; 3; 4] None true) as (_ & r & E).
  - exact stay_ok.
  - simpl; lia.
  - reflexivity.
  - lra.
  - intros X; discriminate X.
  - reflexivity.
  - split; [|split].
    + intros v Hv. simpl in Hv. decompose [or] Hv; subst; lra || contradiction.
    + intros _ _. simpl. lra.
    + intros X. exfalso. now apply X.
  - exists r. destruct (C92_descent stay nopinv [1; 2; 3; 3; 2] 1000 None None [0; 1; 0; 0; 0] 2 1 [1; 2; 3; 4] None None true r stay_ok ltac:(simpl; lia) E)
      as (c & z0 & lb & ub & C & _ & P & _). exists c. split; [exact E|]. split; [exact C|apply P].
Qed.

(** ** C94: automatic start values *)

(** Without [guess] the fit is carried out when the first maximum is at least seven samples after the
    start, the samples around it have a positive mean, and, for the one- and two-pole fits, the maximum
    is not the last sample, the sample rate is at least 10000/3 Hz, and no multiple of the sample time
    equals the rise time. *)
Theorem C94_start_partial lsq pinv psd fs taurise0 pulse npole errscale taurise sc m :
  let rise := if (npole =? 1)%Z then taurise else taurise0 in
  minimizer_ok lsq_x lsq -> length pulse = length psd -> 0 < fs ->
  first_max pulse m -> (7 <= m)%nat -> 0 < lsum (pyslice pulse (Z.of_nat m - 7) (Z.of_nat m + 7)) ->
  (npole = 2%Z -> (m + 1 < length pulse)%nat /\ 10000 / 3 <= fs /\ (sc = true -> forall j : nat, INR (S j) / fs <> 20 / 10 ^ 6)) ->
  (npole = 1%Z -> (m + 1 < length pulse)%nat /\ 10000 / 3 <= fs /\
     exists tau, taurise = Some tau /\ (sc = true -> 0 < tau /\ forall j : nat, INR (S j) / fs <> tau)) ->
  (1 <= npole <= 4)%Z ->
  exists r, snd (fit_falltimes lsq pinv psd fs None taurise0 pulse npole errscale None None taurise sc) = Ok r.
Proof.
  intros rise O L Hf M H7 S W2 W1 Np. destruct (M) as (Lm & _).
  destruct (guess_good fs npole pulse m Hf M H7 S) as (g & G & Lg & P & G2 & G1).
  { intros N3 N4. destruct (Z.eq_dec npole 1) as [X|X]; [destruct (W1 X) as (A & B & _); now split|].
    destruct (W2 ltac:(lia)) as (A & B & _). now split. }
  apply (fit_succeeds lsq pinv psd fs None taurise0 pulse npole errscale taurise sc None None g O ltac:(lia) L Hf); try assumption.
  - intros X. destruct (W1 X) as (_ & _ & tau & -> & _). intros Y; discriminate Y.
  - split; [exact P|]. split.
    + intros E2 Sc. destruct (G2 E2) as (-> & j & ->). destruct (W2 E2) as (_ & _ & W). intros X. apply (W Sc j). now symmetry.
    + intros N2 N3 N4. assert (E1 : npole = 1%Z) by lia. destruct (W1 E1) as (_ & _ & tau & Et & Ht). exists tau. split.
      * unfold rise_time. rewrite E1. exact Et.
      * intros Sc. destruct (Ht Sc) as (Pt & Nt). split; [exact Pt|]. destruct (G1 N2 N3 N4) as (j & ->). intros X. apply (Nt j). now symmetry.
  - exact I.
Qed.
Print Assumptions C94_start_partial.

(** A maximum among the first seven samples (of at least 14): the slice around it is empty. *)
Theorem C94_early_refuted lsq pinv psd fs taurise0 pulse npole errscale bounds taurise sc m :
  first_max pulse m -> (m < 7)%nat -> (14 <= length pulse)%nat ->
  snd (fit_falltimes lsq pinv psd fs None taurise0 pulse npole errscale None bounds taurise sc) = Err ValueError.
Proof. intros M H L. apply (fit_auto_error lsq pinv psd fs None taurise0 pulse npole errscale taurise sc bounds). now apply guess_early with m. Qed.
Print Assumptions C94_early_refuted.

(** One- and two-pole fits of slowly sampled traces, or with the maximum at the last sample: there is no
    sample to take the fall time from. *)
Theorem C94_window_refuted lsq pinv psd fs taurise0 pulse npole errscale bounds taurise sc m :
  first_max pulse m -> npole <> 3%Z -> npole <> 4%Z -> 0 < fs -> fs < 10000 / 3 \/ (m + 1 = length pulse)%nat ->
  snd (fit_falltimes lsq pinv psd fs None taurise0 pulse npole errscale None bounds taurise sc) = Err ValueError.
Proof.
  intros M N3 N4 Hf H. apply (fit_auto_error lsq pinv psd fs None taurise0 pulse npole errscale taurise sc bounds). left.
  assert (K : 300 / 10 ^ 6 * fs = fs * 3 / 10000) by (simpl; field).
  assert (B := base_Int_part (300 / 10 ^ 6 * fs)). destruct B as (B1 & B2).
  assert (T : int_trunc (300 / 10 ^ 6 * fs) = Int_part (300 / 10 ^ 6 * fs)).
  { unfold int_trunc, Rltb. destruct (Rlt_dec (300 / 10 ^ 6 * fs) 0); [exfalso; lra|reflexivity]. }
  assert (Tm : (-1 < Int_part (300 / 10 ^ 6 * fs))%Z) by (apply lt_IZR; lra).
  apply guess_window with m; try assumption.
  - destruct H as [H|H]; [left|right; lia]. rewrite T. apply Z.lt_succ_r, lt_IZR. change (IZR (Z.succ 0)) with 1. lra.
  - rewrite T. lia.
Qed.
Print Assumptions C94_window_refuted.

(** Two-pole fit at 50 kHz when the sample after the maximum is the one closest to 0.37 times the
    amplitude: the guessed fall time equals the guessed rise time, where the pulse is nan. *)
Theorem C94_equal_refuted lsq pinv psd taurise0 pulse errscale bounds taurise m :
  first_max pulse m -> (7 <= m)%nat -> (m + 1 < length pulse)%nat ->
  let a := lmean (pyslice pulse (Z.of_nat m - 7) (Z.of_nat m + 7)) in
  (forall i, (m + 1 < i < m + 16)%nat -> (i < length pulse)%nat ->
     Rabs (nth (m + 1) pulse 0 - 37 / 100 * a) <= Rabs (nth i pulse 0 - 37 / 100 * a)) ->
  snd (fit_falltimes lsq pinv psd 50000 None taurise0 pulse 2 errscale None bounds taurise true) = Err ValueError.
Proof.
  intros M H7 Lp a Cl. assert (G := guess_equal pulse m M H7 Lp Cl).
  apply (fit_nan lsq pinv psd 50000 None taurise0 pulse 2 errscale taurise true bounds _ G).
  unfold nl_model. change (2 =? 4)%Z with false. change (2 =? 3)%Z with false. change (2 =? 2)%Z with true. cbv iota.
  unfold twopole, scaled_amp, Reqb. destruct (Req_EM_T (20 / 10 ^ 6 - 20 / 10 ^ 6) 0) as [_|N]; [reflexivity|exfalso; lra].
Qed.
Print Assumptions C94_equal_refuted.

(** A spike at sample [p] of [n] *)
Definition spike (n p : nat) : list R := mk n (fun i => if Nat.eqb i p then 1 else 0).
Lemma nth_spike n p i : (p < n)%nat -> nth i (spike n p) 0 = if Nat.eqb i p then 1 else 0.
Proof.
  intros Hp. destruct (Nat.lt_ge_cases i n) as [H|H].
  - unfold spike. now rewrite OFProofs2.nth_mk by exact H.
  - rewrite nth_overflow by (unfold spike; rewrite mk_length; lia). destruct (Nat.eqb_spec i p); [lia|reflexivity].
Qed.
Lemma spike_max n p : (p < n)%nat -> first_max (spike n p) p.
Proof.
  intros H. split; [unfold spike; rewrite mk_length; exact H|]. intros i Hi. rewrite !nth_spike by exact H.
  rewrite Nat.eqb_refl. destruct (Nat.eqb_spec i p); split; intros; try lra; lia.
Qed.

Example C94_start_ex : exists r,
  snd (fit_falltimes stay nopinv (spike 16 0) 30000 None None (spike 16 8) 2 1 None None None true) = Ok r.
Proof.
  apply (C94_start_partial stay nopinv (spike 16 0) 30000 None (spike 16 8) 2 1 None true 8).
  - exact stay_ok.
  - reflexivity.
  - lra.
  - apply spike_max. lia.
  - lia.
  - cbv [spike mk seq map pyslice slice_bound]. simpl. lra.
  - intros _. split; [simpl; lia|]. split; [lra|]. intros _ j X.
    assert (Y : INR (S j) = 3 / 5). { apply (f_equal (fun v => v * 30000)) in X. simpl pow in X. unfold Rdiv in X. field_simplify in X. lra. }
    rewrite INR_IZR_INZ in Y. assert (Z : 0 < IZR (Z.of_nat (S j)) < 1) by lra. destruct Z as (Z1 & Z2).
    apply lt_IZR in Z1, Z2. lia.
  - intros X; discriminate X.
  - lia.
Qed.
Example C94_early_ex : snd (fit_falltimes stay nopinv (spike 20 0) 625000 None None (spike 20 3) 4 1 None None None true) = Err ValueError.
Proof. apply C94_early_refuted with 3%nat; [apply spike_max; lia|lia|unfold spike; rewrite mk_length; lia]. Qed.
Example C94_slow_ex : snd (fit_falltimes stay nopinv (spike 20 0) 1000 None None (spike 20 9) 2 1 None None None true) = Err ValueError.
Proof. apply C94_window_refuted with 9%nat; [apply spike_max; lia|lia|lia|lra|left; lra]. Qed.
Example C94_equal_ex : snd (fit_falltimes stay nopinv (spike 20 0) 50000 None None (spike 20 9) 2 1 None None None true) = Err ValueError.
Proof.
  apply C94_equal_refuted with 9%nat; [apply spike_max; lia|lia|unfold spike; rewrite mk_length; lia|].
  intros i Hi _. rewrite !nth_spike by lia. destruct (Nat.eqb_spec (9 + 1) 9); [lia|]. destruct (Nat.eqb_spec i 9); [lia|]. apply Rle_refl.
Qed.

(** ** C95: start of the muon tail fit *)

(** The fit is carried out exactly when the signal is not constant and its first sample is not the one
    closest to (max - min)/e; otherwise ValueError is raised. *)
Theorem C95_muon lsq pinv psd fs signal errscale a : minimizer_ok lsq_x lsq -> 0 < fs -> (0 < length psd)%nat ->
  length signal = length psd -> is_range signal a ->
  ((exists r, fitmuontail lsq pinv psd fs signal errscale = Ok r) <->
   0 < a /\ exists j, (j < length signal)%nat /\
     Rabs (nth j signal 0 - a / exp 1) < Rabs (nth 0 signal 0 - a / exp 1)) /\
  (forall e, fitmuontail lsq pinv psd fs signal errscale = Err e -> e = ValueError).
Proof. exact (muon_iff lsq pinv psd fs signal errscale a). Qed.
Print Assumptions C95_muon.

Lemma range21 : is_range [2; 1] 1.
Proof.
  split.
  - exists 0%nat, 1%nat. simpl. split; [lia|]. split; [lia|]. lra.
  - intros [|[|i]] [|[|j]] Hi Hj; simpl in *; lra || lia.
Qed.
Lemma e_pos : 0 < 1 / exp 1 < 1.
Proof.
  assert (H := exp_ineq1 1 ltac:(lra)). split; [apply Rdiv_lt_0_compat; lra|].
  apply (Rmult_lt_reg_r (exp 1)); [lra|]. unfold Rdiv. rewrite Rmult_assoc, Rinv_l; lra.
Qed.
Example C95_ex : exists r, fitmuontail stay nopinv [1; 1] 10 [2; 1] 1 = Ok r.
Proof.
  apply (C95_muon stay nopinv [1; 1] 10 [2; 1] 1 1 stay_ok ltac:(lra) ltac:(simpl; lia) eq_refl range21).
  split; [lra|]. exists 1%nat. split; [simpl; lia|]. simpl. assert (H := e_pos). rewrite !Rabs_right by lra. lra.
Qed.

(** ** C96: unsupported numbers of poles *)

(** A number of poles other than 1, 2, 3, 4 is not rejected.  After a one-pole fit it repeats that fit
    with the rise time of the earlier call. *)
Theorem C96_stale_refuted lsq pinv psd fs template tau tau0 pulse0 pulse npole errscale guess0 guess bounds0 bounds taurise sc :
  npole <> 1%Z -> npole <> 2%Z -> npole <> 3%Z -> npole <> 4%Z ->
  let first := fit_falltimes lsq pinv psd fs template tau0 pulse0 1 errscale guess0 bounds0 (Some tau) sc in
  fst first = Some tau /\
  snd (fit_falltimes lsq pinv psd fs template (fst first) pulse npole errscale guess bounds taurise sc)
  = snd (fit_falltimes lsq pinv psd fs template (fst first) pulse 1 errscale guess bounds (Some tau) sc).
Proof.
  intros N1 N2 N3 N4 first. assert (E : fst first = Some tau) by reflexivity. split; [exact E|]. rewrite E.
  now apply other_pole.
Qed.
Print Assumptions C96_stale_refuted.
(** On a new object it raises TypeError from within the residuals, even if a rise time is passed. *)
Theorem C96_type_refuted lsq pinv psd fs template pulse npole errscale g taurise sc :
  npole <> 1%Z -> npole <> 2%Z -> npole <> 3%Z -> npole <> 4%Z -> 0 < fs -> length pulse = length psd ->
  length g = 3%nat -> (forall v, In v g -> 0 < v) ->
  snd (fit_falltimes lsq pinv psd fs template None pulse npole errscale (Some g) None taurise sc) = Err TypeError.
Proof. exact (other_pole_type lsq pinv psd fs template pulse npole errscale g taurise sc). Qed.
Print Assumptions C96_type_refuted.
(** A wrong number of start values, or a missing rise time of a one-pole fit, raises ValueError. *)
Theorem C96_rejects_partial lsq pinv psd fs template taurise0 pulse npole errscale g bounds taurise sc :
  length g <> param_count npole \/ (npole = 1%Z /\ taurise = None) ->
  snd (fit_falltimes lsq pinv psd fs template taurise0 pulse npole errscale (Some g) bounds taurise sc) = Err ValueError.
Proof.
  intros H. unfold fit_falltimes.
  destruct ((npole =? 1)%Z && match taurise with None => true | Some _ => false end)%bool eqn:E; [reflexivity|].
  destruct H as [H|(-> & ->)]; [|discriminate E].
  cbv zeta. cbn [snd]. destruct (negb _); [reflexivity|]. rewrite dof_count.
  destruct (Nat.eqb_spec (length g) (param_count npole)); [contradiction|reflexivity].
Qed.
Print Assumptions C96_rejects_partial.

Example C96_type_ex : snd (fit_falltimes stay nopinv [1; 2; 3; 2] 1000 None None [0; 1; 0; 0] 5 1 (Some [1; 2; 3]) None (Some 7) true) = Err TypeError.
Proof.
  apply C96_type_refuted; try lia; try lra; try reflexivity.
  intros v Hv. simpl in Hv. decompose [or] Hv; subst; lra || contradiction.
Qed.
Example C96_reject_ex : snd (fit_falltimes stay nopinv [1; 2; 3; 2] 1000 None None [0; 1; 0; 0] 3 1 (Some [1; 2; 3]) None None true) = Err ValueError.
Proof. apply C96_rejects_partial. left. simpl. lia. Qed.

(** ** C97: the pulse models nest, and belong to real pulses *)
Theorem C97_nesting n fs A B tau_r tau_f1 tau_f2 tau_f3 t0 k :
  fourpole n fs A B 0 tau_r tau_f1 tau_f2 tau_f3 t0 k = threepole n fs A B tau_r tau_f1 tau_f2 t0 k /\
  (exists f, twopole n fs false A tau_r tau_f1 t0 = Some f /\ threepole n fs A 0 tau_r tau_f1 tau_f2 t0 k = f k) /\
  (forall sc, onepole n fs sc (Some tau_r) A tau_f1 t0 = Ok (twopole n fs sc A tau_r tau_f1 t0)).
Proof.
  split; [apply fourpole_three|]. split; [|reflexivity].
  eexists. split; [reflexivity|]. now apply threepole_two.
Qed.
Print Assumptions C97_nesting.
(** The value at a negative frequency is the conjugate of the value at the positive frequency. *)
Theorem C97_hermitian n fs npole sc rise params f k :
  nl_model n fs npole sc rise params = Ok (Some f) -> (0 < k < n)%nat -> (2 * k <> n)%nat ->
  f (n - k)%nat = Cconj (f k).
Proof. exact (model_hermitian n fs npole sc rise params f k). Qed.
Print Assumptions C97_hermitian.
Example C97_ex : exists f, nl_model 5 1000 2 true None [1; 2; 3; 4] = Ok (Some f) /\ f 3%nat = Cconj (f 2%nat).
Proof.
  destruct (model_total 5 1000 2 true None [1; 2; 3; 4] eq_refl) as (f & E).
  - split; [|split].
    + intros v Hv. simpl in Hv. decompose [or] Hv; subst; lra || contradiction.
    + intros _ _. simpl. lra.
    + intros X. exfalso. now apply X.
  - exists f. split; [exact E|]. exact (C97_hermitian 5 1000 2 true None [1; 2; 3; 4] f 2 E ltac:(lia) ltac:(lia)).
Qed.

(** ** C98: frequency-domain pulses are the transforms of the time-domain pulses *)
Theorem C98_fourpole n fs A B D tau_r t1 t2 t3 t0 : 0 < tau_r -> 0 < t1 -> 0 < t2 -> 0 < t3 ->
  let p t := A * exp (- t / t1) + B * exp (- t / t2) + D * exp (- t / t3) - (A + B + D) * exp (- t / tau_r) in
  (exists out, fourpoletime n fs A B D tau_r t1 t2 t3 t0 = Ok out /\
               is_shift_of (mk n (fun k => p (INR k / fs))) (int_trunc (t0 * fs)) 0 out) /\
  p 0 = 0 /\
  forall k, exists z, fourier p (2 * PI * fftfreq n fs k) z /\
                      fourpole n fs A B D tau_r t1 t2 t3 t0 k = shape_at n fs t0 k z.
Proof. exact (fourpole_fourier n fs A B D tau_r t1 t2 t3 t0). Qed.
Print Assumptions C98_fourpole.
Theorem C98_threepole n fs A B tau_r t1 t2 t0 : 0 < tau_r -> 0 < t1 -> 0 < t2 ->
  let p t := A * exp (- t / t1) + B * exp (- t / t2) - (A + B) * exp (- t / tau_r) in
  (exists out, threepoletime n fs A B tau_r t1 t2 t0 = Ok out /\
               is_shift_of (mk n (fun k => p (INR k / fs))) (int_trunc (t0 * fs)) 0 out) /\
  p 0 = 0 /\
  forall k, exists z, fourier p (2 * PI * fftfreq n fs k) z /\
                      threepole n fs A B tau_r t1 t2 t0 k = shape_at n fs t0 k z.
Proof. exact (threepole_fourier n fs A B tau_r t1 t2 t0). Qed.
Print Assumptions C98_threepole.
Theorem C98_twopole n fs A tau_r tau_f t0 : 0 < tau_r -> 0 < tau_f ->
  let p t := A * exp (- t / tau_f) - A * exp (- t / tau_r) in
  (exists out, twopoletime n fs false A tau_r tau_f t0 = Ok (Some out) /\
               is_shift_of (mk n (fun k => p (INR k / fs))) (int_trunc (t0 * fs)) 0 out) /\
  p 0 = 0 /\
  exists f, twopole n fs false A tau_r tau_f t0 = Some f /\
  forall k, exists z, fourier p (2 * PI * fftfreq n fs k) z /\ f k = shape_at n fs t0 k z.
Proof. exact (twopole_fourier n fs A tau_r tau_f t0). Qed.
Print Assumptions C98_twopole.
Theorem C98_muon n fs A tau : 0 < tau ->
  forall k, exists z, fourier (fun t => A * exp (- t / tau)) (2 * PI * fftfreq n fs k) z /\
                      muontailfcn n fs A tau k = shape_at n fs 0 k z.
Proof. exact (muon_fourier n fs A tau). Qed.
Print Assumptions C98_muon.
Example C98_ex : exists z, fourier (fun t => 3 * exp (- t / 2)) (2 * PI * fftfreq 7 1000 2) z /\ muontailfcn 7 1000 3 2 2 = shape_at 7 1000 0 2 z.
Proof. apply C98_muon. lra. Qed.

(** ** C149: what the nonlinear fit works with and reports *)

(** The minimizer gets the residuals, the start values, the caller's bounds or the documented ones, and the
    start values as scales.  Reported are its parameters and success flag, the (pseudo)inverse of the
    product of its Jacobian with itself, and the roots of the diagonal. *)
Theorem C149_result lsq pinv psd fs template taurise0 pulse npole errscale g bounds taurise sc r :
  let rise := if (npole =? 1)%Z then taurise else taurise0 in
  snd (fit_falltimes lsq pinv psd fs template taurise0 pulse npole errscale (Some g) bounds taurise sc) = Ok r ->
  exists f lb ub,
    (forall p z, nl_residuals (length psd) fs (nl_data fs pulse) (nl_error (nl_psd psd) errscale) npole sc rise p = Ok (Some z) -> f p = z) /\
    match bounds with Some b => b = (lb, ub) | None => documented_box fs npole g lb ub end /\
    let out := lsq f g lb ub g in
    nl_variables r = lsq_x out /\ nl_success r = lsq_success out /\
    nl_cov r = pinv (length (lsq_x out)) (fun i j => rsum (2 * length psd) (fun k => lsq_jac out k i * lsq_jac out k j)) /\
    length (nl_errors r) = length (lsq_x out) /\
    forall i, (i < length (lsq_x out))%nat -> nth i (nl_errors r) 0 = sqrt (nl_cov r i i).
Proof. exact (fit_result lsq pinv psd fs template taurise0 pulse npole errscale taurise sc g bounds r). Qed.
Print Assumptions C149_result.

(** Without [guess] the fit is the one started from the documented values: the mean of the 14 samples around
    the maximum (of the template, scaled by the range of the pulse, if there is one), a third of it for the
    further amplitudes, fixed time constants or the first sample closest to 0.37 times the amplitude within
    300 us, and the time of the maximum. *)
Theorem C149_start lsq pinv psd fs template taurise0 pulse npole errscale bounds taurise sc m s :
  0 < fs -> pulse <> [] -> match template with Some t => is_range pulse s | None => s = 1 end ->
  let tg := match template with Some t => t | None => pulse end in
  first_max tg m -> (7 <= m)%nat ->
  (npole <> 3%Z -> npole <> 4%Z -> (m + 1 < length pulse)%nat /\ 10000 / 3 <= fs) ->
  exists g, auto_start fs npole pulse m (s * lmean (pyslice tg (Z.of_nat m - 7) (Z.of_nat m + 7))) g /\
    snd (fit_falltimes lsq pinv psd fs template taurise0 pulse npole errscale None bounds taurise sc)
    = snd (fit_falltimes lsq pinv psd fs template taurise0 pulse npole errscale (Some g) bounds taurise sc).
Proof.
  intros Hf Np Hs tg M H7 W. destruct (guess_values fs npole template pulse m s Hf Np Hs M H7 W) as (g & A & G & L).
  exists g. split; [exact A|]. now apply fit_start.
Qed.
Print Assumptions C149_start.

(** The documented order of the parameters. *)
Theorem C149_parameters n fs sc rise A B D tau_r t1 t2 t3 t0 : 0 < tau_r -> 0 < t1 -> 0 < t2 -> 0 < t3 ->
  (exists f, nl_model n fs 4 sc rise [A; B; D; tau_r; t1; t2; t3; t0] = Ok (Some f) /\ forall k, exists z,
     fourier (fun t => A * exp (- t / t1) + B * exp (- t / t2) + D * exp (- t / t3) - (A + B + D) * exp (- t / tau_r)) (2 * PI * fftfreq n fs k) z /\
     f k = shape_at n fs t0 k z) /\
  (exists f, nl_model n fs 3 sc rise [A; B; tau_r; t1; t2; t0] = Ok (Some f) /\ forall k, exists z,
     fourier (fun t => A * exp (- t / t1) + B * exp (- t / t2) - (A + B) * exp (- t / tau_r)) (2 * PI * fftfreq n fs k) z /\
     f k = shape_at n fs t0 k z) /\
  (exists f, nl_model n fs 2 false rise [A; tau_r; t1; t0] = Ok (Some f) /\ forall k, exists z,
     fourier (fun t => A * exp (- t / t1) - A * exp (- t / tau_r)) (2 * PI * fftfreq n fs k) z /\
     f k = shape_at n fs t0 k z).
Proof. exact (params_fourier n fs sc rise A B D tau_r t1 t2 t3 t0). Qed.
Print Assumptions C149_parameters.

(** The data have the units of the psd: their power, integrated over frequency, is the mean square of the trace. *)
Theorem C149_data_power fs pulse : 0 < fs -> pulse <> [] ->
  rsum (length pulse) (fun k => cn2 (nl_data fs pulse k)) * (fs / INR (length pulse)) = lmean (map (fun v => v * v) pulse).
Proof. exact (data_power fs pulse). Qed.
Print Assumptions C149_data_power.

(** The rise time kept by the object changes only by a one-pole fit with a rise time. *)
Theorem C149_rise_kept lsq pinv psd fs template taurise0 pulse npole errscale guess bounds taurise sc :
  fst (fit_falltimes lsq pinv psd fs template taurise0 pulse npole errscale guess bounds taurise sc)
  = match npole, taurise with 1%Z, Some tau => Some tau | _, _ => taurise0 end.
Proof. exact (fit_rise lsq pinv psd fs template taurise0 pulse npole errscale taurise sc guess bounds). Qed.
Print Assumptions C149_rise_kept.

Example C149_ex : exists r lb ub,
  snd (fit_falltimes stay nopinv [1; 2; 3; 2] 1000 None None [0; 1; 0; 0] 2 1 (Some [1; 2; 3; 4]) None None true) = Ok r /\
  documented_box 1000 2 [1; 2; 3; 4] lb ub /\ nth 1 lb None = Some (2 / 10) /\ nl_variables r = [1; 2; 3; 4].
Proof.
  destruct C60_ex as (r & E). exists r.
  destruct (C149_result stay nopinv [1; 2; 3; 2] 1000 None None [0; 1; 0; 0] 2 1 [1; 2; 3; 4] None None true r E) as (f & lb & ub & _ & B & V & _).
  exists lb, ub. split; [exact E|]. split; [exact B|]. split; [|exact V].
  exact (proj1 (proj1 (proj2 (proj2 (proj2 B) 1%nat ltac:(cbn; lia))) ltac:(cbn; lia))).
Qed.
Example C149_start_ex : exists g, auto_start 30000 4 (spike 16 8) 8 (1 * lmean (pyslice (spike 16 8) (Z.of_nat 8 - 7) (Z.of_nat 8 + 7))) g.
Proof.
  destruct (C149_start stay nopinv (spike 16 0) 30000 None None (spike 16 8) 4 1 None None true 8 1) as (g & A & _);
    [lra|discriminate|reflexivity|apply spike_max; lia|lia|intros _ X; exfalso; now apply X|]. now exists g.
Qed.
