(** * Properties of the optimum filters (qetpy/core/_fitting.py:148-1582) *)
From Coq Require Import Reals Lra.
From Coquelicot Require Import Coquelicot.
From Verif Require Import Base Dft WindowModel WindowSpec OFModel OFFreeModel FloatModel OFSpec
  OFProofs2 OFProofs3 OFProofs4 OFProofs5 OFProofs6 OFProofs7 OFProofs8 OFProofs9 OFProofs10 OFProofs11.
From Coq Require Import Reals Lra.
Local Open Scope R_scope.

(** A non-trivial fit problem used in the examples: three bins, a spike template. *)
Example OF_problem_ex : forall ac, fit_problem 3 (spike 0) unit_psd 1 ac false.
Proof. exact spike_problem. Qed.
(** Valid arguments of a constrained fit of this problem. *)
Example OF_args_ex : valid_args 3 (Some 2%Z) 1 (-1) /\ valid_args 3 None 0 0 /\ valid_args 3 (Some 9%Z) (-1) 1.
Proof. unfold valid_args, valid_center. repeat split; try (intros ? [= <-]); try discriminate; vm_compute; intuition congruence. Qed.

(** ** C18, C20: the delay scan *)
Theorem C20_scan : forall n signal template p fs ac inorm a,
  fit_problem n template p fs ac inorm -> interp_t0 a = false ->
  valid_args n (nconstrain a) (direction a) (wcenter a) ->
  scan_outcome n fs p ac signal (used_template n fs template inorm)
    (nconstrain a) (outside a) (direction a) (wcenter a)
    (snd (ofamp_withdelay a (of_init n signal template p fs ac inorm))).
Proof. intros n signal template p fs ac inorm a H. exact (withdelay_spec n signal template p fs ac inorm H a). Qed.
Print Assumptions C20_scan.

Theorem C20_global : forall n signal template p fs ac inorm out,
  fit_problem n template p fs ac inorm ->
  let t := used_template n fs template inorm in
  exists a j, (0 <= j < Z.of_nat n)%Z /\
    snd (ofamp_withdelay (mkArgs None out 0 0 false) (of_init n signal template p fs ac inorm)) =
      Ok (a, IZR (delay n j) / fs, wchi2 n fs p ac (minus_pulse n signal t a (delay n j))) /\
    forall a' d', wchi2 n fs p ac (minus_pulse n signal t a (delay n j))
                  <= wchi2 n fs p ac (minus_pulse n signal t a' d').
Proof. intros n signal template p fs ac inorm out H. exact (scan_global n signal template p fs ac inorm H out). Qed.
Print Assumptions C20_global.

Theorem C20_single_bin : forall n signal template p fs ac inorm wc,
  fit_problem n template p fs ac inorm -> valid_center (Z.of_nat n) wc ->
  let o := of_init n signal template p fs ac inorm in
  exists a c, snd (ofamp_nodelay wc o) = Ok (a, c) /\
    snd (ofamp_withdelay (mkArgs (Some 1%Z) false 0 wc false) o) = Ok (a, IZR wc / fs, c).
Proof. intros n signal template p fs ac inorm wc H. exact (scan_single n signal template p fs ac inorm H wc). Qed.
Print Assumptions C20_single_bin.

Example C20_ex : valid_center 3 (-1) /\
  snd (ofamp_withdelay (mkArgs None false 0 0 false) (of_init 2 osc osc unit_psd 1 true false)) = Ok (-1, -1, 0).
Proof. split; [unfold valid_center; vm_compute; intuition congruence|apply osc_scan]. Qed.

Theorem C18_invalid_arguments : forall n signal template p fs ac inorm a,
  fit_problem n template p fs ac inorm -> ~ valid_args n (nconstrain a) (direction a) (wcenter a) ->
  snd (ofamp_withdelay a (of_init n signal template p fs ac inorm)) = Err ValueError.
Proof. intros n signal template p fs ac inorm a H. exact (withdelay_errors n signal template p fs ac inorm H a). Qed.
Print Assumptions C18_invalid_arguments.
Example C18_invalid_ex : ~ valid_args 3 (Some 0%Z) 0 0 /\ ~ valid_args 3 None 2 0 /\ ~ valid_args 3 None 0 2.
Proof.
  unfold valid_args, valid_center. repeat split.
  - intros (_ & _ & H). specialize (H _ eq_refl). lia.
  - intros (H & _). lia.
  - intros (_ & H & _). revert H. change (Z.of_nat 3 / 2)%Z with 1%Z. lia.
Qed.

(** No allowed bin: amplitude 0, time 0 and the no-pulse chi-square... *)
Theorem C18_empty_window : forall n signal template p fs ac inorm k,
  fit_problem n template p fs ac inorm -> (Z.of_nat n <= k)%Z ->
  snd (ofamp_withdelay (mkArgs (Some k) true 0 0 false) (of_init n signal template p fs ac inorm))
  = Ok (0, 0, wchi2 n fs p ac signal).
Proof. intros n signal template p fs ac inorm k H. exact (withdelay_all_outside n signal template p fs ac inorm H k). Qed.
Print Assumptions C18_empty_window.

(** ... but the stationary pileup fit raises, with its default [lgcoutsidewindow=True]. *)
Theorem C18_stationary_refuted : forall n signal template p fs ac inorm k,
  fit_problem n template p fs ac inorm -> (Z.of_nat n <= k)%Z ->
  snd (pileup_stationary (Some k) true 0 (of_init n signal template p fs ac inorm)) = Err IndexError.
Proof. intros n signal template p fs ac inorm k H. exact (stationary_all_outside n signal template p fs ac inorm H k). Qed.
Print Assumptions C18_stationary_refuted.
Example C18_empty_ex : (Z.of_nat 3 <= 4)%Z /\ fit_problem 3 (spike 0) unit_psd 1 true false.
Proof. split; [lia|apply spike_problem]. Qed.

(** ** C19 *)
Theorem C19_nodelay_optimal : forall n signal template p fs ac inorm d,
  fit_problem n template p fs ac inorm ->
  let t := used_template n fs template inorm in
  exists a, snd (ofamp_nodelay d (of_init n signal template p fs ac inorm))
            = Ok (a, wchi2 n fs p ac (minus_pulse n signal t a d)) /\
    forall b, b <> a -> wchi2 n fs p ac (minus_pulse n signal t a d) < wchi2 n fs p ac (minus_pulse n signal t b d).
Proof. intros n signal template p fs ac inorm d H. exact (nodelay_spec n signal template p fs ac inorm H d). Qed.
Print Assumptions C19_nodelay_optimal.
Example C19_ex : fit_problem 3 (spike 0) unit_psd 1 true false /\
  snd (ofamp_nodelay 0 (of_init 2 osc osc unit_psd 1 true false)) = Ok (1, 0).
Proof.
  split; [apply spike_problem|].
  apply (pulse_nodelay 2 osc osc unit_psd 1 true false (osc_problem true) 1 0).
  intros i Hi. rewrite (roll_0 2 osc unit_psd 1 true false (osc_problem true)) by exact Hi.
  unfold used_template. ring.
Qed.

(** ** C21 *)
Theorem C21_pulse_nodelay : forall n signal template p fs ac inorm A d,
  fit_problem n template p fs ac inorm ->
  (forall i, (i < n)%nat -> signal i = A * roll n d (used_template n fs template inorm) i) ->
  snd (ofamp_nodelay d (of_init n signal template p fs ac inorm)) = Ok (A, 0).
Proof. intros n signal template p fs ac inorm A d H. exact (pulse_nodelay n signal template p fs ac inorm H A d). Qed.
Print Assumptions C21_pulse_nodelay.

Theorem C21_pulse_scan_partial : forall n signal template p fs ac inorm A d a,
  fit_problem n template p fs ac inorm ->
  (forall i, (i < n)%nat -> signal i = A * roll n d (used_template n fs template inorm) i) ->
  interp_t0 a = false -> valid_args n (nconstrain a) (direction a) (wcenter a) ->
  (exists j, delay n j = d /\
     allowed (Z.of_nat n) (nconstrain a) (outside a) (fun _ => direction_ok (direction a) A) (wcenter a) j) ->
  exists amp t, snd (ofamp_withdelay a (of_init n signal template p fs ac inorm)) = Ok (amp, t, 0) /\
    (amp = A \/ amp = - A) /\ direction_ok (direction a) amp.
Proof.
  intros n signal template p fs ac inorm A d a H Hs. exact (pulse_scan n signal template p fs ac inorm H A d Hs a).
Qed.
Print Assumptions C21_pulse_scan_partial.

(** The amplitude found by the scan can be [-A]: the template below is minus itself when
    delayed by one bin. *)
Theorem C21_scan_amplitude_refuted : exists n signal template p fs ac A d r,
  fit_problem n template p fs ac false /\
  (forall i, (i < n)%nat -> signal i = A * roll n d (used_template n fs template false) i) /\
  snd (ofamp_withdelay (mkArgs None false 0 0 false) (of_init n signal template p fs ac false)) = Ok r /\
  fst (fst r) <> A.
Proof.
  exists 2%nat, osc, osc, unit_psd, 1, true, 1, 0%Z, (-1, -1, 0).
  split; [apply osc_problem|]. split.
  - intros i Hi. rewrite (roll_0 2 osc unit_psd 1 true false (osc_problem true)) by exact Hi. unfold used_template. ring.
  - split; [apply osc_scan|]. simpl. lra.
Qed.
Print Assumptions C21_scan_amplitude_refuted.
Example C21_ex : let sg := fun i => 5 * roll 3 1 (used_template 3 1 (spike 0) false) i in
  fit_problem 3 (spike 0) unit_psd 1 true false /\ valid_args 3 (Some 2%Z) 1 1 /\
  (exists j, delay 3 j = 1%Z /\ allowed 3 (Some 2%Z) false (fun _ => direction_ok 1 5) 1 j) /\
  sg 1%nat = 5 /\ sg 0%nat = 0.
Proof.
  cbn zeta. split; [apply spike_problem|]. split; [|split; [|split]].
  - unfold valid_args, valid_center. repeat split; try (intros ? [= <-]); vm_compute; intuition congruence.
  - exists 2%Z. split; [reflexivity|]. unfold allowed, in_window. split; [lia|]. split; [vm_compute; intuition congruence|].
    right; left. split; [reflexivity|lra].
  - unfold used_template. rewrite roll3 by lia. vm_compute Z.to_nat. unfold spike. cbn [Nat.eqb]. ring.
  - unfold used_template. rewrite roll3 by lia. vm_compute Z.to_nat. unfold spike. cbn [Nat.eqb]. ring.
Qed.

(** ** C22 *)
Theorem C22_nodelay_additive : forall n x y template p fs ac inorm c d ax cx ay cy,
  fit_problem n template p fs ac inorm ->
  snd (ofamp_nodelay d (of_init n x template p fs ac inorm)) = Ok (ax, cx) ->
  snd (ofamp_nodelay d (of_init n y template p fs ac inorm)) = Ok (ay, cy) ->
  exists c', snd (ofamp_nodelay d (of_init n (fun i => x i + c * y i) template p fs ac inorm)) = Ok (ax + c * ay, c').
Proof. intros n x y template p fs ac inorm c d ax cx ay cy H. exact (nodelay_linear n template p fs ac inorm H x y c d ax cx ay cy). Qed.
Print Assumptions C22_nodelay_additive.

Theorem C22_nodelay_scaling : forall n x template p fs ac inorm c d ax cx,
  fit_problem n template p fs ac inorm ->
  snd (ofamp_nodelay d (of_init n x template p fs ac inorm)) = Ok (ax, cx) ->
  snd (ofamp_nodelay d (of_init n (fun i => c * x i) template p fs ac inorm)) = Ok (c * ax, c ^ 2 * cx).
Proof. intros n x template p fs ac inorm c d ax cx H. exact (nodelay_scal n template p fs ac inorm H x c d ax cx). Qed.
Print Assumptions C22_nodelay_scaling.

Theorem C22_scan_scaling : forall n x template p fs ac inorm c a,
  fit_problem n template p fs ac inorm -> interp_t0 a = false ->
  valid_args n (nconstrain a) (direction a) (wcenter a) ->
  0 < c \/ (c <> 0 /\ direction a = 0%Z) ->
  exists ax tx cx,
    snd (ofamp_withdelay a (of_init n x template p fs ac inorm)) = Ok (ax, tx, cx) /\
    snd (ofamp_withdelay a (of_init n (fun i => c * x i) template p fs ac inorm)) = Ok (c * ax, tx, c ^ 2 * cx).
Proof. intros n x template p fs ac inorm c a H. exact (withdelay_scal n template p fs ac inorm H x c a). Qed.
Print Assumptions C22_scan_scaling.

Theorem C22_chi2_bounds : forall n signal template p fs ac inorm a amp t c,
  fit_problem n template p fs ac inorm -> interp_t0 a = false ->
  snd (ofamp_withdelay a (of_init n signal template p fs ac inorm)) = Ok (amp, t, c) ->
  0 <= c <= wchi2 n fs p ac signal.
Proof. intros n signal template p fs ac inorm a amp t c H. exact (withdelay_bounds n signal template p fs ac inorm H a amp t c). Qed.
Print Assumptions C22_chi2_bounds.

Theorem C22_nopulse : forall n signal template p fs ac inorm,
  fit_problem n template p fs ac inorm ->
  snd (m_chi2_nopulse (of_init n signal template p fs ac inorm)) = Ok (wchi2 n fs p ac signal).
Proof.
  intros n signal template p fs ac inorm H. exact (f_equal Ok (OFProofs1.chi0_wip2 n signal template p fs ac inorm H)).
Qed.
Print Assumptions C22_nopulse.
Example C22_ex : (0 < -3 \/ (-3 <> 0 /\ 0%Z = 0%Z)) /\
  snd (ofamp_withdelay (mkArgs None false 0 0 false) (of_init 2 osc osc unit_psd 1 true false)) = Ok (-1, -1, 0).
Proof. split; [right; split; [lra|reflexivity]|apply osc_scan]. Qed.

(** ** C23 *)
Theorem C23_history_independent : forall n signal template p fs ac inorm cs c,
  snd (run c (run_all cs (of_init n signal template p fs ac inorm))) =
  snd (run c (of_init n (current_signal signal cs) template p fs ac inorm)).
Proof. exact history_independent. Qed.
Print Assumptions C23_history_independent.
Example C23_ex : forall sg a,
  let cs := [OpWithDelay a; OpNoDelay 2; OpUpdate sg; OpBaseline a; OpIterative 1 0 a] in
  current_signal (spike 0) cs = sg.
Proof. reflexivity. Qed.

(** ** C24 *)
Theorem C24_ofamp_withdelay : forall n signals template p fs ac inorm nc out,
  fit_problem n template p fs ac inorm -> (forall k, nc = Some k -> (0 < k)%Z) ->
  (exists j, allowed (Z.of_nat n) nc out (fun _ => True) 0 j) ->
  ofamp n signals template p n fs true ac inorm nc out =
  sequence (map (fun x => snd (ofamp_withdelay (mkArgs nc out 0 0 false) (of_init n x template p fs ac inorm))) signals).
Proof. intros n signals template p fs ac inorm nc out H. exact (free_ofamp_withdelay n template p fs ac inorm H signals nc out). Qed.
Print Assumptions C24_ofamp_withdelay.

Theorem C24_ofamp_nodelay : forall n signals template p fs ac inorm nc out,
  ofamp n signals template p n fs false ac inorm nc out =
  sequence (map (fun x => do r <- snd (ofamp_nodelay 0 (of_init n x template p fs ac inorm)); Ok (fst r, 0, snd r)) signals).
Proof. intros. apply free_ofamp_nodelay. Qed.
Print Assumptions C24_ofamp_nodelay.

Theorem C24_sigma : forall n x template p fs ac inorm,
  ofamp_sigma n template p fs ac inorm = energy_resolution (of_init n x template p fs ac inorm).
Proof. intros. apply free_sigma. Qed.
Print Assumptions C24_sigma.

Theorem C24_pileup : forall n x template p fs ac a1 t1 nc1 nc2 out,
  fit_problem n template p fs ac false -> (forall k, nc2 = Some k -> (0 < k)%Z) ->
  (exists j, allowed (Z.of_nat n) nc2 out (fun _ => True) 0 j) ->
  ofamp_pileup n x template p n fs (Some a1, Some t1) ac nc1 nc2 out =
  (do r <- snd (pileup_iterative a1 t1 (mkArgs nc2 out 0 0 false) (of_init n x template p fs ac false));
   Ok (a1, t1, fst (fst r), snd (fst r), snd r)).
Proof. intros n x template p fs ac a1 t1 nc1 nc2 out H. exact (free_pileup_eq n template p fs ac H x a1 t1 nc1 nc2 out). Qed.
Print Assumptions C24_pileup.

(** Without a given first pulse, the first pulse is the one found by the scan in the
    window of the first pulse. *)
Theorem C24_pileup_scratch : forall n x template p fs ac oa ot nc1 nc2 out,
  fit_problem n template p fs ac false -> oa = None \/ ot = None -> (forall k, nc1 = Some k -> (0 < k)%Z) ->
  ofamp_pileup n x template p n fs (oa, ot) ac nc1 nc2 out =
  (do r <- snd (ofamp_withdelay (mkArgs nc1 false 0 0 false) (of_init n x template p fs ac false));
   ofamp_pileup n x template p n fs (Some (fst (fst r)), Some (snd (fst r))) ac nc1 nc2 out).
Proof.
  intros n x template p fs ac oa ot nc1 nc2 out H.
  exact (free_pileup_scratch n template p fs ac H x oa ot nc1 nc2 out).
Qed.
Print Assumptions C24_pileup_scratch.

Theorem C24_stationary : forall n x template p fs ac nc out,
  fit_problem n template p fs ac false ->
  free_pileup_stationary n x template p n fs ac nc out =
  snd (pileup_stationary nc out 0 (of_init n x template p fs ac false)).
Proof. intros n x template p fs ac nc out H. exact (free_stationary_eq n template p fs ac H x nc out). Qed.
Print Assumptions C24_stationary.

Theorem C24_nopulse : forall n signals template p fs ac inorm,
  fit_problem n template p fs ac inorm ->
  map (fun c => Ok c) (free_chi2_nopulse n signals p fs ac) =
  map (fun x => snd (m_chi2_nopulse (of_init n x template p fs ac inorm))) signals.
Proof. intros n signals template p fs ac inorm H. exact (free_nopulse n template p fs ac inorm H signals). Qed.
Print Assumptions C24_nopulse.

Theorem C24_lowfreq : forall n sats template p fs ac fc,
  map (fun c => Ok c) (free_chi2lowfreq n sats template p fs fc ac) =
  map (fun x => snd (m_chi2_lowfreq (snd (fst x)) (snd x) fc (of_init n (fst (fst x)) template p fs ac false))) sats.
Proof. intros. apply free_lowfreq. Qed.
Print Assumptions C24_lowfreq.

Theorem C24_psd_length : forall n m signals signal template p fs ac inorm nc out nc1 nc2 a1t1, m <> n ->
  (forall wd, ofamp n signals template p m fs wd ac inorm nc out = Err ValueError) /\
  ofamp_pileup n signal template p m fs a1t1 ac nc1 nc2 out = Err ValueError /\
  free_pileup_stationary n signal template p m fs ac nc out = Err ValueError.
Proof. exact free_badpsd. Qed.
Print Assumptions C24_psd_length.

(** They disagree when the window leaves no bin: the class returns (0, 0, chi2), the
    function raises. *)
Theorem C24_empty_window_refuted : forall n signal template p fs ac inorm k,
  fit_problem n template p fs ac inorm -> (Z.of_nat n <= k)%Z ->
  ofamp n [signal] template p n fs true ac inorm (Some k) true = Err IndexError /\
  snd (ofamp_withdelay (mkArgs (Some k) true 0 0 false) (of_init n signal template p fs ac inorm))
  = Ok (0, 0, wchi2 n fs p ac signal).
Proof.
  intros n signal template p fs ac inorm k H Hk.
  assert (Hn : (0 < n)%nat) by apply H.
  split; [|exact (withdelay_all_outside n signal template p fs ac inorm H k Hk)].
  apply (free_ofamp_empty n template p fs ac inorm H); [intros k' [= <-]; lia|].
  intros j (H1 & H2 & _). apply H2. unfold in_window. rewrite Z.min_r by lia. lia.
Qed.
Print Assumptions C24_empty_window_refuted.
Example C24_ex : (exists j, allowed 3 (Some 1%Z) true (fun _ => True) 0 j) /\
  ofamp 2 [osc] osc unit_psd 2 1 true true false None false = Ok [(-1, -1, 0)].
Proof.
  split.
  - exists 0%Z. unfold allowed, in_window. split; [lia|]. split; [|exact I]. vm_compute. intuition congruence.
  - rewrite (C24_ofamp_withdelay 2 [osc] osc unit_psd 1 true false None false (osc_problem true)).
    + cbn [map sequence]. rewrite osc_scan. reflexivity.
    + discriminate.
    + exists 0%Z. split; [lia|]. split; exact I.
Qed.

(** ** C25 *)
Theorem C25_iterative : forall n signal template p fs ac inorm a1 k1 a,
  fit_problem n template p fs ac inorm -> (- Z.of_nat n <= k1 < Z.of_nat n)%Z ->
  interp_t0 a = false -> valid_args n (nconstrain a) (direction a) (wcenter a) ->
  let t := used_template n fs template inorm in
  scan_outcome n fs p ac (minus_pulse n signal t a1 k1) t
    (nconstrain a) (outside a) (direction a) (wcenter a)
    (snd (pileup_iterative a1 (IZR k1 / fs) a (of_init n signal template p fs ac inorm))).
Proof.
  intros n signal template p fs ac inorm a1 k1 a H Hk Hi Hv t.
  rewrite (iterative_is_scan n signal template p fs ac inorm H a1 k1 a Hk).
  exact (withdelay_spec n _ template p fs ac inorm H a Hi Hv).
Qed.
Print Assumptions C25_iterative.

(** The residual of the residual is the two-pulse residual. *)
Theorem C25_two_pulse_residual : forall n signal t a1 k1 a2 d i,
  minus_pulse n (minus_pulse n signal t a1 k1) t a2 d i = minus_two n signal t a1 k1 a2 d i.
Proof. reflexivity. Qed.
Print Assumptions C25_two_pulse_residual.
Example C25_ex : (- Z.of_nat 3 <= -2 < Z.of_nat 3)%Z /\ fit_problem 3 (spike 0) unit_psd 1 false false
  /\ valid_args 3 (Some 2%Z) 1 (-1).
Proof. split; [lia|]. split; [apply spike_problem|apply OF_args_ex]. Qed.

(** ** C63 *)
Theorem C63_offgrid_refuted : exists n signal template p fs a1 t1 a2 t2 c,
  fit_problem n template p fs true false /\ 0 < t1 < INR n / fs /\
  snd (pileup_iterative a1 t1 (mkArgs None false 0 0 false) (of_init n signal template p fs true false)) = Ok (a2, t2, c) /\
  c < 0.
Proof.
  destruct offgrid_negative as (a2 & t2 & c & H).
  exists 2%nat, osc, osc, unit_psd, 1, 1, (/ 2), a2, t2, c. split; [apply osc_problem|]. split; [simpl; lra|exact H].
Qed.
Print Assumptions C63_offgrid_refuted.

(** ** C26 *)
Theorem C26_exact_bin : forall n fs k, 0 < fs ->
  t1_index n fs (IZR k / fs) = if (k <? 0)%Z then (k + Z.of_nat n)%Z else k.
Proof. exact t1_index_grid. Qed.
Print Assumptions C26_exact_bin.
Theorem C26_float_bin_refuted : exists nbins fs k, (0 <= k < nbins)%Z /\ t1ind_float nbins fs k <> Some k.
Proof. exists 1024%Z, 625000%Z, 21%Z. split; [lia|]. vm_compute. discriminate. Qed.
Print Assumptions C26_float_bin_refuted.
Example C26_ex : t1ind_float 1024 625000 20 = Some 20%Z /\ t1ind_float 1024 625000 21 = Some 20%Z /\
  t1ind_float 1024 625000 (-20) = Some 1004%Z.
Proof. repeat split. Qed.

(** ** C27 *)
Theorem C27_chi2_true : forall n signal template p fs ac inorm nc out wc,
  fit_problem n template p fs ac inorm -> valid_center (Z.of_nat n) wc -> (forall k, nc = Some k -> (0 < k)%Z) ->
  (exists j, allowed (Z.of_nat n) nc out (fun _ => True) wc j) ->
  let t := used_template n fs template inorm in
  exists a1 a2 j,
    snd (pileup_stationary nc out wc (of_init n signal template p fs ac inorm))
      = Ok (a1, a2, IZR (delay n j) / fs, wchi2 n fs p ac (minus_two n signal t a1 0 a2 (delay n j))) /\
    allowed (Z.of_nat n) nc out (fun _ => True) wc j /\
    forall j', allowed (Z.of_nat n) nc out (fun _ => True) wc j' ->
      (delay n j' mod Z.of_nat n <> 0)%Z -> distinct_delay n ac t (delay n j') ->
      forall b1 b2, wchi2 n fs p ac (minus_two n signal t a1 0 a2 (delay n j))
                    <= wchi2 n fs p ac (minus_two n signal t b1 0 b2 (delay n j')).
Proof.
  intros n signal template p fs ac inorm nc out wc H.
  exact (stationary_best n signal template p fs ac inorm H nc out wc).
Qed.
Print Assumptions C27_chi2_true.

(** At zero delay the two amplitudes add up to the single-pulse amplitude times the
    squared resolution, not to the single-pulse amplitude. *)
Theorem C27_zero_delay : forall n signal template p fs ac inorm,
  fit_problem n template p fs ac inorm ->
  let o := of_init n signal template p fs ac inorm in
  exists a A c c1, snd (pileup_stationary (Some 1%Z) false 0 o) = Ok (a, a, 0, c) /\
    snd (ofamp_nodelay 0 o) = Ok (A, c1) /\ a + a = A * energy_resolution o ^ 2.
Proof. intros n signal template p fs ac inorm H. exact (stationary_zero n signal template p fs ac inorm H). Qed.
Print Assumptions C27_zero_delay.

Theorem C27_zero_delay_refuted : exists n signal template p fs ac a A c c1,
  fit_problem n template p fs ac false /\
  snd (pileup_stationary (Some 1%Z) false 0 (of_init n signal template p fs ac false)) = Ok (a, a, 0, c) /\
  snd (ofamp_nodelay 0 (of_init n signal template p fs ac false)) = Ok (A, c1) /\
  a + a <> A.
Proof.
  exists 2%nat, osc, osc, unit_psd, 1, true.
  destruct (stationary_zero 2 osc osc unit_psd 1 true false (osc_problem true)) as (a & A & c & c1 & E1 & E2 & E3).
  exists a, A, c, c1. split; [apply osc_problem|]. split; [exact E1|]. split; [exact E2|].
  assert (A = 1) as ->.
  { rewrite (nodelay_fresh 2 osc osc unit_psd 1 true false (osc_problem true)) in E2. injection E2 as <- _. apply osc_filt0. }
  rewrite E3. unfold energy_resolution. rewrite osc_N.
  replace ((1 / sqrt 2) ^ 2) with (/ 2).
  - lra.
  - assert (Q := sqrt_lt_R0 2 ltac:(lra)). rewrite <- (sqrt_sqrt 2) at 1 by lra. field. lra.
Qed.
Print Assumptions C27_zero_delay_refuted.
Example C27_ex : distinct_delay 3 false (spike 0) 1 /\ (1 mod Z.of_nat 3 <> 0)%Z /\
  (exists j, allowed 3 (Some 2%Z) true (fun _ => True) 0 j /\ delay 3 j = 1%Z).
Proof.
  split; [|split; [vm_compute; discriminate|]].
  - split; exists 1%nat; (split; [lia|]); (split; [reflexivity|]); unfold dft; cbn [csum];
      unfold roll, spike; cbn [Nat.eqb]; simpl Z.of_nat; simpl Z.mul; simpl Z.opp; rewrite tw_0;
      assert (E := tw_half3); cbn; intros H; apply (f_equal snd) in H; revert H; rewrite !E; cbn; 
      assert (Q := sqrt_lt_R0 3 ltac:(lra)); change (Pos.to_nat 2 =? 0)%nat with false; change (Pos.to_nat 1 =? 0)%nat with false; cbv iota; lra.
  - exists 2%Z. split; [|reflexivity]. unfold allowed, in_window. split; [lia|]. split; [|exact I].
    vm_compute. intuition congruence.
Qed.

(** ** C28 *)
Theorem C28_baseline_scan : forall n signal template p fs ac inorm a,
  fit_problem n template p fs ac inorm -> visible n true template -> interp_t0 a = false ->
  valid_args n (nconstrain a) (direction a) (wcenter a) ->
  let t := used_template n fs template inorm in
  exists b,
    (exists A d, forall A' d' b', wchi2 n fs p false (minus_pulse_base n signal t A d b)
                                  <= wchi2 n fs p false (minus_pulse_base n signal t A' d' b')) /\
    scan_outcome n fs p false (fun i => signal i - b) t (nconstrain a) (outside a) (direction a) (wcenter a)
      (snd (ofamp_baseline a (of_init n signal template p fs ac inorm))).
Proof. intros n signal template p fs ac inorm a H Hv. exact (baseline_spec n signal template p fs ac inorm H Hv a). Qed.
Print Assumptions C28_baseline_scan.

Theorem C28_joint_unconstrained_partial : forall n signal template p fs ac inorm out,
  fit_problem n template p fs ac inorm -> visible n true template ->
  let t := used_template n fs template inorm in
  exists a j b, (0 <= j < Z.of_nat n)%Z /\
    snd (ofamp_baseline (mkArgs None out 0 0 false) (of_init n signal template p fs ac inorm)) =
      Ok (a, IZR (delay n j) / fs, wchi2 n fs p false (minus_pulse_base n signal t a (delay n j) b)) /\
    forall a' d' b', wchi2 n fs p false (minus_pulse_base n signal t a (delay n j) b)
                  <= wchi2 n fs p false (minus_pulse_base n signal t a' d' b').
Proof. intros n signal template p fs ac inorm out H Hv. exact (baseline_global n signal template p fs ac inorm H Hv out). Qed.
Print Assumptions C28_joint_unconstrained_partial.

(** With a window the baseline is still that of the unconstrained fit, so the result is
    not the joint optimum at the selected delay. *)
Theorem C28_constrained_refuted : exists n signal template p fs a c,
  fit_problem n template p fs false false /\ visible n true template /\
  snd (ofamp_baseline (mkArgs (Some 1%Z) false 0 0 false) (of_init n signal template p fs false false)) = Ok (a, 0, c) /\
  exists a' b', wchi2 n fs p false (minus_pulse_base n signal template a' 0 b') < c.
Proof.
  exists 3%nat, (spike 1), (spike 0), unit_psd, 1, 0, 1. split; [apply spike_problem|]. split; [apply spike_visible|].
  split; [apply spike_constrained|]. exists (-1/2), (1/2). rewrite spike_better. lra.
Qed.
Print Assumptions C28_constrained_refuted.
Example C28_ex : fit_problem 3 (spike 0) unit_psd 1 true false /\ visible 3 true (spike 0).
Proof. split; [apply spike_problem|apply spike_visible]. Qed.

(** ** C29 *)
Theorem C29_nonneg : forall n signal template p fs ac inorm amp t0 fc,
  fit_problem n template p fs ac inorm ->
  exists c, snd (m_chi2_lowfreq amp t0 fc (of_init n signal template p fs ac inorm)) = Ok c /\ 0 <= c.
Proof.
  intros n signal template p fs ac inorm amp t0 fc H. eexists. split; [apply low_eq|].
  exact (low_nonneg n signal template p fs ac inorm H amp t0 fc).
Qed.
Print Assumptions C29_nonneg.

Theorem C29_monotone : forall n signal template p fs ac inorm amp t0 fc fc' c c',
  fit_problem n template p fs ac inorm -> fc <= fc' ->
  snd (m_chi2_lowfreq amp t0 fc (of_init n signal template p fs ac inorm)) = Ok c ->
  snd (m_chi2_lowfreq amp t0 fc' (of_init n signal template p fs ac inorm)) = Ok c' -> c <= c'.
Proof.
  intros n signal template p fs ac inorm amp t0 fc fc' c c' H Hle. rewrite !low_eq. intros [= <-] [= <-].
  exact (low_mono n signal template p fs ac inorm H amp t0 fc fc' Hle).
Qed.
Print Assumptions C29_monotone.

Theorem C29_exact_match : forall n signal template p fs ac inorm A d fc,
  fit_problem n template p fs ac inorm ->
  (forall i, (i < n)%nat -> signal i = A * roll n d (used_template n fs template inorm) i) ->
  snd (m_chi2_lowfreq A (IZR d / fs) fc (of_init n signal template p fs ac inorm)) = Ok 0.
Proof.
  intros n signal template p fs ac inorm A d fc H Hs. rewrite low_eq. f_equal.
  exact (low_exact n signal template p fs ac inorm H A d fc Hs).
Qed.
Print Assumptions C29_exact_match.

Theorem C29_total : forall n signal template p fs ac inorm amp d fc,
  fit_problem n template p fs ac inorm -> fs / 2 <= fc ->
  snd (m_chi2_lowfreq amp (IZR d / fs) fc (of_init n signal template p fs ac inorm)) =
  Ok (wchi2 n fs p ac (minus_pulse n signal (used_template n fs template inorm) amp d)).
Proof.
  intros n signal template p fs ac inorm amp d fc H Hc. rewrite low_eq. f_equal.
  exact (low_total n signal template p fs ac inorm H amp d fc Hc).
Qed.
Print Assumptions C29_total.
Example C29_ex : (1 / 2 <= 10000)%R /\ (10 <= 20)%R /\ fit_problem 3 (spike 0) unit_psd 1 true false.
Proof. split; [lra|]. split; [lra|apply spike_problem]. Qed.

(** ** C30 *)
Theorem C30_parabola : forall vals b delta vm v0 vp,
  pyindex vals (b - 1) = Ok vm -> pyindex vals b = Ok v0 -> pyindex vals (b + 1) = Ok vp ->
  0 < delta -> v0 <= vm -> v0 <= vp -> v0 < vm \/ v0 < vp ->
  exists t c, interpolate_parabola vals b delta None = Ok (t, c) /\ Rabs t <= delta / 2 /\ c <= v0.
Proof. exact parabola_spec. Qed.
Print Assumptions C30_parabola.

Theorem C30_exact_on_quadratics : forall vals b delta al be ga,
  pyindex vals (b - 1) = Ok (al * (- delta) ^ 2 + be * (- delta) + ga) ->
  pyindex vals b = Ok ga -> pyindex vals (b + 1) = Ok (al * delta ^ 2 + be * delta + ga) ->
  0 < delta -> al <> 0 ->
  let t := - be / (2 * al) in
  interpolate_parabola vals b delta None = Ok (t, al * t ^ 2 + be * t + ga) /\
  forall t', interpolate_parabola vals b delta (Some t') = Ok (t', al * t' ^ 2 + be * t' + ga).
Proof. exact parabola_exact. Qed.
Print Assumptions C30_exact_on_quadratics.

Theorem C30_interpolated_scan : forall n signal template p fs ac inorm a,
  fit_problem n template p fs ac inorm -> interp_t0 a = true ->
  valid_args n (nconstrain a) (direction a) (wcenter a) ->
  interp_outcome n fs p ac signal (used_template n fs template inorm)
    (nconstrain a) (outside a) (direction a) (wcenter a)
    (snd (ofamp_withdelay a (of_init n signal template p fs ac inorm))).
Proof.
  intros n signal template p fs ac inorm a H.
  exact (withdelay_interp n signal template p fs ac inorm H a).
Qed.
Print Assumptions C30_interpolated_scan.

Theorem C30_interpolated_pileup : forall n signal template p fs ac inorm a1 k1 a,
  fit_problem n template p fs ac inorm -> (- Z.of_nat n <= k1 < Z.of_nat n)%Z ->
  interp_t0 a = true -> valid_args n (nconstrain a) (direction a) (wcenter a) ->
  let t := used_template n fs template inorm in
  interp_outcome n fs p ac (minus_pulse n signal t a1 k1) t
    (nconstrain a) (outside a) (direction a) (wcenter a)
    (snd (pileup_iterative a1 (IZR k1 / fs) a (of_init n signal template p fs ac inorm))).
Proof.
  intros n signal template p fs ac inorm a1 k1 a H Hk Hi Hv t.
  rewrite (iterative_is_scan n signal template p fs ac inorm H a1 k1 a Hk).
  exact (withdelay_interp n _ template p fs ac inorm H a Hi Hv).
Qed.
Print Assumptions C30_interpolated_pileup.

Theorem C30_interpolated_baseline : forall n signal template p fs ac inorm a,
  fit_problem n template p fs ac inorm -> visible n true template -> interp_t0 a = true ->
  valid_args n (nconstrain a) (direction a) (wcenter a) ->
  let t := used_template n fs template inorm in
  exists b,
    (exists A d, forall A' d' b', wchi2 n fs p false (minus_pulse_base n signal t A d b)
                                  <= wchi2 n fs p false (minus_pulse_base n signal t A' d' b')) /\
    interp_outcome n fs p false (fun i => signal i - b) t (nconstrain a) (outside a) (direction a) (wcenter a)
      (snd (ofamp_baseline a (of_init n signal template p fs ac inorm))).
Proof.
  intros n signal template p fs ac inorm a H Hv. exact (baseline_interp n signal template p fs ac inorm H Hv a).
Qed.
Print Assumptions C30_interpolated_baseline.

Example C30_interpolated_ex :
  snd (ofamp_withdelay (mkArgs None false 0 0 true) (of_init 3 (spike 0) (spike 0) unit_psd 1 false false)) = Ok (1, 0, 0).
Proof. exact spike_interp. Qed.

Example C30_ex : pyindex [4; 1; 2] (1 - 1) = Ok 4 /\ pyindex [4; 1; 2] 1 = Ok 1 /\ pyindex [4; 1; 2] (1 + 1) = Ok 2 /\
  1 <= 4 /\ 1 <= 2.
Proof. repeat split; lra. Qed.

(** ** C66: interpolation at the last bin *)
Theorem C66_last_bin_refuted : forall n signal template p fs ac inorm,
  fit_problem n template p fs ac inorm ->
  let wc := (Z.of_nat n - 1 - Z.of_nat n / 2)%Z in
  valid_args n (Some 1%Z) 0 wc /\
  snd (ofamp_withdelay (mkArgs (Some 1%Z) false 0 wc true) (of_init n signal template p fs ac inorm)) = Err IndexError.
Proof.
  intros n signal template p fs ac inorm H wc. assert (Hn : (0 < n)%nat) by apply H. split.
  - split; [lia|]. split; [|intros k [= <-]; lia]. unfold valid_center, wc. lia.
  - exact (last_bin_error n signal template p fs ac inorm H).
Qed.
Print Assumptions C66_last_bin_refuted.

(** ** C64: energy resolution *)
Theorem C64_energy_resolution : forall n signal template p fs ac inorm d a c,
  fit_problem n template p fs ac inorm ->
  let o := of_init n signal template p fs ac inorm in
  let chi2 := fun x => wchi2 n fs p ac (minus_pulse n signal (used_template n fs template inorm) x d) in
  snd (ofamp_nodelay d o) = Ok (a, c) ->
  chi2 (a + energy_resolution o) = c + 1 /\ chi2 (a - energy_resolution o) = c + 1.
Proof.
  intros n signal template p fs ac inorm d a c H o chi2 E. split.
  - exact (resolution n signal template p fs ac inorm H d a c _ E (or_introl eq_refl)).
  - exact (resolution n signal template p fs ac inorm H d a c _ E (or_intror eq_refl)).
Qed.
Print Assumptions C64_energy_resolution.

(** ** C65: time resolution *)
Theorem C65_time_resolution : forall n signal template p fs ac inorm A fc,
  fit_problem n template p fs ac inorm -> visible n true template -> A <> 0 -> fs / 2 <= fc ->
  (forall i, (i < n)%nat -> signal i = A * used_template n fs template inorm i) ->
  let o := of_init n signal template p fs ac inorm in
  exists chi dchi sigma,
    (forall t, snd (m_chi2_lowfreq A t fc o) = Ok (chi t)) /\
    (forall t, is_derive chi t (dchi t)) /\ dchi 0 = 0 /\
    snd (time_resolution A o) = Ok sigma /\ 0 < sigma /\ is_derive dchi 0 (2 / sigma ^ 2).
Proof.
  intros n signal template p fs ac inorm A fc H Hv HA Hfc Hs o.
  destruct (timeres_curv n signal template p fs ac inorm H A HA Hs Hv) as (sg & E & Hp & Hc).
  exists (fun t => low n signal template p fs ac inorm A t fc), (low_deriv n signal template p fs ac inorm A), sg.
  split; [reflexivity|]. split.
  - intros t. exact (low_is_derive n signal template p fs ac inorm H A Hs t fc Hfc).
  - split; [apply low_deriv_0|]. split; [exact E|]. split; [exact Hp|]. rewrite <- Hc. apply low_is_derive2.
Qed.
Print Assumptions C65_time_resolution.
Example C64_ex : fit_problem 3 (spike 0) unit_psd 1 true false /\ visible 3 true (spike 0) /\ (2 <> 0)%R /\ (1 / 2 <= 1)%R.
Proof. split; [apply spike_problem|]. split; [apply spike_visible|]. lra. Qed.
