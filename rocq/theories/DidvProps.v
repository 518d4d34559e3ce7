(** * Properties of qetpy/core/didv *)
From Coq Require Import Reals Lra Lia.
From Coquelicot Require Import Complex.
From Verif Require Import Base Dft UtilsModel FloatModel DidvModel DidvSpec
  DidvProofs1 DidvProofs2 DidvProofs3 DidvProofs4 DidvProofs5 DidvProofs6
  DidvProofs7 DidvProofs8 DidvProofs9 DidvProofs10 DidvProofs11.
Local Open Scope R_scope.

(** ** C44: conversion of parameters *)
Theorem C44_to_tes_and_back_one : forall A tau2 dt rsh r0 rp, A <> 0 ->
  (do p <- converttotesvalues [A; tau2; dt] rsh r0 rp; convertfromtesvalues p) = Ok [A; tau2; dt].
Proof. exact from_to_one. Qed.
Print Assumptions C44_to_tes_and_back_one.

Theorem C44_to_tes_and_back_two : forall A B tau1 tau2 dt rsh r0 rp,
  r0 <> 0 -> A <> 0 -> A + r0 - (rsh + rp) <> 0 -> A + B + r0 - (rsh + rp) <> 0 ->
  (do p <- converttotesvalues [A; B; tau1; tau2; dt] rsh r0 rp; convertfromtesvalues p) = Ok [A; B; tau1; tau2; dt].
Proof. exact from_to_two. Qed.
Print Assumptions C44_to_tes_and_back_two.

Theorem C44_to_tes_and_back_three : forall A B C' tau1 tau2 tau3 dt rsh r0 rp,
  r0 <> 0 -> A <> 0 -> A + r0 - (rsh + rp) <> 0 -> A + B + r0 - (rsh + rp) <> 0 ->
  (do p <- converttotesvalues [A; B; C'; tau1; tau2; tau3; dt] rsh r0 rp; convertfromtesvalues p)
  = Ok [A; B; C'; tau1; tau2; tau3; dt].
Proof. exact from_to_three. Qed.
Print Assumptions C44_to_tes_and_back_three.

Theorem C44_from_tes_and_back_one : forall rsh rp L dt r0 rp', rsh + rp <> 0 ->
  (do p <- convertfromtesvalues [rsh; rp; L; dt]; converttotesvalues p rsh r0 rp') = Ok [rsh; rp; L; dt].
Proof. exact to_from_one. Qed.
Print Assumptions C44_from_tes_and_back_one.

Theorem C44_from_tes_and_back_two : forall rsh rp r0 beta l L tau0 dt,
  r0 <> 0 -> l <> 1 -> 2 + beta <> 0 -> rsh + rp + r0 * (1 + beta) <> 0 ->
  (do p <- convertfromtesvalues [rsh; rp; r0; beta; l; L; tau0; dt]; converttotesvalues p rsh r0 rp)
  = Ok [rsh; rp; r0; beta; l; L; tau0; dt].
Proof. exact to_from_two. Qed.
Print Assumptions C44_from_tes_and_back_two.

Theorem C44_from_tes_and_back_three : forall rsh rp r0 beta l L tau0 gratio tau3 dt,
  r0 <> 0 -> l <> 1 -> 2 + beta <> 0 -> rsh + rp + r0 * (1 + beta) <> 0 ->
  (do p <- convertfromtesvalues [rsh; rp; r0; beta; l; L; tau0; gratio; tau3; dt]; converttotesvalues p rsh r0 rp)
  = Ok [rsh; rp; r0; beta; l; L; tau0; gratio; tau3; dt].
Proof. exact to_from_three. Qed.
Print Assumptions C44_from_tes_and_back_three.

Example C44_ex :
  (do p <- convertfromtesvalues [1; 1; 2; 1; 3; 5; 7; 9; 11; 13]; converttotesvalues p 1 2 1) = Ok [1; 1; 2; 1; 3; 5; 7; 9; 11; 13]
  /\ (do p <- converttotesvalues [3; 4; 5; 6; 7; 8; 9] 1 2 1; convertfromtesvalues p) = Ok [3; 4; 5; 6; 7; 8; 9].
Proof. split; [apply C44_from_tes_and_back_three|apply C44_to_tes_and_back_three]; lra. Qed.

(** ** C45: impedance and admittance *)
Theorem C45_onepole : forall f rsh rp L r0 beta l tau0 gratio tau3,
  rsh + rp <> 0 -> (r0 = None \/ beta = None \/ l = None \/ tau0 = None) ->
  compleximpedance f (mkArgs (Some rsh) (Some rp) r0 beta l (Some L) tau0 gratio tau3)
  = Ok (doc_onepole (iomega f) rsh rp L).
Proof.
  intros f rsh rp L r0 beta l tau0 gratio tau3 H Hn. rewrite impedance_selects, <- (Z1 f rsh rp L H).
  destruct r0, beta, l, tau0; try reflexivity. destruct Hn as [Hn|[Hn|[Hn|Hn]]]; discriminate.
Qed.
Print Assumptions C45_onepole.

Theorem C45_twopole : forall f rsh rp r0 beta l L tau0 gratio tau3,
  l <> 1 -> rsh + rp + r0 * (1 + beta) <> 0 -> (gratio = None \/ tau3 = None) ->
  compleximpedance f (mkArgs (Some rsh) (Some rp) (Some r0) (Some beta) (Some l) (Some L) (Some tau0) gratio tau3)
  = Ok (doc_twopole (iomega f) rsh rp r0 beta l L tau0).
Proof.
  intros f rsh rp r0 beta l L tau0 gratio tau3 Hl HA Hn. rewrite impedance_selects, <- (Z2 f rsh rp r0 beta l L tau0 Hl HA).
  destruct gratio, tau3; try reflexivity. destruct Hn; discriminate.
Qed.
Print Assumptions C45_twopole.

Theorem C45_threepole : forall f rsh rp r0 beta l L tau0 gratio tau3,
  l <> 1 -> rsh + rp + r0 * (1 + beta) <> 0 ->
  compleximpedance f (mkArgs (Some rsh) (Some rp) (Some r0) (Some beta) (Some l) (Some L) (Some tau0) (Some gratio) (Some tau3))
  = Ok (doc_threepole (iomega f) rsh rp r0 beta l L tau0 gratio tau3).
Proof.
  intros f rsh rp r0 beta l L tau0 gratio tau3 Hl HA.
  now rewrite impedance_selects, <- (Z3 f rsh rp r0 beta l L tau0 gratio tau3 Hl HA).
Qed.
Print Assumptions C45_threepole.

Theorem C45_missing : forall f a, (a_rsh a = None \/ a_rp a = None \/ a_L a = None) ->
  compleximpedance f a = Err ValueError.
Proof.
  intros f a H. rewrite impedance_selects. destruct a as [[rsh|] [rp|] [r0|] [beta|] [l|] [L|] [tau0|] [gratio|] [tau3|]]; try reflexivity;
    destruct H as [H|[H|H]]; discriminate H.
Qed.
Print Assumptions C45_missing.

Theorem C45_admittance : forall f a z, compleximpedance f a = Ok z -> z <> RtoC 0 ->
  exists y, complexadmittance f a = Ok y /\ (y * z)%C = RtoC 1.
Proof.
  intros f a z H Hz. exists (1 / z)%C. split; [unfold complexadmittance; now rewrite H|field; exact Hz].
Qed.
Print Assumptions C45_admittance.

Theorem C45_conjugate : forall f a z, compleximpedance f a = Ok z -> compleximpedance (- f) a = Ok (Cconj z).
Proof. exact impedance_conj. Qed.
Print Assumptions C45_conjugate.

Theorem C45_gratio_zero : forall f rsh rp r0 beta l L tau0 tau3,
  compleximpedance f (mkArgs (Some rsh) (Some rp) (Some r0) (Some beta) (Some l) (Some L) (Some tau0) (Some 0) (Some tau3))
  = compleximpedance f (mkArgs (Some rsh) (Some rp) (Some r0) (Some beta) (Some l) (Some L) (Some tau0) None None).
Proof.
  intros. rewrite !impedance_selects. replace (0 / (1 - l)) with 0 by (unfold Rdiv; ring). now rewrite gratio_zero.
Qed.
Print Assumptions C45_gratio_zero.

Theorem C45_l_zero : forall f rsh rp r0 beta L tau0,
  compleximpedance f (mkArgs (Some rsh) (Some rp) (Some r0) (Some beta) (Some 0) (Some L) (Some tau0) None None)
  = compleximpedance f (mkArgs (Some rsh) (Some (rp + r0 * (1 + beta))) None None None (Some L) None None None).
Proof.
  intros. rewrite !impedance_selects. replace (r0 * 0 / (1 - 0) * (2 + beta)) with 0 by field. rewrite B_zero.
  replace (rsh + (rp + r0 * (1 + beta))) with (rsh + rp + r0 * (1 + beta)) by ring. reflexivity.
Qed.
Print Assumptions C45_l_zero.

(** The parameter lists documented for the 2- and 3-pole models leave out tau0: passing exactly
    these silently evaluates the 1-pole model, so the values of r0, beta and l have no effect. *)
Theorem C45_documented_parameters_refuted : forall f rsh rp r0 beta l L gratio tau3, rsh + rp <> 0 ->
  compleximpedance f (mkArgs (Some rsh) (Some rp) (Some r0) (Some beta) (Some l) (Some L) None None None)
    = Ok (doc_onepole (iomega f) rsh rp L) /\
  compleximpedance f (mkArgs (Some rsh) (Some rp) (Some r0) (Some beta) (Some l) (Some L) None (Some gratio) (Some tau3))
    = Ok (doc_onepole (iomega f) rsh rp L).
Proof. intros. split; apply C45_onepole; auto. Qed.
Print Assumptions C45_documented_parameters_refuted.

Example C45_ex : exists z, compleximpedance 3 (mkArgs (Some 1) (Some 2) (Some 3) (Some 1) (Some 5) (Some 1) (Some 1) (Some 2) (Some 4)) = Ok z.
Proof. eexists. apply C45_threepole; lra. Qed.

(** ** C46: fall times *)
Theorem C46_onepole : forall fs A tau2 dt f,
  onepoleimpedance f A tau2 = (RtoC A * pole_product f (findpolefalltimes fs [A; tau2; dt]))%C.
Proof. intros. rewrite fall_one. reflexivity. Qed.
Print Assumptions C46_onepole.

Theorem C46_twopole : forall fs A B tau1 tau2 dt f, A + B <> 0 ->
  (let eqs := twopoleequations A B tau1 tau2 in eqs (fsolve2 fs eqs (tau1, tau2)) = (0, 0)) ->
  (twopoleimpedance f A B tau1 tau2 * (1 + iomega f * RtoC tau1))%C
  = (RtoC (A + B) * pole_product f (findpolefalltimes fs [A; B; tau1; tau2; dt]))%C.
Proof. intros fs A B tau1 tau2 dt f. rewrite <- jw_iomega. exact (fall_two fs A B tau1 tau2 dt f). Qed.
Print Assumptions C46_twopole.

Theorem C46_threepole : forall fs A B C' tau1 tau2 tau3 dt f, A * (1 - C') + B <> 0 ->
  ((1 + iomega f * RtoC tau1) * (1 + iomega f * RtoC tau3) <> RtoC C')%C ->
  (let eqs := threepoleequations A B C' tau1 tau2 tau3 in eqs (fsolve3 fs eqs (tau1, tau2, tau3)) = (0, 0, 0)) ->
  (threepoleimpedance f A B C' tau1 tau2 tau3 * ((1 + iomega f * RtoC tau1) * (1 + iomega f * RtoC tau3) - RtoC C'))%C
  = (RtoC (A * (1 - C') + B) * pole_product f (findpolefalltimes fs [A; B; C'; tau1; tau2; tau3; dt]))%C.
Proof. intros fs A B C' tau1 tau2 tau3 dt f. rewrite <- jw_iomega. exact (fall_three fs A B C' tau1 tau2 tau3 dt f). Qed.
Print Assumptions C46_threepole.

Theorem C46_sorted : forall fs params i j, (i <= j < length (findpolefalltimes fs params))%nat ->
  nth i (findpolefalltimes fs params) 0 <= nth j (findpolefalltimes fs params) 0.
Proof. intros fs params i j H. exact (npsort_sorted _ i j H). Qed.
Print Assumptions C46_sorted.

Example C46_ex :
  let fs := mkFsolve (fun _ _ => (-2, -6)) (fun _ _ => (2, 3, 0)) in
  (4 + -5 <> 0 /\ (let eqs := twopoleequations 4 (-5) (-1) 3 in eqs (fsolve2 fs eqs (-1, 3)) = (0, 0))) /\
  (1 * (1 - 7 / 6) + 1 / 3 <> 0 /\
   (forall f, (1 + iomega f * RtoC 1) * (1 + iomega f * RtoC 0) <> RtoC (7 / 6))%C /\
   (let eqs := threepoleequations 1 (1 / 3) (7 / 6) 1 1 0 in eqs (fsolve3 fs eqs (1, 1, 0)) = (0, 0, 0))).
Proof.
  cbv zeta. cbn [fsolve2 fsolve3 twopoleequations threepoleequations]. split; split.
  - lra.
  - f_equal; field.
  - lra.
  - split.
    + intros f E. apply (f_equal fst) in E. unfold iomega in E. simpl in E. lra.
    + f_equal; [f_equal|]; field.
Qed.

(** ** C47: square-wave response and deconvolution *)
Theorem C47_squarewave : forall n sgamp rsh sgfreq duty m k,
  sgfreq <> 0 -> m <> 0%Z -> k <> 0%nat ->
  squarewave n sgamp rsh sgfreq duty (IZR m * sgfreq) k = square_dft n (sgamp * rsh) duty m.
Proof. exact squarewave_harmonic. Qed.
Print Assumptions C47_squarewave.

Theorem C47_deconvolve_partial : forall n t sgamp sgfreq duty a tr k z rsh m,
  a_rsh a = Some rsh ->
  squarewaveresponse n t sgamp sgfreq duty a = Ok tr ->
  compleximpedance (didvfreq n t k) a = Ok z ->
  (0 < k < n)%nat -> (k <> n / 2)%nat ->
  sgfreq <> 0 -> m <> 0%Z -> didvfreq n t k = IZR m * sgfreq ->
  sgamp * rsh <> 0 -> cis (- (2 * PI * IZR m * duty)) <> RtoC 1 ->
  1 / 10 ^ 16 <= Cmod z ->
  deconvolvedidv n t (fun j => nth j tr 0) rsh sgamp sgfreq duty k = (Some (1 / z)%C, false).
Proof. exact deconvolved_harmonic. Qed.
Print Assumptions C47_deconvolve_partial.

(** Missing: the bin n//2, which the code nulls.  For odd n this is not the Nyquist bin, and the
    highest positive harmonic (here, with three samples, the fundamental) is lost. *)
Theorem C47_odd_length_refuted :
  exists tr z, squarewaveresponse 3 (fun j => INR j / INR 3) 1 1 (1 / 2) ex_args = Ok tr /\
    compleximpedance (didvfreq 3 (fun j => INR j / INR 3) 1) ex_args = Ok z /\
    didvfreq 3 (fun j => INR j / INR 3) 1 = 1 /\
    deconvolvedidv 3 (fun j => INR j / INR 3) (fun j => nth j tr 0) 1 1 1 (1 / 2) 1 <> (Some (1 / z)%C, false).
Proof. exact odd_length_lost. Qed.
Print Assumptions C47_odd_length_refuted.

Example C47_ex : exists tr z, let t := fun j => INR j / INR 8 in
  a_rsh ex_args = Some 1 /\ squarewaveresponse 8 t 1 1 (1 / 2) ex_args = Ok tr /\
  compleximpedance (didvfreq 8 t 3) ex_args = Ok z /\ didvfreq 8 t 3 = IZR 3 * 1 /\
  cis (- (2 * PI * IZR 3 * (1 / 2))) <> RtoC 1 /\ 1 / 10 ^ 16 <= Cmod z.
Proof.
  destruct (ex_impedance (didvfreq 8 (fun j => INR j / INR 8) 3)) as (z & Hz & Ez).
  eexists. exists z. cbv zeta. split; [reflexivity|]. split; [reflexivity|]. split; [exact Hz|].
  split; [apply ex_freq; lia|]. split; [now apply odd_excited|]. rewrite Ez. apply ex_mod.
Qed.

(** ** C48: whole periods *)
Theorem C48_whole_periods_partial : forall o q dt0 p,
  (0 < q)%nat -> 0 < dsgfreq o -> dfs o / dsgfreq o = INR q ->
  process o dt0 = Ok p ->
  let n := length (nth 0 (raw o) []) in
  let used := length (p_time p) in
  (exists periods, used = (periods * q)%nat) /\ (used <= n < used + q)%nat /\
  (forall tr, In tr (p_traces p) -> exists r, In r (raw o) /\ tr = map (fun v => v / dtracegain o) (firstn used r)).
Proof.
  intros o q dt0 p Hq Hs Hf H. destruct (process_length o q Hq Hs Hf dt0 p H) as (E & _ & T & _).
  cbv zeta. rewrite E. split; [|split].
  - exists (length (nth 0 (raw o) []) / q)%nat. apply Nat.mul_comm.
  - assert (D := Nat.div_mod (length (nth 0 (raw o) [])) q ltac:(lia)).
    assert (M := Nat.mod_upper_bound (length (nth 0 (raw o) [])) q ltac:(lia)). lia.
  - exact T.
Qed.
Print Assumptions C48_whole_periods_partial.

(** Missing: the theorem above is about exact arithmetic.  In binary64 a trace of exactly five
    periods (31250 samples at 625 kHz and 100 Hz) is cut to four, and one of exactly one period
    (15625 samples at 1.25 MHz and 80 Hz) to nothing. *)
Theorem C48_rounding_refuted :
  indmax_float 31250 625000 100 = Some 25000%Z /\ indmax_float 15625 1250000 80 = Some 0%Z.
Proof. split; vm_compute; reflexivity. Qed.
Print Assumptions C48_rounding_refuted.

Example C48_ex : exists p, process (ex_obj false) 1 = Ok p.
Proof. apply (process_ok (ex_obj false) 4); cbn; try lia; try lra; discriminate. Qed.

(** ** C49: processtraces again *)
Theorem C49_repeatable_partial : forall fit fs ops o,
  dadd180 o = false ->
  snd (processtraces (run_didvs fit fs ops o)) = snd (processtraces o)
  /\ (snd (processtraces o) = Ok tt ->
      dproc (fst (processtraces (run_didvs fit fs ops o))) = dproc (fst (processtraces o))
      /\ ddt0 (fst (processtraces (run_didvs fit fs ops o))) = ddt0 o).
Proof. exact processtraces_repeat. Qed.
Print Assumptions C49_repeatable_partial.

(** Missing: with add180phase=True every call shifts the time axis by half a period. *)
Theorem C49_add180phase_refuted : exists o o1 o2,
  dadd180 o = true /\ processtraces o = (o1, Ok tt) /\ processtraces o1 = (o2, Ok tt) /\ dproc o2 <> dproc o1.
Proof. exact add180_witness. Qed.
Print Assumptions C49_add180phase_refuted.

Example C49_ex : dadd180 (ex_obj false) = false /\ snd (processtraces (ex_obj false)) = Ok tt.
Proof. split; [reflexivity|]. destruct (ex_process false) as (o' & p & E & _). now rewrite E. Qed.

(** ** C50: fit results *)
Theorem C50_last_fit : forall fit fs p fc pre post o, (1 <= p <= 3)%nat ->
  no_store fit fs p post (run_didvs fit fs (pre ++ [OpFit p fc]) o) ->
  fitresult p (run_didvs fit fs (pre ++ OpFit p fc :: post) o)
  = fitresult p (fst (dofit fit fs p fc (run_didvs fit fs pre o))).
Proof. exact history. Qed.
Print Assumptions C50_last_fit.

Theorem C50_no_fit : forall fit fs p ops o, (1 <= p <= 3)%nat -> no_store fit fs p ops o ->
  fitresult p (run_didvs fit fs ops o) = fitresult p o.
Proof. exact runs_keep. Qed.
Print Assumptions C50_no_fit.

Theorem C50_stored : forall fit fs p fc o, snd (dofit fit fs p fc o) = Ok tt ->
  exists pr d popt pcov cost p0 b s r,
    dproc (fst (dofit fit fs p fc o)) = Some pr /\ p_data pr = Some d /\
    fit (didv_residual (fit_bins pr d fc)) p0 b s = Ok (popt, pcov, cost) /\
    fitresult p (fst (dofit fit fs p fc o)) = Some r /\
    r_params r = popt /\ r_cov r = pcov /\ r_cost r = cost /\
    r_errors r = mk (length popt) (fun i => sqrt (nth i (nth i pcov []) 0)) /\
    converttotesvalues popt (drsh o) (dr0 o) (drp o) = Ok (r_ss r) /\
    r_fall r = findpolefalltimes fs popt.
Proof. exact dofit_stores. Qed.
Print Assumptions C50_stored.

Theorem C50_bad_poles_partial : forall fit fs p fc o, ~ (1 <= p <= 3)%nat -> dproc o <> None ->
  dofit fit fs p fc o = (o, Err ValueError).
Proof. exact dofit_bad. Qed.
Print Assumptions C50_bad_poles_partial.

(** Missing: on an object not yet processed the traces are processed before the pole number is
    looked at, so the rejected call changes the object. *)
Theorem C50_bad_poles_refuted : forall fit fs p fc, ~ (1 <= p <= 3)%nat ->
  exists o, dproc o = None /\ snd (dofit fit fs p fc o) = Err ValueError /\ dproc (fst (dofit fit fs p fc o)) <> dproc o.
Proof.
  intros fit fs p fc Hp. destruct (ex_process false) as (o' & pr & E & D). exists (ex_obj false).
  rewrite (dofit_bad_fresh fit fs p fc (ex_obj false) o' Hp eq_refl E). repeat split. cbn [fst]. rewrite D. discriminate.
Qed.
Print Assumptions C50_bad_poles_refuted.

Example C50_ex : snd (dofit ex_fit ex_solve 1 None ex_fit_obj) = Ok tt /\
  no_store ex_fit ex_solve 1 [OpFit 7 None; OpProcess] (run_didvs ex_fit ex_solve ([] ++ [OpFit 1 None]) ex_fit_obj).
Proof. split; [exact ex_dofit|]. cbn [no_store stores]. repeat split; try tauto. intros [H _]. discriminate. Qed.

(** ** C51: start of the bounded fit *)
Theorem C51_start_one_partial : forall fit fs o p d fc mx mn,
  dproc o = Some p -> p_data p = Some d -> errors_nonzero (fit_bins p d fc) ->
  0 < dsgamp o * drsh o -> is_max (d_tmean d) mx -> is_min (d_tmean d) mn -> mn < mx -> ddt0 o <> 0 ->
  let p0 := [dsgamp o * drsh o / (mx - mn); 1 / 10 ^ 6; ddt0 o] in
  admissible p0 (all_nonnegative 3) (map Rabs p0) /\
  fit_outcome 1 o (dofit fit fs 1 fc o) (fit (didv_residual (fit_bins p d fc)) p0 (all_nonnegative 3) (map Rabs p0)).
Proof.
  intros fit fs o p d fc mx mn H1 H2 H3 H4 Hx Hn. rewrite <- (maxl_value _ _ Hx), <- (minl_value _ _ Hn). exact (start_one fit fs o p d fc H1 H2 H3 H4).
Qed.
Print Assumptions C51_start_one_partial.

Theorem C51_start_two_partial : forall fit fs o p d fc mx,
  dproc o = Some p -> p_data p = Some d -> errors_nonzero (fit_bins p d fc) ->
  0 < dsgamp o * drsh o -> ddt0 o <> 0 -> is_max (d_tmean d) mx ->
  let m := lmean (d_tmean d) in let f := lmean (flat_values p d) in
  f < mx -> f <> m -> (f < m -> mx - f <> 2 * (m - f)) ->
  match guess_sizes (dsgamp o * drsh o) mx m f (ddt0 o) with (A, B, t1, t2, dt) =>
    let p0 := if Rlt_dec f m then [A; B; t1; t2; dt] else [A; - B; - t1; t2; dt] in
    let b := if Rlt_dec f m then all_nonnegative 5
             else [(Some 0, None); (None, Some 0); (None, Some 0); (Some 0, None); (None, None)] in
    admissible p0 b (map Rabs p0) /\
    fit_outcome 2 o (dofit fit fs 2 fc o) (fit (didv_residual (fit_bins p d fc)) p0 b (map Rabs p0))
  end.
Proof.
  intros fit fs o p d fc mx H1 H2 H3 H4 H5 Hx. rewrite <- (maxl_value _ _ Hx). exact (start_two fit fs o p d fc H1 H2 H3 H4 H5).
Qed.
Print Assumptions C51_start_two_partial.

Theorem C51_start_three_partial : forall fit fs o p d fc mx,
  dproc o = Some p -> p_data p = Some d -> errors_nonzero (fit_bins p d fc) ->
  0 < dsgamp o * drsh o -> is_max (d_tmean d) mx ->
  let m := lmean (d_tmean d) in let f := lmean (flat_values p d) in
  f < mx -> f <> m ->
  match guess_sizes3 o (dsgamp o * drsh o) mx m f with (A, B, t1, t2, dt) =>
    0 < A -> 0 < B -> 0 < t1 -> 0 < t2 -> dt <> 0 ->
    let p0 := if Rlt_dec f m then [A; B; 5 / 100; t1; t2; 1 / 10 ^ 3; dt] else [A; - B; - (5 / 100); - t1; t2; 1 / 10 ^ 3; dt] in
    let b := if Rlt_dec f m then all_nonnegative 7
             else [(Some 0, None); (None, Some 0); (None, Some 0); (None, Some 0); (Some 0, None); (Some 0, None); (None, None)] in
    admissible p0 b (map Rabs p0) /\
    fit_outcome 3 o (dofit fit fs 3 fc o) (fit (didv_residual (fit_bins p d fc)) p0 b (map Rabs p0))
  end.
Proof.
  intros fit fs o p d fc mx H1 H2 H3 H4 Hx. rewrite <- (maxl_value _ _ Hx). exact (start_three fit fs o p d fc H1 H2 H3 H4).
Qed.
Print Assumptions C51_start_three_partial.

(** Missing: degenerate traces, vanishing errors (see C112), and dt0 = 0, which puts a zero into the
    scale vector; scipy then rejects every fit. *)
Theorem C51_dt0_refuted : forall fit fs fc o p d poles,
  (1 <= poles <= 3)%nat -> dproc o = Some p -> p_data p = Some d -> dres2 o = None -> ddt0 o = 0 ->
  dofit fit fs poles fc o = (o, Err ValueError).
Proof. exact dt0_zero_rejected. Qed.
Print Assumptions C51_dt0_refuted.

Example C51_ex : dproc ex_fit_obj = Some ex_proc /\ p_data ex_proc = Some ex_data /\ errors_nonzero (fit_bins ex_proc ex_data None) /\
  0 < dsgamp ex_fit_obj * drsh ex_fit_obj /\ ddt0 ex_fit_obj <> 0 /\
  is_max (d_tmean ex_data) 4 /\ is_min (d_tmean ex_data) 0 /\
  lmean (flat_values ex_proc ex_data) < 4 /\
  lmean (flat_values ex_proc ex_data) <> lmean (d_tmean ex_data) /\
  4 - lmean (flat_values ex_proc ex_data) <> 2 * (lmean (d_tmean ex_data) - lmean (flat_values ex_proc ex_data)) /\
  match guess_sizes3 ex_fit_obj 1 4 2 1 with (A, B, t1, t2, dt) => 0 < A /\ 0 < B /\ 0 < t1 /\ 0 < t2 /\ dt <> 0 end.
Proof.
  rewrite ex_flat, ex_mean. split; [reflexivity|]. split; [reflexivity|]. split; [apply ex_errors|].
  split; [cbn; lra|]. split; [cbn; lra|].
  split; [split; [cbn; tauto|cbn; intros y Hy; intuition (subst; lra)]|].
  split; [split; [cbn; tauto|cbn; intros y Hy; intuition (subst; lra)]|].
  split; [lra|]. split; [lra|]. split; [lra|].
  unfold guess_sizes3, guess_sizes. cbn [dres2 ex_fit_obj ddt0]. destruct (Rlt_dec 1 2); [|lra].
  assert (0 < 10 ^ 4) by (apply pow_lt; lra). assert (0 < 10 ^ 7) by (apply pow_lt; lra).
  assert (0 < 1 / (4 - 1)) by lra. repeat split; try (apply Rdiv_lt_0_compat; lra); try lra.
  - apply Rabs_pos_lt. lra.
Qed.

(** ** C70: didv0 *)
Theorem C70_onepole : forall A tau2 dt cov fall cost rsh rp r0 r, A <> 0 ->
  fitresult_of [A; tau2; dt] cov fall cost rsh rp r0 = Ok r -> r_didv0 r = 1 / A.
Proof. exact didv0_one. Qed.
Print Assumptions C70_onepole.

Theorem C70_twopole : forall A B tau1 tau2 dt cov fall cost rsh rp r0 r,
  r0 <> 0 -> A <> 0 -> A + r0 - (rsh + rp) <> 0 -> A + B + r0 - (rsh + rp) <> 0 -> A + B <> 0 ->
  fitresult_of [A; B; tau1; tau2; dt] cov fall cost rsh rp r0 = Ok r -> r_didv0 r = 1 / (A + B).
Proof. exact didv0_two. Qed.
Print Assumptions C70_twopole.

Theorem C70_threepole : forall A B C' tau1 tau2 tau3 dt cov fall cost rsh rp r0 r,
  r0 <> 0 -> A <> 0 -> A + r0 - (rsh + rp) <> 0 -> A + B + r0 - (rsh + rp) <> 0 -> 1 - C' <> 0 -> A + B / (1 - C') <> 0 ->
  fitresult_of [A; B; C'; tau1; tau2; tau3; dt] cov fall cost rsh rp r0 = Ok r -> r_didv0 r = 1 / (A + B / (1 - C')).
Proof. exact didv0_three. Qed.
Print Assumptions C70_threepole.

Example C70_ex : exists r, fitresult_of [3; 4; 5; 6; 7; 8; 9] [] [] 0 1 1 2 = Ok r /\ r_didv0 r = 1 / (3 + 4 / (1 - 5)).
Proof.
  assert (E : exists r, fitresult_of [3; 4; 5; 6; 7; 8; 9] [] [] 0 1 1 2 = Ok r).
  { unfold fitresult_of. cbn [converttotesvalues bind ss_args]. unfold complexadmittance. rewrite impedance_selects.
    eexists. reflexivity. }
  destruct E as [r E]. exists r. split; [exact E|]. apply (C70_threepole _ _ _ _ _ _ _ _ _ _ _ _ _ _) in E; lra || assumption.
Qed.

(** ** C71: any number of periods *)
Theorem C71_processed_partial : forall o q dt0,
  (0 < q)%nat -> 0 < dsgfreq o -> dfs o / dsgfreq o = INR q -> raw o <> [] ->
  (2 <= q * (length (nth 0 (raw o) []) / q))%nat -> exists p, process o dt0 = Ok p.
Proof. intros o q dt0 Hq Hs Hf Hr H. exact (process_ok o q Hq Hs Hf dt0 Hr H). Qed.
Print Assumptions C71_processed_partial.

(** Missing: the theorem above is about exact arithmetic.  In binary64 at 625 kHz and 100 Hz the
    flat region of the 33rd period has one sample fewer than that of the first, and the ranges
    no longer form a rectangular array. *)
Theorem C71_ragged_refuted : flat_length_float 625000 100 0 = Some 1438%Z /\ flat_length_float 625000 100 32 = Some 1437%Z.
Proof. split; vm_compute; reflexivity. Qed.
Print Assumptions C71_ragged_refuted.

Example C71_ex : let o := ex_obj false in 0 < dsgfreq o /\ dfs o / dsgfreq o = INR 4 /\ raw o <> [] /\
  (2 <= 4 * (length (nth 0 (raw o) []) / 4))%nat.
Proof. cbn. repeat split; try lra; try lia; discriminate. Qed.

(** ** C72: objects built from processed data *)
Theorem C72_from_data_partial : forall fit fs poles fc o o' q p d o2,
  (0 < q)%nat -> 0 < dsgfreq o -> dfs o / dsgfreq o = INR q ->
  dadd180 o = false -> dres2 o = None ->
  processtraces o = (o', Ok tt) -> dproc o' = Some p -> p_data p = Some d ->
  didvinitfromdata (d_tmean d) (d_mean d) (d_std d) (d_offset d) (d_offset_err d) (dfs o) (dsgfreq o) (dsgamp o) (drsh o) (dr0 o) (drp o)
    false (ddt0 o) = Ok o2 ->
  snd (dofit fit fs poles fc o2) = snd (dofit fit fs poles fc o')
  /\ (snd (dofit fit fs poles fc o') = Ok tt -> fitresult poles (fst (dofit fit fs poles fc o2)) = fitresult poles (fst (dofit fit fs poles fc o'))).
Proof. exact from_data_fits. Qed.
Print Assumptions C72_from_data_partial.

(** Missing: with add180phase=True the object DIDVPriors builds for its starting guess adds the
    half period a second time. *)
Theorem C72_priors_guess_refuted : forall o d priors o2, dadd180 o = true -> dsgfreq o <> 0 ->
  priors_guess_object o d priors = Ok o2 -> ddt0 o2 = ddt0 o + 1 / (2 * dsgfreq o) /\ ddt0 o2 <> ddt0 o.
Proof.
  intros o d priors o2 Ha Hs H. rewrite (guess_object_dt0 o d priors o2 H). unfold shifted_dt0. rewrite Ha.
  split; [reflexivity|]. intros E.
  assert (1 / (2 * dsgfreq o) <> 0) by (unfold Rdiv; rewrite Rmult_1_l; apply Rinv_neq_0_compat; lra). lra.
Qed.
Print Assumptions C72_priors_guess_refuted.

Example C72_ex : exists o' p, processtraces (ex_obj false) = (o', Ok tt) /\ dproc o' = Some p.
Proof. exact (ex_process false). Qed.

(** ** C73: DIDVPriors *)
Theorem C73_likelihood : forall rsh d priors inv params p,
  (length params = 4 \/ length params = 8 \/ length params = 10)%nat -> nth 0 params 0 = rsh -> rsh <> 0 ->
  errors_nonzero d -> convertfromtesvalues params = Ok p -> 0 <= prior_distance priors params inv ->
  priors_nll rsh d priors inv params = Ok (Some (chi_square d p / 2 + prior_distance priors params inv / 2)).
Proof. exact nll_chi. Qed.
Print Assumptions C73_likelihood.

Theorem C73_start : forall ss priors, length priors = length ss -> ss <> [] ->
  length (priors_start (priors_guess ss) priors) = length ss /\
  (forall i, (i < length ss)%nat -> nth i priors 0 <> 0 -> nth i (priors_start (priors_guess ss) priors) 0 = nth i priors 0) /\
  (forall i, (i < length ss - 1)%nat -> 0 <= nth i priors 0 -> 0 <= nth i (priors_start (priors_guess ss) priors) 0) /\
  (forall i, (i < length ss)%nat -> nth i priors 0 = 0 ->
     nth i (priors_start (priors_guess ss) priors) 0 = if (i =? length ss - 1)%nat then nth i ss 0 else Rabs (nth i ss 0)).
Proof. exact priors_start_spec. Qed.
Print Assumptions C73_start.

Example C73_ex : exists v, priors_nll 1 [(2, (1, 0), (3, 4))] [1; 2; 0; 0] [[1; 0; 0; 0]; [0; 1; 0; 0]; [0; 0; 0; 0]; [0; 0; 0; 0]] [1; 1; 1; 1] = Ok (Some v).
Proof.
  eexists. eapply C73_likelihood; cbn [length nth]; auto; try lra.
  - intros f y e [E|[]]. injection E as <- <- <-. cbn. lra.
  - cbn. reflexivity.
  - unfold priors_form. cbn. lra.
Qed.

(** ** C109: the objective of the fits *)
Theorem C109_objective : forall d params, length params = 3%nat \/ length params = 5%nat \/ length params = 7%nat ->
  length (didv_residual d params) = (2 * length d)%nat /\
  lsum (map (fun x => x ^ 2) (didv_residual d params)) = chi_square d params.
Proof. intros d params H. split; [apply residual_length|now apply residual_chi_square]. Qed.
Print Assumptions C109_objective.

Theorem C109_bins : forall p d fc n, length (p_freq p) = n -> length (d_mean d) = n -> length (d_std d) = n ->
  fit_bins p d fc
  = map (fun k => (nth k (p_freq p) 0, nth k (d_mean d) (RtoC 0), nth k (d_std d) (RtoC 0)))
      (filter (fun k => match fc with None => true | Some c => if Rlt_dec (Rabs (nth k (p_freq p) 0)) c then true else false end) (seq 0 n)).
Proof. exact fit_bins_value. Qed.
Print Assumptions C109_bins.

Theorem C109_stored_cost : forall fit fs poles fc o, honest_fitter fit -> (1 <= poles <= 3)%nat ->
  snd (dofit fit fs poles fc o) = Ok tt ->
  exists pr d r, dproc (fst (dofit fit fs poles fc o)) = Some pr /\ p_data pr = Some d /\
    fitresult poles (fst (dofit fit fs poles fc o)) = Some r /\ r_cost r = chi_square (fit_bins pr d fc) (r_params r) / 2.
Proof. exact stored_cost. Qed.
Print Assumptions C109_stored_cost.

(** The stored cost is documented to be the chi-square; it is half of it. *)
Theorem C109_cost_refuted : exists fit fs o r, honest_fitter fit /\ snd (dofit fit fs 1 None o) = Ok tt /\
  fitresult 1 (fst (dofit fit fs 1 None o)) = Some r /\
  forall pr d, dproc (fst (dofit fit fs 1 None o)) = Some pr -> p_data pr = Some d ->
    r_cost r <> chi_square (fit_bins pr d None) (r_params r).
Proof.
  destruct ex_honest_fit as [E (r & E1 & E2)]. exists ex_honest, ex_solve, ex_fit_obj, r.
  split; [exact ex_honest_ok|]. split; [exact E|]. split; [exact E1|]. intros pr d Hpr Hd.
  destruct (C109_stored_cost ex_honest ex_solve 1 None ex_fit_obj ex_honest_ok ltac:(lia) E) as (pr' & d' & r' & H1 & H2 & H3 & H4).
  assert (r' = r) by congruence. assert (pr' = pr) by congruence. subst. assert (d' = d) by congruence. subst. rewrite H4, E2.
  assert (K : pr = ex_proc).
  { unfold dofit in Hpr. cbn [ex_fit_obj dproc] in Hpr. fold ex_fit_obj in Hpr.
    destruct (dofit_core_cases ex_honest ex_solve 1 None ex_fit_obj)
      as [[X _]|(_ & _ & p' & d' & A0 & B0 & C0 & t1 & t2 & t3 & dt & sb & po & pc & co & r' & _ & _ & _ & _ & _ & X)];
      rewrite X in Hpr; cbn in Hpr; congruence. }
  subst pr. assert (K2 : d = ex_data) by (cbn in Hd; congruence). subst d. rewrite ex_chi. lra.
Qed.
Print Assumptions C109_cost_refuted.

Example C109_ex : honest_fitter ex_honest /\ snd (dofit ex_honest ex_solve 1 None ex_fit_obj) = Ok tt.
Proof. split; [exact ex_honest_ok|exact (proj1 ex_honest_fit)]. Qed.

(** ** C110: the results of processtraces *)
Theorem C110_arrays : forall o q n o' p, processed_from o q n o' p ->
  (2 <= n)%nat /\ ddt0 o' = (if dadd180 o then ddt0 o + 1 / (2 * dsgfreq o) else ddt0 o) /\
  p_time p = mk n (fun j => INR j / dfs o - ddt0 o') /\
  p_freq p = mk n (fun k => (if (2 * k <? n)%nat then INR k else INR k - INR n) * dfs o / INR n) /\
  p_traces p = filter (no_zero_bin n) (map (fun r => map (fun v => v / dtracegain o) (firstn n r)) (raw o)) /\
  p_ntraces p = length (p_traces p) /\ (p_data p = None <-> p_traces p = []).
Proof. exact api_arrays. Qed.
Print Assumptions C110_arrays.

Theorem C110_flat : forall o q n o' p s, processed_from o q n o' p -> is_trunc (ddt0 o' * dfs o) s ->
  NoDup (p_flat p) /\
  forall j, In j (p_flat p) <-> (0 < j < n)%nat /\ exists i, (i < length (nth 0 (raw o) []) / q)%nat /\
    (Z.of_nat i * Z.of_nat q + Z.of_nat q / 4 <= Z.of_nat j - s < Z.of_nat i * Z.of_nat q + 12 * Z.of_nat q / 25)%Z.
Proof. intros o q n o' p s H. exact (api_flat o q n o' p H s). Qed.
Print Assumptions C110_flat.

Theorem C110_means : forall o q n o' p d, processed_from o q n o' p -> p_data p = Some d ->
  d_tmean d = mk n (fun k => lmean (map (fun tr => nth k tr 0) (p_traces p))) /\
  d_offset d = lmean (map lmean (p_traces p)) /\
  d_offset_err d = list_std (map lmean (p_traces p)) / sqrt (INR (length (p_traces p))) /\
  length (d_mean d) = n /\ length (d_std d) = n.
Proof. intros o q n o' p d H. exact (api_means o q n o' p H d). Qed.
Print Assumptions C110_means.

Theorem C110_excited : forall o q n o' p d k m, processed_from o q n o' p -> p_data p = Some d -> excited o p n k m ->
  let S := square_dft n (dsgamp o * drsh o) (dduty o) m in
  nth k (d_mean d) (RtoC 0) = (trace_dft n (d_tmean d) k / S)%C /\
  nth k (d_std d) (RtoC 0)
  = (list_std (map (fun tr => fst (trace_dft n tr k / S)%C) (p_traces p)) / sqrt (INR (length (p_traces p))),
     list_std (map (fun tr => snd (trace_dft n tr k / S)%C) (p_traces p)) / sqrt (INR (length (p_traces p)))).
Proof. intros o q n o' p d k m H. exact (api_excited o q n o' p H d k m). Qed.
Print Assumptions C110_excited.

Theorem C110_unexcited : forall o q n o' p d k, processed_from o q n o' p -> p_data p = Some d -> (k < n)%nat ->
  unexcited n (n / q) (dsgamp o * drsh o) (dduty o) (dsgfreq o) (nth k (p_freq p) 0) k ->
  nth k (d_mean d) (RtoC 0) = (1 / 2, - (1 / 2)) /\
  nth k (d_std d) (RtoC 0) = (if Ceq_dec (trace_dft n (d_tmean d) k) (RtoC 0) then RtoC 0 else (10 ^ 20, 10 ^ 20)).
Proof. intros o q n o' p d k H. exact (api_unexcited o q n o' p H d k). Qed.
Print Assumptions C110_unexcited.

Example C110_ex : exists o' p d, processed_from ex_one 4 4 o' p /\ p_data p = Some d /\ excited ex_one p 4 1 1 /\
  unexcited 4 1 1 (1 / 2) 1 (nth 0 (p_freq p) 0) 0 /\ is_trunc (1 * 4) 4.
Proof.
  destruct ex_one_processed as (o' & p & d & H1 & H2 & _ & _ & H3). exists o', p, d. split; [exact H1|]. split; [exact H2|]. split; [exact H3|].
  split; [left; reflexivity|]. left. lra.
Qed.

(** ** C111: noise enters the admittance linearly *)
Theorem C111_noise : forall o q n o' p d a resp (noises : list (nat -> R)) k m z,
  processed_from o q n o' p -> p_data p = Some d ->
  a_rsh a = Some (drsh o) ->
  squarewaveresponse n (fun j => nth j (p_time p) 0) (dsgamp o) (dsgfreq o) (dduty o) a = Ok resp ->
  compleximpedance (nth k (p_freq p) 0) a = Ok z ->
  p_traces p = map (fun e => mk n (fun j => nth j resp 0 + e j)) noises ->
  excited o p n k m ->
  nth k (d_mean d) (RtoC 0)
  = (1 / z + dft n (fun j => RtoC (lmean (map (fun e => e j) noises))) (Z.of_nat k) / square_dft n (dsgamp o * drsh o) (dduty o) m)%C.
Proof. intros o q n o' p d a resp noises k m z H. exact (api_noise o q n o' p H d a resp noises k m z). Qed.
Print Assumptions C111_noise.

Example C111_ex : exists o' p d resp noises z, processed_from ex_one 4 4 o' p /\ p_data p = Some d /\ a_rsh ex_args = Some (drsh ex_one) /\
  squarewaveresponse 4 (fun j => nth j (p_time p) 0) (dsgamp ex_one) (dsgfreq ex_one) (dduty ex_one) ex_args = Ok resp /\
  compleximpedance (nth 1 (p_freq p) 0) ex_args = Ok z /\
  p_traces p = map (fun e => mk 4 (fun j => nth j resp 0 + e j)) noises /\ excited ex_one p 4 1 1.
Proof. exact ex_noise. Qed.

(** ** C112: fits of a single trace *)
Theorem C112_single_trace_refuted : forall o q n o' p d k m fit fs poles fc,
  processed_from o q n o' p -> p_data p = Some d -> p_ntraces p = 1%nat -> excited o p n k m ->
  match fc with None => True | Some c => Rabs (nth k (p_freq p) 0) < c end -> (1 <= poles <= 3)%nat ->
  nth k (d_std d) (RtoC 0) = RtoC 0 /\ dofit fit fs poles fc o' = (o', Err ValueError).
Proof. intros o q n o' p d k m fit fs poles fc H. exact (api_single o q n o' p H d k m fit fs poles fc). Qed.
Print Assumptions C112_single_trace_refuted.

Theorem C112_zero_error_rejected : forall fit fs fc o p d poles,
  (1 <= poles <= 3)%nat -> dproc o = Some p -> p_data p = Some d -> ~ errors_nonzero (fit_bins p d fc) ->
  dofit fit fs poles fc o = (o, Err ValueError).
Proof. exact zero_error_rejected. Qed.
Print Assumptions C112_zero_error_rejected.

Example C112_ex : exists o' p d, processed_from ex_one 4 4 o' p /\ p_data p = Some d /\ p_ntraces p = 1%nat /\ excited ex_one p 4 1 1.
Proof. destruct ex_one_processed as (o' & p & d & H1 & H2 & _ & H4 & H3). exists o', p, d. auto. Qed.

(** ** C113: the fits with priors *)
Theorem C113_stored : forall fit fs min pinv poles priors pcov fc o, (1 <= poles <= 3)%nat ->
  snd (priors_dofit fit fs min pinv poles priors pcov fc o) = Ok tt ->
  let o' := fst (priors_dofit fit fs min pinv poles priors pcov fc o) in
  exists pr d g r popt cov cost v s,
    dproc (pd o') = Some pr /\ p_data pr = Some d /\
    didvinitfromdata (d_tmean d) (d_mean d) (d_std d) (d_offset d) (d_offset_err d) (dfs (pd o')) (dsgfreq (pd o')) (dsgamp (pd o')) (drsh (pd o'))
      (if Req_EM_T (nth 2 priors 0) 0 then 1 / 10 else nth 2 priors 0)
      (if Req_EM_T (nth 1 priors 0) 0 then 1 / 100 else nth 1 priors 0) (dadd180 (pd o')) (ddt0 (pd o')) = Ok g /\
    snd (dofit fit fs poles fc g) = Ok tt /\ fitresult poles (fst (dofit fit fs poles fc g)) = Some r /\
    length priors = length (r_ss r) /\
    (let p0 := prior_or_guess (r_ss r) priors in
     min (priors_nll (drsh (pd o')) (fit_bins pr d fc) priors (pinv pcov)) p0 (all_nonnegative (length p0)) (map Rabs p0) = Ok (popt, cov, cost)) /\
    priors_fitresult poles o' = Some s /\
    q_params s = popt /\ q_cov s = cov /\ q_cost s = cost /\
    q_errors s = mk (length popt) (fun i => sqrt (nth i (nth i cov []) 0)) /\
    convertfromtesvalues popt = Ok v /\ q_fall s = findpolefalltimes fs v /\
    q_priors s = priors /\ q_priorscov s = pcov /\
    (exists y, complexadmittance 0 (ss_args popt) = Ok y /\ q_didv0 s = fst y).
Proof. exact priors_stores. Qed.
Print Assumptions C113_stored.

Theorem C113_others_kept : forall fit fs min pinv poles priors pcov fc o i, (1 <= i <= 3)%nat ->
  (i <> poles \/ snd (priors_dofit fit fs min pinv poles priors pcov fc o) <> Ok tt) ->
  priors_fitresult i (fst (priors_dofit fit fs min pinv poles priors pcov fc o)) = priors_fitresult i o.
Proof. exact priors_keeps. Qed.
Print Assumptions C113_others_kept.

Theorem C113_didv0_one : forall rsh rp L dt y, rsh + rp <> 0 ->
  complexadmittance 0 (ss_args [rsh; rp; L; dt]) = Ok y -> fst y = 1 / (rsh + rp).
Proof. exact priors_didv0_one. Qed.
Print Assumptions C113_didv0_one.

Theorem C113_didv0_two : forall rsh rp r0 beta l L tau0 dt y, l <> 1 ->
  let Z0 := rsh + rp + r0 * (1 + beta) + r0 * l / (1 - l) * (2 + beta) in Z0 <> 0 ->
  complexadmittance 0 (ss_args [rsh; rp; r0; beta; l; L; tau0; dt]) = Ok y -> fst y = 1 / Z0.
Proof. exact priors_didv0_two. Qed.
Print Assumptions C113_didv0_two.

Theorem C113_didv0_three : forall rsh rp r0 beta l L tau0 gratio tau3 dt y, l <> 1 -> gratio / (1 - l) <> 1 ->
  let Z0 := rsh + rp + r0 * (1 + beta) + r0 * l / (1 - l) * (2 + beta) / (1 - gratio / (1 - l)) in Z0 <> 0 ->
  complexadmittance 0 (ss_args [rsh; rp; r0; beta; l; L; tau0; gratio; tau3; dt]) = Ok y -> fst y = 1 / Z0.
Proof. exact priors_didv0_three. Qed.
Print Assumptions C113_didv0_three.

Theorem C113_short_priors : forall fit fs min pinv poles priors pcov fc o, dproc (pd o) <> None -> (length priors < 3)%nat ->
  priors_dofit fit fs min pinv poles priors pcov fc o = (o, Err IndexError).
Proof. exact priors_short. Qed.
Print Assumptions C113_short_priors.

Example C113_ex :
  snd (priors_dofit ex_fit ex_solve ex_minuit (fun c => c) 1 [1; 0; 1; 1] [] None (mkPDidv ex_fit_obj None None None)) = Ok tt.
Proof. exact ex_priors_fit. Qed.

(** ** C114: the time offset of the plots *)
Theorem C114_no_fit : forall o, (forall i, fitresult i o = None) -> best_time_offset (offsets_of o) = 0.
Proof. exact best_none. Qed.
Print Assumptions C114_no_fit.

Theorem C114_lowest_cost : forall o i r, fitresult i o = Some r ->
  (forall j r', fitresult j o = Some r' -> r_cost r <= r_cost r' /\ ((j < i)%nat -> r_cost r < r_cost r')) ->
  best_time_offset (offsets_of o) = last (r_params r) 0.
Proof. exact best_some. Qed.
Print Assumptions C114_lowest_cost.

Example C114_ex : exists r, fitresult 1 (fst (dofit ex_honest ex_solve 1 None ex_fit_obj)) = Some r /\
  best_time_offset (offsets_of (fst (dofit ex_honest ex_solve 1 None ex_fit_obj))) = last (r_params r) 0.
Proof.
  destruct ex_honest_fit as [E (r & E1 & _)]. exists r. split; [exact E1|]. apply (C114_lowest_cost _ 1 r E1).
  intros j r' Hj. assert (j = 1%nat /\ r' = r) as [-> ->]; [|split; [lra|lia]].
  destruct (Nat.eq_dec j 1) as [->|N]; [split; [reflexivity|congruence]|]. exfalso.
  destruct j as [|[|[|[|j]]]]; try discriminate; try lia.
  - assert (X := C50_no_fit ex_honest ex_solve 2 [OpFit 1 None] ex_fit_obj ltac:(lia) ltac:(cbn [no_store stores]; intuition discriminate)).
    change (fitresult 2 (fst (dofit ex_honest ex_solve 1 None ex_fit_obj)) = None) in X. congruence.
  - assert (X := C50_no_fit ex_honest ex_solve 3 [OpFit 1 None] ex_fit_obj ltac:(lia) ltac:(cbn [no_store stores]; intuition discriminate)).
    change (fitresult 3 (fst (dofit ex_honest ex_solve 1 None ex_fit_obj)) = None) in X. congruence.
Qed.
