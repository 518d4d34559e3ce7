(** * Properties of IV and IBIS *)
From Verif Require Import Base ListLemmas UtilsModel OFFreeModel IvModel IvSpec IvProofs1 IvProofs2 IvProofs3 IvProofs4 IvProofs5 IvProofs6 IvProofs7.
From Coquelicot Require Import Coquelicot.
Local Open Scope R_scope.

(** [cf] stands for scipy's [curve_fit] on the points (x, y, sigma); [iv_call] is the constructor
    followed by [calc_iv], [ibis_call] the constructor followed by [analyze]. *)

(** ** C38: IV curve quantities *)
Theorem C38_ohm_joule : forall cf d de v ve r re nn inds out nt nc ni,
  iv_call cf d de v ve r re nn inds = Ok out -> has_dims d nt nc ni ->
  forall t c i rl, (t < nt)%nat -> (c < nc)%nat -> (i < ni)%nat -> load_at nt nc ni r t c i rl ->
    let I := iv_ites out t c i in
    let V := entry nc ni v t c i in
    I = entry nc ni d t c i - iv_ioff out t c /\
    iv_ptes out t c i = I ^ 2 * iv_r0 out t c i /\
    (I <> 0 -> V = I * (iv_r0 out t c i + rl) /\ iv_ptes out t c i = I * (V - I * rl)).
Proof. exact iv_ohm_joule. Qed.
Print Assumptions C38_ohm_joule.

(** The offset is the intercept of the line fitted to the normal points, the normal resistance its
    inverse slope minus the load resistance, with the propagated uncertainty. *)
Theorem C38_normal_fit : forall cf d de v ve r re nn inds out nt nc ni,
  iv_call cf d de v ve r re nn inds = Ok out -> has_dims d nt nc ni ->
  forall t c, (t < nt)%nat -> (c < nc)%nat -> exists l b m cov,
    (forall i, In i l -> (i < ni)%nat /\ entry_nan nc ni v t c i = false /\ entry_nan nc ni d t c i = false
                                  /\ entry_nan nc ni de t c i = false) /\
    (2 <= length l)%nat /\ (forall l', inds = Some l' -> l = l') /\ (inds = None -> exists k, l = seq 0 k) /\
    cf (points (entry nc ni v t c) (entry nc ni d t c) (entry nc ni de t c) l) = Ok (mkFit b m cov) /\
    iv_ioff out t c = b /\ iv_ioff_err out t c = sqrt (cov 0%nat 0%nat) /\
    iv_rfit out t c = 1 / m /\
    (forall rl, (0 < ni)%nat -> load_at nt nc ni r t c 0 rl -> iv_rnorm out t c = 1 / m - rl) /\
    (forall rl rle, (0 < ni)%nat -> load_at nt nc ni r t c 0 rl -> load_at nt nc ni re t c 0 rle ->
       m <> 0 -> 0 <= cov 1%nat 1%nat ->
       propagates 2 (fun x => 1 / x 0%nat - x 1%nat) (vec [m; rl]) (independent [sqrt (cov 1%nat 1%nat); rle])
         (iv_rnorm_err out t c)).
Proof. exact iv_normal_fit. Qed.
Print Assumptions C38_normal_fit.

(** The uncertainties of current, resistance and power, taking the voltage, the current, the
    current offset and the load resistance as independent. *)
Theorem C38_errors_partial : forall cf d de v ve r re nn inds out nt nc ni,
  iv_call cf d de v ve r re nn inds = Ok out -> has_dims d nt nc ni ->
  forall t c i rl rle, (t < nt)%nat -> (c < nc)%nat -> (i < ni)%nat ->
    load_at nt nc ni r t c i rl -> load_at nt nc ni re t c i rle -> iv_ites out t c i <> 0 ->
    let x := vec [entry nc ni v t c i; entry nc ni d t c i; iv_ioff out t c; rl] in
    let cov := independent [entry nc ni ve t c i; entry nc ni de t c i; iv_ioff_err out t c; rle] in
    propagates 2 (fun y => y 0%nat - y 1%nat) (vec [entry nc ni d t c i; iv_ioff out t c])
       (independent [entry nc ni de t c i; iv_ioff_err out t c]) (iv_ites_err out t c i) /\
    propagates 4 (fun y => y 0%nat / (y 1%nat - y 2%nat) - y 3%nat) x cov (iv_r0_err out t c i) /\
    propagates 4 (fun y => (y 1%nat - y 2%nat) ^ 2 * (y 0%nat / (y 1%nat - y 2%nat) - y 3%nat)) x cov
      (iv_ptes_err out t c i).
Proof. exact iv_errors. Qed.
Print Assumptions C38_errors_partial.

(** [rfit_err] is a copy of [rfit]: with an exact slope of 1 it is 1 instead of 0. *)
Theorem C38_rfit_err_refuted :
  (forall cf d de v ve r re nn inds out t c,
     iv_call cf d de v ve r re nn inds = Ok out -> iv_rfit_err out t c = iv_rfit out t c) /\
  exists cf out b m cov,
  total_fitter cf /\ iv_call cf ex_i ex_s ex_v ex_s (RScalar 1) (RScalar 0) 1 (Some [0; 1; 2]%nat) = Ok out /\
  cf (points (entry 1 4 ex_v 0 0) (entry 1 4 ex_i 0 0) (entry 1 4 ex_s 0 0) [0; 1; 2]%nat) = Ok (mkFit b m cov) /\
  m <> 0 /\ 0 <= cov 1%nat 1%nat /\
  ~ propagates 1 (fun y => 1 / y 0%nat) (fun _ => m) (fun i j => cov 1%nat 1%nat) (iv_rfit_err out 0%nat 0%nat).
Proof. split; [exact iv_rfit_err_is_rfit|exact iv_rfit_err_wrong]. Qed.
Print Assumptions C38_rfit_err_refuted.

Lemma ex_iv_dims : has_dims ex_i 1 1 4.
Proof. right. right. repeat split. Qed.

(** Bias voltages 4, 3, 2, 1; currents 3, 2.5, 2, 2; load 1: offset 1, normal resistance 1, and the
    last point has resistance 0. *)
Example C38_ex : exists out,
  iv_call wls_fitter ex_i ex_s ex_v ex_s (RScalar 1) (RScalar 0) 1 (Some [0; 1; 2]%nat) = Ok out /\
  iv_ioff out 0%nat 0%nat = 1 /\ iv_rnorm out 0%nat 0%nat = 1 /\
  iv_r0 out 0%nat 0%nat 3%nat = 0 /\ iv_ptes out 0%nat 0%nat 0%nat = 4 /\ iv_ites out 0%nat 0%nat 0%nat = 2.
Proof.
  destruct (iv_ex_ok wls_fitter (Some [0; 1; 2]%nat) 1 0 wls_fitter_total (or_intror eq_refl)) as [out E].
  exists out. split; [exact E|].
  destruct (iv_exact _ _ _ _ _ _ _ _ _ _ _ _ _ wls_fitter_best E ex_iv_dims 0%nat 0%nat 1 1 1 ltac:(lia) ltac:(lia) ltac:(lra)) as [H1 [H2 [H3 H4]]].
  - intros i _. reflexivity.
  - intros i Hi. unfold ex_s. rewrite entry_array. do 4 (destruct i as [|i]; [simpl; lra|]). lia.
  - intros i Hi. unfold ex_i, ex_v. rewrite !entry_array. destruct Hi as [<-|[<-|[<-|[]]]]; simpl; lra.
  - exists 0%nat, 1%nat. repeat split; try (simpl; tauto). unfold ex_v. rewrite !entry_array. simpl. lra.
  - split; [exact H1|]. split; [exact H2|].
    destruct (H4 3%nat ltac:(lia)) as [_ H5]. destruct (H4 0%nat ltac:(lia)) as [H6 _].
    split; [apply H5; unfold ex_i, ex_v; rewrite ?entry_array; simpl; lra|].
    assert (H7 : iv_ites out 0%nat 0%nat 0%nat = 2) by (rewrite H6; unfold ex_i; rewrite entry_array; simpl; lra).
    split; [|exact H7].
    destruct (C38_ohm_joule _ _ _ _ _ _ _ _ _ _ _ _ _ E ex_iv_dims 0%nat 0%nat 0%nat 1 ltac:(lia) ltac:(lia) ltac:(lia) eq_refl) as [_ [_ H8]].
    rewrite (proj2 (H8 ltac:(lra))), H7. unfold ex_v. rewrite entry_array. simpl. lra.
Qed.

(** ** C39: the normal-branch search *)

(** The first [j] points are fitted by a line with reduced chi2 at most (or above) the threshold. *)
Definition fits (cf : fitter) (x y s : nat -> R) (tol : R) (j : nat) : Prop :=
  exists b m cov, cf (points x y s (seq 0 j)) = Ok (mkFit b m cov) /\ consistent x y s tol j b m.
Definition fits_not (cf : fitter) (x y s : nat -> R) (tol : R) (j : nat) : Prop :=
  exists b m cov, cf (points x y s (seq 0 j)) = Ok (mkFit b m cov) /\ ~ consistent x y s tol j b m.

Lemma good_fits cf n x y s bad tol j : prefix_good cf n x y s bad tol j -> fits cf x y s tol j.
Proof. intros [p [E H]]. apply fit_row_ok in E. destruct E as [_ [_ E]]. exists (fb p), (fm p), (fcov p). rewrite E. destruct p. auto. Qed.
Lemma bad_fits cf n x y s bad tol j : prefix_bad cf n x y s bad tol j -> fits_not cf x y s tol j.
Proof. intros [p [E H]]. apply fit_row_ok in E. destruct E as [_ [_ E]]. exists (fb p), (fm p), (fcov p). rewrite E. destruct p. auto. Qed.

(** The result is the first [k] points, at least one; every longer-than-two prefix of them fits;
    either one more point makes the fit fail, or one more point ends the data (end of the array or
    padding) and this last point is left out although the fit with it is good. *)
Theorem C39_initial_segment_partial : forall cf n x y s nanx bad tol l, findnormalinds cf n x y s nanx bad tol = Ok l ->
  exists k, l = seq 0 k /\ (1 <= k)%nat /\ (S k <= Nat.max 2 n)%nat /\
    (forall j, (2 < j <= k)%nat -> fits cf x y s tol j) /\
    (forall j, (2 <= j <= k)%nat -> nanx j = false) /\
    ((2 <= k)%nat /\ fits_not cf x y s tol (S k) \/
     ((n <= S k)%nat \/ nanx (S k) = true) /\ ((2 <= k)%nat -> fits cf x y s tol (S k))).
Proof.
  intros cf n x y s nanx bad tol l E. destruct (findnormalinds_spec _ _ _ _ _ _ _ _ _ E) as [e [-> [B [G [N F]]]]].
  exists (e - 1)%nat. split; [reflexivity|]. split; [lia|]. split; [lia|].
  split; [intros j Hj; eapply good_fits, G; lia|]. split; [intros j Hj; apply N; lia|].
  replace (S (e - 1)) with e by lia.
  destruct F as [[F1 F2]|[F1 F2]]; [left; split; [lia|eapply bad_fits, F2]|right; split; [exact F1|]].
  intros. eapply good_fits, F2. lia.
Qed.
Print Assumptions C39_initial_segment_partial.

(** When every prefix fits, the last point is left out nevertheless. *)
Theorem C39_all_points_refuted : forall cf n x y s tol, (3 <= n)%nat ->
  (forall j, (2 < j <= n)%nat -> fits cf x y s tol j) ->
  findnormalinds cf n x y s (fun _ => false) (fun _ => false) tol = Ok (seq 0 (n - 1)).
Proof.
  intros cf n x y s tol Hn Hj.
  destruct (findnormalinds cf n x y s (fun _ => false) (fun _ => false) tol) as [l|er] eqn:E.
  - destruct (C39_initial_segment_partial _ _ _ _ _ _ _ _ _ E) as [k [-> [K1 [K2 [_ [_ F]]]]]].
    assert (K : k = (n - 1)%nat); [|now rewrite K].
    destruct F as [[F1 [b [m [cov [F2 F3]]]]]|[[F|F] _]]; [|lia|discriminate].
    exfalso. destruct (Hj (S k) ltac:(lia)) as [b' [m' [cov' [G2 G3]]]]. rewrite F2 in G2. apply F3.
    injection G2 as -> -> _. exact G3.
  - exfalso. unfold findnormalinds in E.
    assert (K : forall fuel e, (2 <= e)%nat -> exists e', fni_loop fuel cf n x y s (fun _ => false) (fun _ => false) tol e = Ok e').
    { induction fuel as [|fuel IH]; intros e He; [eexists; reflexivity|]. cbn [fni_loop].
      destruct (Nat.ltb_spec e n) as [L|L]; cbn [andb negb]; [|eexists; reflexivity].
      destruct (Hj (S e) ltac:(lia)) as [b [m [cov [G2 _]]]].
      rewrite fit_row_intro, G2; [|intros i Hi; apply in_seq in Hi; split; [lia|reflexivity]|rewrite seq_length; lia].
      cbn [bind]. destruct (Rltb _ _); [eexists; reflexivity|]. apply IH. lia. }
    match type of E with context[fni_loop ?f _ _ _ _ _ _ _ _ ?e] => destruct (K f e ltac:(lia)) as [e' K'] end.
    rewrite K' in E. discriminate.
Qed.
Print Assumptions C39_all_points_refuted.

(** Four points on a line: the first three are returned. *)
Example C39_ex : findnormalinds wls_fitter 4 INR INR (fun _ => 1) (fun _ => false) (fun _ => false) 10 = Ok [0; 1; 2]%nat.
Proof.
  refine (C39_all_points_refuted wls_fitter 4 INR INR (fun _ => 1) 10 _ _); [lia|]. intros j Hj.
  set (pts := points INR INR (fun _ => 1) (seq 0 j)).
  exists (fb (wls pts)), (fm (wls pts)), (fcov (wls pts)). split; [unfold wls_fitter; fold pts; now destruct (wls pts)|].
  assert (B : best_line pts (fb (wls pts)) (fm (wls pts))) by apply wls_best. unfold consistent. fold pts.
  specialize (B 0 1). assert (Z : line_chi2 pts 0 1 = 0).
  { clear B. subst pts. unfold line_chi2, points. rewrite map_map. unfold lsum. induction (seq 0 j) as [|a q IH]; [reflexivity|].
    cbn [map fold_right]. rewrite IH. field; lra. }
  rewrite Z in B. assert (P : 0 < INR j - 2).
  { assert (3 <= INR j); [|lra]. replace 3 with (INR 3) by (simpl; lra). apply le_INR. lia. }
  apply Rle_trans with 0; [|lra]. unfold Rdiv. rewrite <- (Rmult_0_l (/ (INR j - 2))).
  apply Rmult_le_compat_r; [left; now apply Rinv_0_lt_compat|exact B].
Qed.

(** ** C40: the documented forms of the load resistance *)

(** Scalar, per channel, per temperature and channel: the call succeeds and uses the given values
    ([C38_ohm_joule] with [load_at]). *)
Theorem C40_forms_partial : forall cf d de v ve r re nn inds nt nc ni,
  has_dims d nt nc ni -> size de = (nt * nc * ni)%nat -> size v = (nt * nc * ni)%nat -> size ve = (nt * nc * ni)%nat ->
  nn = nc -> total_fitter cf -> enough_points nt nc ni d de v inds ->
  documented_form nt nc ni r -> same_form r re -> ~ full_array nt nc ni r ->
  exists out, iv_call cf d de v ve r re nn inds = Ok out /\
    forall t c i, (t < nt)%nat -> (c < nc)%nat -> (i < ni)%nat -> exists rl, load_at nt nc ni r t c i rl /\
      (iv_ites out t c i <> 0 -> entry nc ni v t c i = iv_ites out t c i * (iv_r0 out t c i + rl)).
Proof.
  intros cf d de v ve r re nn inds nt nc ni Hd S1 S2 S3 Hn Hf He Hr Hs Hfull.
  destruct (proj2 (iv_call_run cf d de v ve r re nn inds nt nc ni Hd S1 S2 S3 Hn Hf He Hr Hs) Hfull) as [out E].
  exists out. split; [exact E|]. intros t c i Ht Hc Hi.
  assert (L : exists rl, load_at nt nc ni r t c i rl).
  { destruct r as [w|a]; [now exists w|]. cbn [load_at documented_form] in *. destruct Hr as [K|[K|K]].
    - exists (flat a c). auto.
    - exists (flat a (t * nc + c)%nat). auto.
    - exists (entry nc ni a t c i). auto. }
  destruct L as [rl L]. exists rl. split; [exact L|]. intros I.
  now destruct (iv_ohm_joule _ _ _ _ _ _ _ _ _ _ _ _ _ E Hd t c i rl Ht Hc Hi L) as [_ [_ [K _]]].
Qed.
Print Assumptions C40_forms_partial.

(** With a full 3-d array the attribute [rload] is never set. *)
Theorem C40_full_array_refuted : forall cf d de v ve r re nn inds nt nc ni,
  has_dims d nt nc ni -> size de = (nt * nc * ni)%nat -> size v = (nt * nc * ni)%nat -> size ve = (nt * nc * ni)%nat ->
  nn = nc -> total_fitter cf -> enough_points nt nc ni d de v inds ->
  documented_form nt nc ni r -> same_form r re -> full_array nt nc ni r ->
  iv_call cf d de v ve r re nn inds = Err AttributeError.
Proof.
  intros cf d de v ve r re nn inds nt nc ni Hd S1 S2 S3 Hn Hf He Hr Hs Hfull.
  exact (proj1 (iv_call_run cf d de v ve r re nn inds nt nc ni Hd S1 S2 S3 Hn Hf He Hr Hs) Hfull).
Qed.
Print Assumptions C40_full_array_refuted.

Definition ex_i3 := array [1; 1; 4]%nat [3; 5 / 2; 2; 2].
Example C40_ex :
  iv_call wls_fitter ex_i3 ex_s ex_v ex_s (RArr (array [1; 1; 4]%nat [1; 1; 1; 1])) (RArr (array [1; 1; 4]%nat [0; 0; 0; 0])) 1 None
    = Err AttributeError /\
  (exists out, iv_call wls_fitter ex_i3 ex_s ex_v ex_s (RArr (array (1%nat :: nil) (1 :: nil))) (RArr (array (1%nat :: nil) (0 :: nil))) 1 None = Ok out) /\
  (exists out, iv_call wls_fitter ex_i3 ex_s ex_v ex_s (RArr (array [1; 1]%nat (1 :: nil))) (RArr (array [1; 1]%nat (0 :: nil))) 1 None = Ok out).
Proof.
  assert (He : enough_points 1 1 4 ex_i3 ex_s ex_v None) by (split; [lia|intros; repeat split]).
  assert (Hd : has_dims ex_i3 1 1 4) by now left.
  split; [|split].
  - apply (C40_full_array_refuted _ _ _ _ _ _ _ _ _ 1 1 4); try reflexivity; try assumption; [apply wls_fitter_total|right; right; reflexivity].
  - destruct (C40_forms_partial wls_fitter ex_i3 ex_s ex_v ex_s (RArr (array (1%nat :: nil) (1 :: nil))) (RArr (array (1%nat :: nil) (0 :: nil))) 1 None 1 1 4) as [o [Ho _]];
      try reflexivity; try assumption; [apply wls_fitter_total|left; reflexivity|discriminate|eauto].
  - destruct (C40_forms_partial wls_fitter ex_i3 ex_s ex_v ex_s (RArr (array [1; 1]%nat (1 :: nil))) (RArr (array [1; 1]%nat (0 :: nil))) 1 None 1 1 4) as [o [Ho _]];
      try reflexivity; try assumption; [apply wls_fitter_total|right; left; reflexivity|discriminate|eauto].
Qed.

(** ** C76: recovery of a noise-free IV sweep *)

(** A least-squares fitter on noise-free data of a resistor [rn] with load [rl] and offset [off]
    gives back [off] and [rn], and the resistance of every point. *)
Theorem C76_iv_exact : forall cf d de v ve r re nn inds out nt nc ni,
  (forall pts p, cf pts = Ok p -> best_line pts (fb p) (fm p)) ->
  iv_call cf d de v ve r re nn inds = Ok out -> has_dims d nt nc ni ->
  forall t c off rn rl, (t < nt)%nat -> (c < nc)%nat -> rn + rl <> 0 ->
    (forall i, (i < ni)%nat -> load_at nt nc ni r t c i rl) ->
    (forall i, (i < ni)%nat -> entry nc ni de t c i <> 0) ->
    (forall i, (match inds with Some l => In i l | None => (i < ni)%nat /\ entry_nan nc ni v t c i = false end) ->
       entry nc ni d t c i = off + entry nc ni v t c i / (rn + rl)) ->
    (match inds with
     | Some l => exists i j, In i l /\ In j l /\ entry nc ni v t c i <> entry nc ni v t c j
     | None => entry nc ni v t c 0 <> entry nc ni v t c 1 end) ->
    iv_ioff out t c = off /\ iv_rnorm out t c = rn /\ iv_rfit out t c = rn + rl /\
    forall i, (i < ni)%nat ->
      (iv_ites out t c i = entry nc ni d t c i - off /\
      (forall R, R + rl <> 0 -> entry nc ni v t c i <> 0 ->
         entry nc ni d t c i = off + entry nc ni v t c i / (R + rl) -> iv_r0 out t c i = R))%R.
Proof. exact iv_exact. Qed.
Print Assumptions C76_iv_exact.

(** Its hypotheses hold for [C38_ex]; a least-squares fitter exists. *)
Example C76_ex : forall pts p, wls_fitter pts = Ok p -> best_line pts (fb p) (fm p).
Proof. exact wls_fitter_best. Qed.

(** ** C41: the offset point of IBIS *)

(** The lines are the fits of the given points. *)
Theorem C41_lines : forall cf d de ib ibe rsh rshe ninds rp rpe nn fitsc scinds yo yoe xo xoe out nt nc ni,
  ibis_call cf d de ib ibe rsh rshe ninds rp rpe nn fitsc scinds yo yoe xo xoe = Ok out -> has_dims d nt nc ni ->
  forall t c, (t < nt)%nat -> (c < nc)%nat ->
    exists covn,
      cf (points (entry nc ni ib t c) (entry nc ni d t c) (entry nc ni de t c) ninds)
        = Ok (mkFit (o_int_n out t c) (o_slope_n out t c) covn) /\
      (fitsc = true -> exists l covs, scinds = Some l /\
        cf (points (entry nc ni ib t c) (entry nc ni d t c) (entry nc ni de t c) l)
        = Ok (mkFit (o_int_sc out t c) (o_slope_sc out t c) covs)).
Proof. exact ibis_lines. Qed.
Print Assumptions C41_lines.

Theorem C41_crossing : forall cf d de ib ibe rsh rshe ninds rp rpe nn scinds yoe xoe out nt nc ni,
  ibis_call cf d de ib ibe rsh rshe ninds rp rpe nn true scinds ONone yoe ONone xoe = Ok out -> has_dims d nt nc ni ->
  forall t c, (t < nt)%nat -> (c < nc)%nat -> o_slope_n out t c <> o_slope_sc out t c ->
    forall x y, (y = o_slope_n out t c * x + o_int_n out t c /\ y = o_slope_sc out t c * x + o_int_sc out t c) <->
      (x = o_ibias_off out t c /\ y = o_ioff out t c).
Proof. exact ibis_crossing. Qed.
Print Assumptions C41_crossing.

(** Without the superconducting fit: no bias offset, the current offset is the intercept of the
    normal fit, and the parasitic resistance is the given guess. *)
Theorem C41_no_sc : forall cf d de ib ibe rsh rshe ninds rp rpe nn scinds yoe xoe out nt nc ni,
  ibis_call cf d de ib ibe rsh rshe ninds rp rpe nn false scinds ONone yoe ONone xoe = Ok out -> has_dims d nt nc ni ->
  forall t c, (t < nt)%nat -> (c < nc)%nat ->
    o_ibias_off out t c = 0 /\ o_ioff out t c = o_int_n out t c /\
    ((0 < ni)%nat -> load_at nt nc ni rp t c 0 (o_rp out t c) /\ load_at nt nc ni rpe t c 0 (o_rp_err out t c)).
Proof. exact ibis_no_sc. Qed.
Print Assumptions C41_no_sc.

(** Lines 2x+1 and 3x meet at (1, 3). *)
Example C41_ex : exists out, ex_call (two_fitter (mkFit 0 3 zeros) (mkFit 1 2 zeros)) true = Ok out /\
  o_ibias_off out 0%nat 0%nat = 1 /\ o_ioff out 0%nat 0%nat = 3.
Proof.
  destruct (ex_ok _ true (two_total (mkFit 0 3 zeros) (mkFit 1 2 zeros))) as [out E]. exists out. split; [exact E|].
  destruct (ex_fits _ _ _ E) as [F1 [F2 [F3 F4]]]. cbn [fb fm] in *.
  assert (N : o_slope_n out 0%nat 0%nat <> o_slope_sc out 0%nat 0%nat) by lra.
  destruct (C41_crossing _ _ _ _ _ _ _ _ _ _ _ _ _ _ _ _ _ _ E ex_dims 0%nat 0%nat ltac:(lia) ltac:(lia) N 1 3) as [H _].
  destruct H as [-> ->]; [rewrite F1, F2, F3, F4; split; lra|]. split; reflexivity.
Qed.

(** ** C42: error propagation in IBIS *)

(** The formulas of resistance and power, for any covariance of the six inputs
    (bias current, bias offset, current, current offset, shunt, parasitic). *)
Theorem C42_rtes_err : forall x cov, x 2%nat - x 3%nat <> 0 ->
  propagates 6 (fun y => (y 0%nat - y 1%nat) * y 4%nat / (y 2%nat - y 3%nat) - (y 4%nat + y 5%nat)) x cov
    (rtes_err (x 0%nat) (x 1%nat) (x 4%nat) (x 2%nat) (x 3%nat) (x 5%nat) cov).
Proof. exact rtes_err_propagates. Qed.
Print Assumptions C42_rtes_err.

Theorem C42_ptes_err : forall x cov,
  propagates 6 (fun y => (y 0%nat - y 1%nat) * y 4%nat * (y 2%nat - y 3%nat) - (y 4%nat + y 5%nat) * (y 2%nat - y 3%nat) ^ 2) x cov
    (ptes_err (x 0%nat) (x 1%nat) (x 4%nat) (x 2%nat) (x 3%nat) (x 5%nat) cov).
Proof. exact ptes_err_propagates. Qed.
Print Assumptions C42_ptes_err.

(** The reported uncertainties at the bias points *)
Theorem C42_point_errors : forall cf d de ib ibe rsh rshe ninds rp rpe nn fitsc scinds yo yoe xo xoe out nt nc ni,
  ibis_call cf d de ib ibe rsh rshe ninds rp rpe nn fitsc scinds yo yoe xo xoe = Ok out -> has_dims d nt nc ni ->
  forall t c i, (t < nt)%nat -> (c < nc)%nat -> (i < ni)%nat ->
    let x := vec [entry nc ni ib t c i; o_ibias_off out t c; entry nc ni d t c i; o_ioff out t c; rsh; o_rp out t c] in
    let cov := independent [entry nc ni ibe t c i; o_ibias_off_err out t c; entry nc ni de t c i; o_ioff_err out t c; rshe; o_rp_err out t c] in
    (entry nc ni d t c i <> o_ioff out t c ->
      propagates 6 (fun y => (y 0%nat - y 1%nat) * y 4%nat / (y 2%nat - y 3%nat) - (y 4%nat + y 5%nat)) x cov (o_r0_err out t c i)) /\
    propagates 6 (fun y => (y 0%nat - y 1%nat) * y 4%nat * (y 2%nat - y 3%nat) - (y 4%nat + y 5%nat) * (y 2%nat - y 3%nat) ^ 2) x cov
      (o_ptes_err out t c i) /\
    propagates 2 (fun y => y 0%nat * y 1%nat) (vec [o_ibias_true out t c i; rsh]) (independent [o_ibias_true_err out t c i; rshe])
      (o_vb_err out t c i).
Proof. exact ibis_point_errors. Qed.
Print Assumptions C42_point_errors.

(** The offset point: with slopes and intercepts taken as independent the error of the bias offset
    is right, that of the current offset is right under an extra condition. *)
Theorem C42_offset_errors_partial : forall cf d de ib ibe rsh rshe ninds rp rpe nn scinds yoe xoe out nt nc ni,
  ibis_call cf d de ib ibe rsh rshe ninds rp rpe nn true scinds ONone yoe ONone xoe = Ok out -> has_dims d nt nc ni ->
  forall t c, (t < nt)%nat -> (c < nc)%nat -> o_slope_n out t c <> o_slope_sc out t c ->
    exists covn covs l, scinds = Some l /\
      cf (points (entry nc ni ib t c) (entry nc ni d t c) (entry nc ni de t c) ninds)
        = Ok (mkFit (o_int_n out t c) (o_slope_n out t c) covn) /\
      cf (points (entry nc ni ib t c) (entry nc ni d t c) (entry nc ni de t c) l)
        = Ok (mkFit (o_int_sc out t c) (o_slope_sc out t c) covs) /\
      let x := vec [o_int_n out t c; o_slope_n out t c; o_int_sc out t c; o_slope_sc out t c] in
      let cov := independent [sqrt (covn 0%nat 0%nat); sqrt (covn 1%nat 1%nat); sqrt (covs 0%nat 0%nat); sqrt (covs 1%nat 1%nat)] in
      propagates 4 (fun y => (y 0%nat - y 2%nat) / (y 3%nat - y 1%nat)) x cov (o_ibias_off_err out t c) /\
      ((o_int_n out t c - o_int_sc out t c) * (o_slope_n out t c - 1) * sqrt (covn 1%nat 1%nat) = 0 ->
         propagates 4 (fun y => y 1%nat * ((y 0%nat - y 2%nat) / (y 3%nat - y 1%nat)) + y 0%nat) x cov (o_ioff_err out t c)).
Proof.
  intros cf d de ib ibe rsh rshe ninds rp rpe nn scinds yoe xoe out nt nc ni E Hd t c Ht Hc Hs.
  destruct (ibis_offset_errors _ _ _ _ _ _ _ _ _ _ _ _ _ _ _ _ _ _ E Hd t c Ht Hc Hs) as [cn [cs [l [H1 [H2 [H3 [H4 [_ H6]]]]]]]].
  exists cn, cs, l. repeat (split; [assumption|]). exact H6.
Qed.
Print Assumptions C42_offset_errors_partial.

(** Normal line 2x+1, superconducting line 3x, only the normal slope uncertain, by 1: the current
    offset [mn (bn-bs)/(ms-mn) + bn] has derivative 3 with respect to that slope, the code reports 2. *)
Theorem C42_ioff_err_refuted : exists cf out,
  total_fitter cf /\ ex_call cf true = Ok out /\
  exists bn mn covn bs ms covs,
    cf (points (entry 1 4 ex_ib 0 0) (entry 1 4 ex_d 0 0) (entry 1 4 ex_e 0 0) [1; 2]%nat) = Ok (mkFit bn mn covn) /\
    cf (points (entry 1 4 ex_ib 0 0) (entry 1 4 ex_d 0 0) (entry 1 4 ex_e 0 0) [0; 3]%nat) = Ok (mkFit bs ms covs) /\
    mn <> ms /\ covn 0%nat 1%nat = 0 /\ covn 1%nat 0%nat = 0 /\ covs 0%nat 1%nat = 0 /\ covs 1%nat 0%nat = 0 /\
    0 <= covn 0%nat 0%nat /\ 0 <= covn 1%nat 1%nat /\ 0 <= covs 0%nat 0%nat /\ 0 <= covs 1%nat 1%nat /\
    ~ propagates 4 cross_y (vec [bn; mn; bs; ms])
        (independent [sqrt (covn 0%nat 0%nat); sqrt (covn 1%nat 1%nat); sqrt (covs 0%nat 0%nat); sqrt (covs 1%nat 1%nat)])
        (o_ioff_err out 0%nat 0%nat).
Proof. exact ioff_err_wrong. Qed.
Print Assumptions C42_ioff_err_refuted.

(** The covariance between slope and intercept that the fit returns is not used. *)
Theorem C42_fit_covariance_refuted : exists cf out,
  total_fitter cf /\ ex_call cf true = Ok out /\
  exists bn mn covn bs ms covs,
    cf (points (entry 1 4 ex_ib 0 0) (entry 1 4 ex_d 0 0) (entry 1 4 ex_e 0 0) [1; 2]%nat) = Ok (mkFit bn mn covn) /\
    cf (points (entry 1 4 ex_ib 0 0) (entry 1 4 ex_d 0 0) (entry 1 4 ex_e 0 0) [0; 3]%nat) = Ok (mkFit bs ms covs) /\
    mn <> ms /\ (forall i j, covn i j = covn j i) /\ (forall u v, 0 <= u ^ 2 * covn 0%nat 0%nat + 2 * u * v * covn 0%nat 1%nat + v ^ 2 * covn 1%nat 1%nat) /\
    covs = zeros /\
    ~ propagates 4 cross_x (vec [bn; mn; bs; ms]) (block covn covs) (o_ibias_off_err out 0%nat 0%nat).
Proof. exact covariance_ignored. Qed.
Print Assumptions C42_fit_covariance_refuted.

(** The fit resistance: the error is right only when the slope is exactly known ... *)
Theorem C42_rfit_err_partial : forall cf d de ib ibe rsh rshe ninds rp rpe nn fitsc scinds yo yoe xo xoe out nt nc ni,
  ibis_call cf d de ib ibe rsh rshe ninds rp rpe nn fitsc scinds yo yoe xo xoe = Ok out -> has_dims d nt nc ni ->
  forall t c, (t < nt)%nat -> (c < nc)%nat -> forall covn,
    cf (points (entry nc ni ib t c) (entry nc ni d t c) (entry nc ni de t c) ninds)
        = Ok (mkFit (o_int_n out t c) (o_slope_n out t c) covn) -> o_slope_n out t c <> 0 ->
    o_rfit_err out t c = sqrt ((rsh * covn 1%nat 1%nat / o_slope_n out t c ^ 4) ^ 2 + (rshe / o_slope_n out t c) ^ 2) /\
    (covn 1%nat 1%nat = 0 ->
       propagates 2 (fun y => y 1%nat / y 0%nat) (vec [o_slope_n out t c; rsh]) (independent [sqrt (covn 1%nat 1%nat); rshe])
         (o_rfit_err out t c)).
Proof. exact ibis_resistance_errors. Qed.
Print Assumptions C42_rfit_err_partial.

(** ... since otherwise the variance of the inverse slope stands in for its standard deviation. *)
Theorem C42_rfit_err_refuted : exists cf out bn mn covn,
  total_fitter cf /\ ex_call cf false = Ok out /\
  cf (points (entry 1 4 ex_ib 0 0) (entry 1 4 ex_d 0 0) (entry 1 4 ex_e 0 0) [1; 2]%nat) = Ok (mkFit bn mn covn) /\
  mn <> 0 /\ 0 <= covn 1%nat 1%nat /\
  ~ propagates 2 (fun y => y 1%nat / y 0%nat) (vec [mn; 1]) (independent [sqrt (covn 1%nat 1%nat); 0]) (o_rfit_err out 0%nat 0%nat).
Proof. exact rfit_err_wrong. Qed.
Print Assumptions C42_rfit_err_refuted.

(** The example data can be analysed, with and without the superconducting fit. *)
Example C42_ex : (exists out, ex_call wls_fitter true = Ok out) /\ (exists out, ex_call wls_fitter false = Ok out).
Proof. split; apply ex_ok, wls_fitter_total. Qed.

(** ** C43: given offsets *)

(** All the preconditions of a successful call of [analyze] *)
Definition good_call (cf : fitter) (d de ib ibe : nd) (ninds : list nat) (rp rpe : rarg) (nn : nat)
  (fitsc : bool) (scinds : option (list nat)) (nt nc ni : nat) : Prop :=
  has_dims d nt nc ni /\ size de = (nt * nc * ni)%nat /\ size ib = (nt * nc * ni)%nat /\ size ibe = (nt * nc * ni)%nat /\
  nn = nc /\ total_fitter cf /\ enough_bpoints nt nc ni d de ib ninds /\
  (fitsc = true -> exists l, scinds = Some l /\ enough_bpoints nt nc ni d de ib l) /\
  documented_form nt nc ni rp /\ same_form rp rpe.

Theorem C43_floats_refuted : forall cf d de ib ibe rsh rshe ninds rp rpe nn fitsc scinds nt nc ni yo yoe xo xoe,
  good_call cf d de ib ibe ninds rp rpe nn fitsc scinds nt nc ni ->
  (fitsc = true \/ ~ full_array nt nc ni rp) ->
  (exists v, yo = OFloat v) \/ (exists v, xo = OFloat v) ->
  (yo = ONone \/ exists v, yo = OFloat v) -> (xo = ONone \/ exists v, xo = OFloat v) ->
  ibis_call cf d de ib ibe rsh rshe ninds rp rpe nn fitsc scinds yo yoe xo xoe = Err TypeError.
Proof.
  intros cf d de ib ibe rsh rshe ninds rp rpe nn fitsc scinds nt nc ni yo yoe xo xoe [H1 [H2 [H3 [H4 [H5 [H6 [H7 [H8 [H9 H10]]]]]]]]].
  intros Hfull. exact (proj1 (proj2 (ibis_run cf d de ib ibe rsh rshe ninds rp rpe nn fitsc scinds nt nc ni H1 H2 H3 H4 H5 H6 H7 H8 H9 H10 yo yoe xo xoe) Hfull)).
Qed.
Print Assumptions C43_floats_refuted.

(** Arrays over temperature, channel and bias point are used as given. *)
Theorem C43_arrays_partial : forall cf d de ib ibe rsh rshe ninds rp rpe nn fitsc scinds fy gy fx gx nt nc ni,
  good_call cf d de ib ibe ninds rp rpe nn fitsc scinds nt nc ni -> fitsc = true \/ ~ full_array nt nc ni rp /\ ~ lost_axes d rp ->
  exists out, ibis_call cf d de ib ibe rsh rshe ninds rp rpe nn fitsc scinds (OArr fy) (OArr gy) (OArr fx) (OArr gx) = Ok out /\
  forall t c, (t < nt)%nat -> (c < nc)%nat ->
    o_ioff out t c = fy t c 0%nat /\ o_ioff_err out t c = gy t c 0%nat /\
    o_ibias_off out t c = fx t c 0%nat /\ o_ibias_off_err out t c = gx t c 0%nat /\
    forall i, (i < ni)%nat -> o_ites out t c i = entry nc ni d t c i - fy t c i /\
      o_ibias_true out t c i = entry nc ni ib t c i - fx t c i.
Proof.
  intros cf d de ib ibe rsh rshe ninds rp rpe nn fitsc scinds fy gy fx gx nt nc ni [H1 [H2 [H3 [H4 [H5 [H6 [H7 [H8 [H9 H10]]]]]]]]] Hfull.
  destruct (proj2 (ibis_run cf d de ib ibe rsh rshe ninds rp rpe nn fitsc scinds nt nc ni H1 H2 H3 H4 H5 H6 H7 H8 H9 H10 (OArr fy) (OArr gy) (OArr fx) (OArr gx)) ltac:(tauto)) as [_ R].
  destruct (proj2 (R ltac:(right; eauto) ltac:(right; eauto)) ltac:(tauto)) as [out E].
  exists out. split; [exact E|]. exact (ibis_array_offsets _ _ _ _ _ _ _ _ _ _ _ _ _ _ _ _ _ _ _ _ _ E H1).
Qed.
Print Assumptions C43_arrays_partial.

Lemma ex_good cf fitsc : total_fitter cf -> good_call cf ex_d ex_e ex_ib ex_z [1; 2]%nat (RScalar 0) (RScalar 0) 1 fitsc (Some [0; 3]%nat) 1 1 4.
Proof.
  intros Hf. split; [exact ex_dims|]. repeat (split; [reflexivity|]). split; [exact Hf|].
  split; [apply ex_enough; [simpl; lia|intros i [<-|[<-|[]]]; lia]|].
  split; [|split; exact I]. intros _. exists [0; 3]%nat. split; [reflexivity|].
  apply ex_enough; [simpl; lia|intros i [<-|[<-|[]]]; lia].
Qed.

Example C43_ex :
  ibis_call wls_fitter ex_d ex_e ex_ib ex_z 1 0 [1; 2]%nat (RScalar 0) (RScalar 0) 1 true (Some [0; 3]%nat) (OFloat 1) (OFloat 0) (OFloat 0) (OFloat 0)
    = Err TypeError /\
  exists out, ibis_call wls_fitter ex_d ex_e ex_ib ex_z 1 0 [1; 2]%nat (RScalar 0) (RScalar 0) 1 true (Some [0; 3]%nat)
     (OArr (fun _ _ _ => 1)) (OArr (fun _ _ _ => 0)) (OArr (fun _ _ _ => 0)) (OArr (fun _ _ _ => 0)) = Ok out /\ o_ites out 0%nat 0%nat 1%nat = 1.
Proof.
  split.
  - apply (C43_floats_refuted _ _ _ _ _ _ _ _ _ _ _ _ _ 1 1 4); [apply ex_good, wls_fitter_total|left; reflexivity|left; eauto|right; eauto|right; eauto].
  - destruct (C43_arrays_partial wls_fitter ex_d ex_e ex_ib ex_z 1 0 [1; 2]%nat (RScalar 0) (RScalar 0) 1 true (Some [0; 3]%nat)
      (fun _ _ _ => 1) (fun _ _ _ => 0) (fun _ _ _ => 0) (fun _ _ _ => 0) 1 1 4) as [out [E H]]; [apply ex_good, wls_fitter_total|left; reflexivity|].
    exists out. split; [exact E|]. destruct (H 0%nat 0%nat ltac:(lia) ltac:(lia)) as [_ [_ [_ [_ K]]]].
    rewrite (proj1 (K 1%nat ltac:(lia))). unfold ex_d. rewrite entry_array. simpl. lra.
Qed.

(** ** C77: recovery of a noise-free IBIS sweep *)
Theorem C77_ibis_exact : forall cf d de ib ibe rsh rshe ninds rpg rpge nn scinds yoe xoe out nt nc ni,
  (forall pts p, cf pts = Ok p -> best_line pts (fb p) (fm p)) ->
  ibis_call cf d de ib ibe rsh rshe ninds rpg rpge nn true (Some scinds) ONone yoe ONone xoe = Ok out -> has_dims d nt nc ni ->
  forall t c ioff iboff rn rp, (t < nt)%nat -> (c < nc)%nat -> rsh <> 0 -> rsh + rp <> 0 -> rsh + rp + rn <> 0 -> rn <> 0 ->
    (forall i, (i < ni)%nat -> entry nc ni de t c i <> 0) ->
    (* current divider: the bias current splits between shunt and sensor *)
    (forall i, In i ninds -> entry nc ni d t c i - ioff = (entry nc ni ib t c i - iboff) * rsh / (rsh + rp + rn)) ->
    (forall i, In i scinds -> entry nc ni d t c i - ioff = (entry nc ni ib t c i - iboff) * rsh / (rsh + rp)) ->
    (exists i j, In i ninds /\ In j ninds /\ entry nc ni ib t c i <> entry nc ni ib t c j) ->
    (exists i j, In i scinds /\ In j scinds /\ entry nc ni ib t c i <> entry nc ni ib t c j) ->
    o_ioff out t c = ioff /\ o_ibias_off out t c = iboff /\ o_rp out t c = rp /\ o_rnorm out t c = rn /\
    forall i R, (i < ni)%nat -> rsh + rp + R <> 0 -> entry nc ni ib t c i <> iboff ->
      entry nc ni d t c i - ioff = (entry nc ni ib t c i - iboff) * rsh / (rsh + rp + R) ->
      o_r0 out t c i = R /\ o_ptes out t c i = (entry nc ni d t c i - ioff) ^ 2 * R.
Proof. exact ibis_exact. Qed.
Print Assumptions C77_ibis_exact.

(** Shunt 1, parasitic 1, normal resistance 2, no offsets: bias 4, 8 normal with currents 1, 2;
    bias 2, 4 superconducting with currents 1, 2. *)
Definition ex7_d := array [1; 1; 4]%nat [1; 2; 1; 2].
Definition ex7_b := array [1; 1; 4]%nat [4; 8; 2; 4].
Example C77_ex : exists out,
  ibis_call wls_fitter ex7_d ex_e ex7_b ex_z 1 0 [0; 1]%nat (RScalar 0) (RScalar 0) 1 true (Some [2; 3]%nat) ONone ONone ONone ONone = Ok out /\
  o_rp out 0%nat 0%nat = 1 /\ o_rnorm out 0%nat 0%nat = 2 /\ o_r0 out 0%nat 0%nat 1%nat = 2 /\ o_ptes out 0%nat 0%nat 1%nat = 8.
Proof.
  assert (Hd : has_dims ex7_d 1 1 4) by now left.
  assert (He : forall a b, (a < 4)%nat -> (b < 4)%nat -> enough_bpoints 1 1 4 ex7_d ex_e ex7_b [a; b]).
  { intros a b Ha Hb. split; [simpl; lia|]. intros t c i _ _ [<-|[<-|[]]]; repeat split; assumption. }
  destruct (proj2 (ibis_run wls_fitter ex7_d ex_e ex7_b ex_z 1 0 [0; 1]%nat (RScalar 0) (RScalar 0) 1%nat true (Some [2; 3]%nat) 1%nat 1%nat 4%nat
     Hd eq_refl eq_refl eq_refl eq_refl wls_fitter_total (He 0%nat 1%nat ltac:(lia) ltac:(lia))
     (fun _ => ex_intro _ _ (conj eq_refl (He 2%nat 3%nat ltac:(lia) ltac:(lia)))) I I ONone ONone ONone ONone) (or_introl eq_refl)) as [_ R].
  destruct (proj2 (R (or_introl eq_refl) (or_introl eq_refl)) (or_introl eq_refl)) as [out E].
  exists out. split; [exact E|].
  destruct (C77_ibis_exact _ _ _ _ _ _ _ _ _ _ _ _ _ _ _ _ _ _ wls_fitter_best E Hd 0%nat 0%nat 0 0 2 1 ltac:(lia) ltac:(lia)) as [_ [_ [H3 [H4 H5]]]]; try lra.
  - intros i Hi. unfold ex_e. rewrite entry_array. do 4 (destruct i as [|i]; [simpl; lra|]). lia.
  - intros i [<-|[<-|[]]]; unfold ex7_d, ex7_b; rewrite !entry_array; simpl; lra.
  - intros i [<-|[<-|[]]]; unfold ex7_d, ex7_b; rewrite !entry_array; simpl; lra.
  - exists 0%nat, 1%nat. unfold ex7_b. rewrite !entry_array. simpl. split; [tauto|]. split; [tauto|lra].
  - exists 2%nat, 3%nat. unfold ex7_b. rewrite !entry_array. simpl. split; [tauto|]. split; [tauto|lra].
  - split; [exact H3|]. split; [exact H4|]. destruct (H5 1%nat 2 ltac:(lia)) as [-> ->];
      unfold ex7_d, ex7_b; rewrite ?entry_array; simpl; try lra.
Qed.

(** ** C78: analyze without the superconducting fit *)

(** It works for every documented form of the parasitic resistance except a full 3-d array and
    except a scalar with data of fewer than three axes. *)
Theorem C78_no_sc_partial : forall cf d de ib ibe rsh rshe ninds rp rpe nn scinds nt nc ni yoe xoe,
  good_call cf d de ib ibe ninds rp rpe nn false scinds nt nc ni ->
  ~ full_array nt nc ni rp -> ~ lost_axes d rp ->
  exists out, ibis_call cf d de ib ibe rsh rshe ninds rp rpe nn false scinds ONone yoe ONone xoe = Ok out.
Proof.
  intros cf d de ib ibe rsh rshe ninds rp rpe nn scinds nt nc ni yoe xoe [H1 [H2 [H3 [H4 [H5 [H6 [H7 [H8 [H9 H10]]]]]]]]] Hfull Hl.
  destruct (proj2 (ibis_run cf d de ib ibe rsh rshe ninds rp rpe nn false scinds nt nc ni H1 H2 H3 H4 H5 H6 H7 H8 H9 H10 ONone yoe ONone xoe) ltac:(tauto)) as [_ R].
  exact (proj2 (R (or_introl eq_refl) (or_introl eq_refl)) (or_intror Hl)).
Qed.
Print Assumptions C78_no_sc_partial.

Theorem C78_no_sc_refuted : forall cf d de ib ibe rsh rshe ninds rp rpe nn scinds nt nc ni yoe xoe,
  good_call cf d de ib ibe ninds rp rpe nn false scinds nt nc ni ->
  (full_array nt nc ni rp ->
     ibis_call cf d de ib ibe rsh rshe ninds rp rpe nn false scinds ONone yoe ONone xoe = Err AttributeError) /\
  (lost_axes d rp ->
     ibis_call cf d de ib ibe rsh rshe ninds rp rpe nn false scinds ONone yoe ONone xoe = Err IndexError).
Proof.
  intros cf d de ib ibe rsh rshe ninds rp rpe nn scinds nt nc ni yoe xoe [H1 [H2 [H3 [H4 [H5 [H6 [H7 [H8 [H9 H10]]]]]]]]].
  destruct (ibis_run cf d de ib ibe rsh rshe ninds rp rpe nn false scinds nt nc ni H1 H2 H3 H4 H5 H6 H7 H8 H9 H10 ONone yoe ONone xoe) as [A B].
  split; [exact (A eq_refl)|]. intros Hl. destruct (B ltac:(right; destruct rp; [intros []|destruct Hl])) as [_ R].
  exact (proj1 (R (or_introl eq_refl) (or_introl eq_refl)) eq_refl Hl).
Qed.
Print Assumptions C78_no_sc_refuted.

(** The same four points as a 1-d array and as a 3-d array *)
Example C78_ex :
  ibis_call wls_fitter (array (4%nat :: nil) [1; 2; 3; 4]) ex_e ex_ib ex_z 1 0 [1; 2]%nat (RScalar 0) (RScalar 0) 1 false None ONone ONone ONone ONone
    = Err IndexError /\
  exists out, ibis_call wls_fitter ex_d ex_e ex_ib ex_z 1 0 [1; 2]%nat (RScalar 0) (RScalar 0) 1 false None ONone ONone ONone ONone = Ok out.
Proof.
  split.
  - refine (proj2 (C78_no_sc_refuted _ _ _ _ _ _ _ _ _ _ _ _ 1 1 4 _ _ _) _); [|cbn; lia].
    split; [right; right; repeat split|]. repeat (split; [reflexivity|]). split; [apply wls_fitter_total|].
    split; [|split; [discriminate|split; exact I]].
    split; [simpl; lia|]. intros t c i _ _ [<-|[<-|[]]]; repeat split; lia.
  - apply (C78_no_sc_partial _ _ _ _ _ _ _ _ _ _ _ _ 1 1 4); [|intros []|cbn; lia].
    destruct (ex_good wls_fitter true wls_fitter_total) as [H1 [H2 [H3 [H4 [H5 [H6 [H7 [_ H9]]]]]]]].
    repeat (split; [assumption|]). split; [discriminate|exact H9].
Qed.

(** ** C79: offset uncertainties without the superconducting fit *)

(** The reported current offset is the normal intercept, but a known uncertainty of 1 of this
    intercept gives an uncertainty 0, and the bias offset, 0 by definition, gets an uncertainty of 1. *)
Theorem C79_no_sc_errors_refuted : exists cf out bn mn covn,
  total_fitter cf /\ ex_call cf false = Ok out /\
  cf (points (entry 1 4 ex_ib 0 0) (entry 1 4 ex_d 0 0) (entry 1 4 ex_e 0 0) [1; 2]%nat) = Ok (mkFit bn mn covn) /\
  o_ioff out 0%nat 0%nat = bn /\ sqrt (covn 0%nat 0%nat) = 1 /\ o_ioff_err out 0%nat 0%nat = 0 /\
  o_ibias_off out 0%nat 0%nat = 0 /\ o_ibias_off_err out 0%nat 0%nat = 1.
Proof. exact no_sc_ioff_err_wrong. Qed.
Print Assumptions C79_no_sc_errors_refuted.

(** ** C80: Kirchhoff and Joule *)
Theorem C80_circuit : forall cf d de ib ibe rsh rshe ninds rp rpe nn fitsc scinds yo yoe xo xoe out nt nc ni,
  ibis_call cf d de ib ibe rsh rshe ninds rp rpe nn fitsc scinds yo yoe xo xoe = Ok out -> has_dims d nt nc ni ->
  (yo = ONone) -> (xo = ONone) ->
  forall t c i, (t < nt)%nat -> (c < nc)%nat -> (i < ni)%nat ->
    let I := o_ites out t c i in let IB := o_ibias_true out t c i in
    I = entry nc ni d t c i - o_ioff out t c /\
    IB = entry nc ni ib t c i - o_ibias_off out t c /\
    o_vb out t c i = IB * rsh /\
    (I <> 0 -> (IB - I) * rsh = I * (o_rp out t c + o_r0 out t c i) /\
               o_ptes out t c i = I ^ 2 * o_r0 out t c i) /\
    o_rnorm out t c + rsh + o_rp out t c = o_rfit out t c.
Proof. exact ibis_circuit. Qed.
Print Assumptions C80_circuit.

Example C80_ex : exists out, ex_call wls_fitter true = Ok out /\ has_dims ex_d 1 1 4.
Proof. destruct (ex_ok wls_fitter true wls_fitter_total) as [out E]. exists out. split; [exact E|exact ex_dims]. Qed.
