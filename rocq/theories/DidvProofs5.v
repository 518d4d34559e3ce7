(** * Proofs: start of the fits, objects built from processed data, DIDVPriors *)
From Coq Require Import Reals Lra Lia.
From Coquelicot Require Import Complex.
From Verif Require Import Base Dft ListLemmas UtilsModel DidvModel DidvSpec DidvProofs1 DidvProofs2 DidvProofs3 DidvProofs4.
Local Open Scope R_scope.

(** The scipy call of dofit. *)
Lemma convert_ok popt poles rsh r0 rp : (1 <= poles <= 3)%nat -> length popt = (2 * poles + 1)%nat ->
  exists ss y, converttotesvalues popt rsh r0 rp = Ok ss /\ complexadmittance 0 (ss_args ss) = Ok y.
Proof.
  intros Hp Hl. destruct poles as [|[|[|[|poles]]]]; try lia; cbn in Hl.
  - destruct popt as [|A [|t [|dt [|? ?]]]]; try discriminate Hl. cbn [converttotesvalues]. do 2 eexists. split; [reflexivity|].
    cbn [ss_args]. unfold complexadmittance. rewrite impedance_selects. reflexivity.
  - destruct popt as [|A [|B [|t [|t2 [|dt [|? ?]]]]]]; try discriminate Hl. cbn [converttotesvalues]. cbv zeta. do 2 eexists. split; [reflexivity|].
    cbn [ss_args]. unfold complexadmittance. rewrite impedance_selects. reflexivity.
  - destruct popt as [|A [|B [|C' [|t [|t2 [|t3 [|dt [|? ?]]]]]]]]; try discriminate Hl. cbn [converttotesvalues]. cbv zeta. do 2 eexists. split; [reflexivity|].
    cbn [ss_args]. unfold complexadmittance. rewrite impedance_selects. reflexivity.
Qed.
Lemma core_outcome fit fs poles fc o p d A0 B0 C0 t1 t2 t3 dt sub : (1 <= poles <= 3)%nat ->
  dproc o = Some p -> p_data p = Some d -> dofit_start o p d poles = (A0, B0, C0, t1, t2, t3, dt, sub) ->
  fit_outcome poles o (dofit fit fs poles fc o) (fitdidv fit (fit_bins p d fc) A0 B0 C0 t1 t2 t3 dt poles sub).
Proof.
  intros Hp Hd Hdd Hs. unfold dofit. rewrite Hd. unfold dofit_core.
  replace ((poles =? 1) || (poles =? 2) || (poles =? 3))%nat with true by (destruct poles as [|[|[|[|poles]]]]; try lia; reflexivity).
  rewrite Hd, Hdd, Hs. cbv zeta. destruct (fitdidv _ _ _ _ _ _ _ _ _ _ _) as [[[po pc] co]|e]; cbn [fit_outcome]; [|reflexivity].
  intros Hl. destruct (convert_ok po poles (drsh o) (dr0 o) (drp o) Hp Hl) as (ss & y & E1 & E2).
  unfold fitresult_of. rewrite E1. cbn [bind]. rewrite E2. cbn [bind fst snd]. split; [reflexivity|].
  eexists. rewrite fitresult_set_res, Nat.eqb_refl by exact Hp. split; [reflexivity|]. repeat split.
Qed.

Lemma start_one fit fs o p d fc :
  dproc o = Some p -> p_data p = Some d -> errors_nonzero (fit_bins p d fc) ->
  0 < dsgamp o * drsh o -> minl (d_tmean d) < maxl (d_tmean d) -> ddt0 o <> 0 ->
  let p0 := [dsgamp o * drsh o / (maxl (d_tmean d) - minl (d_tmean d)); 1 / 10 ^ 6; ddt0 o] in
  admissible p0 (all_nonnegative 3) (map Rabs p0) /\
  fit_outcome 1 o (dofit fit fs 1 fc o) (fit (didv_residual (fit_bins p d fc)) p0 (all_nonnegative 3) (map Rabs p0)).
Proof.
  intros Hp Hd He Ha Hm Hdt p0.
  assert (P6 : 0 < 10 ^ 6) by (apply pow_lt; lra).
  destruct (fitdidv_one fit (fit_bins p d fc) (dsgamp o * drsh o / (maxl (d_tmean d) - minl (d_tmean d))) 0 0 0 (1 / 10 ^ 6) 0 (ddt0 o) He) as [A E].
  - apply Rdiv_lt_0_compat; lra.
  - apply Rdiv_lt_0_compat; lra.
  - exact Hdt.
  - split; [exact A|]. fold p0 in E. change (bounds1 1) with (all_nonnegative 3) in E. rewrite <- E.
    apply (core_outcome fit fs 1 fc o p d); [lia|assumption|assumption|reflexivity].
Qed.

(** The guessed values written out. *)
Lemma guess_value tr fl sgamp rsh dt0 : 0 < sgamp * rsh -> lmean fl < maxl tr -> lmean fl <> lmean tr ->
  exists sub : bool, (sub = true <-> lmean fl < lmean tr) /\
  match guess_sizes (sgamp * rsh) (maxl tr) (lmean tr) (lmean fl) dt0 with
  | (A, B, t1, t2, dt) => guessdidvparams tr fl sgamp rsh (1 / 10 ^ 7) = (A, - B, - t1, t2, sub) /\ dt = dt0
  end.
Proof.
  intros Ha Hm Hne. unfold guessdidvparams, guess_sizes. cbv zeta.
  set (a := sgamp * rsh) in *. set (mx := maxl tr) in *. set (m := lmean tr) in *. set (f := lmean fl) in *.
  assert (EA : 1 / ((mx - f) / a) = a / (mx - f)) by (field; lra). rewrite EA.
  unfold Rltb at 1. destruct (Rlt_dec f m) as [L|L].
  - exists true. split; [split; trivial|]. split; [|reflexivity]. rewrite (Rabs_left (f - m)) by lra.
    assert (E1 : 1 / (2 * - (f - m) / a) = a / (2 * (m - f))) by (field; lra). rewrite E1.
    assert (E2 : (if Rltb 0 (a / (2 * (m - f)) - a / (mx - f)) then - (a / (2 * (m - f)) - a / (mx - f)) else a / (2 * (m - f)) - a / (mx - f))
              = - Rabs (a / (2 * (m - f)) - a / (mx - f))).
    { unfold Rltb. destruct (Rlt_dec 0 _); [now rewrite Rabs_right by lra|]. rewrite Rabs_left1 by lra. ring. }
    rewrite E2. replace (100 / 10 ^ 6) with (1 / 10 ^ 4) by field. reflexivity.
  - exists false. split; [split; [discriminate|lra]|]. split; [|reflexivity]. rewrite (Rabs_right (f - m)) by lra.
    assert (E1 : - (1) / (2 * (f - m) / a) - a / (mx - f) = - (a / (2 * (f - m)) + a / (mx - f))) by (field; lra). rewrite E1.
    replace (100 / 10 ^ 7) with (1 / 10 ^ 5) by field. reflexivity.
Qed.
Lemma sizes_pos a mx m f dt0 : 0 < a -> f < mx -> f <> m -> (f < m -> mx - f <> 2 * (m - f)) ->
  match guess_sizes a mx m f dt0 with (A, B, t1, t2, dt) => 0 < A /\ 0 < B /\ 0 < t1 /\ 0 < t2 /\ dt = dt0 end.
Proof.
  intros Ha Hm Hne Hd. unfold guess_sizes. cbv zeta.
  assert (HA : 0 < a / (mx - f)) by (apply Rdiv_lt_0_compat; lra).
  assert (P : forall n, 0 < 1 / 10 ^ n) by (intros n; apply Rdiv_lt_0_compat; [lra|apply pow_lt; lra]).
  assert (HT : 0 < 1 / 10 ^ 7 / (a / (mx - f))) by (apply Rdiv_lt_0_compat; auto).
  destruct (Rlt_dec f m) as [L|L]; repeat split; auto.
  - apply Rabs_pos_lt. intros E. apply (Hd L).
    assert (E3 : a / (2 * (m - f)) = a / (mx - f)) by lra.
    assert (X : a * (mx - f) = a * (2 * (m - f))).
    { transitivity (a / (2 * (m - f)) * (2 * (m - f)) * (mx - f)); [field; lra|]. rewrite E3. field. lra. }
    apply Rmult_eq_reg_l in X; lra.
  - assert (0 < a / (2 * (f - m))) by (apply Rdiv_lt_0_compat; lra). lra.
Qed.

Lemma start_two fit fs o p d fc :
  dproc o = Some p -> p_data p = Some d -> errors_nonzero (fit_bins p d fc) ->
  0 < dsgamp o * drsh o -> ddt0 o <> 0 ->
  let mx := maxl (d_tmean d) in let m := lmean (d_tmean d) in let f := lmean (flat_values p d) in
  f < mx -> f <> m -> (f < m -> mx - f <> 2 * (m - f)) ->
  match guess_sizes (dsgamp o * drsh o) mx m f (ddt0 o) with (A, B, t1, t2, dt) =>
    let p0 := if Rlt_dec f m then [A; B; t1; t2; dt] else [A; - B; - t1; t2; dt] in
    let b := if Rlt_dec f m then all_nonnegative 5
             else [(Some 0, None); (None, Some 0); (None, Some 0); (Some 0, None); (None, None)] in
    admissible p0 b (map Rabs p0) /\
    fit_outcome 2 o (dofit fit fs 2 fc o) (fit (didv_residual (fit_bins p d fc)) p0 b (map Rabs p0))
  end.
Proof.
  intros Hp Hd He Ha Hdt mx m f H1 H2 H3.
  assert (G := guess_value (d_tmean d) (flat_values p d) (dsgamp o) (drsh o) (ddt0 o) Ha H1 H2). fold mx m f in G.
  assert (Sz := sizes_pos (dsgamp o * drsh o) mx m f (ddt0 o) Ha H1 H2 H3).
  destruct (guess_sizes (dsgamp o * drsh o) mx m f (ddt0 o)) as [[[[A B] t1] t2] dt]. destruct G as (sub & Hs & G & Ed).
  destruct Sz as (S1 & S2 & S3 & S4 & _). subst dt.
  assert (E := core_outcome fit fs 2 fc o p d A (- B) 0 (- t1) t2 0 (ddt0 o) sub ltac:(lia) Hp Hd).
  unfold dofit_start in E. fold (flat_values p d) in E. rewrite G in E. specialize (E eq_refl).
  destruct (fitdidv_two fit (fit_bins p d fc) A (- B) 0 (- t1) t2 0 (ddt0 o) sub He S1 ltac:(lra) ltac:(lra) S4 Hdt) as [Ad F].
  cbv zeta. rewrite F in E. rewrite !Ropp_involutive in E, Ad.
  destruct (Rlt_dec f m) as [L|L]; destruct sub; try (exfalso; intuition congruence); split; assumption.
Qed.
Lemma start_three fit fs o p d fc :
  dproc o = Some p -> p_data p = Some d -> errors_nonzero (fit_bins p d fc) ->
  0 < dsgamp o * drsh o ->
  let mx := maxl (d_tmean d) in let m := lmean (d_tmean d) in let f := lmean (flat_values p d) in
  f < mx -> f <> m ->
  match guess_sizes3 o (dsgamp o * drsh o) mx m f with (A, B, t1, t2, dt) =>
    0 < A -> 0 < B -> 0 < t1 -> 0 < t2 -> dt <> 0 ->
    let p0 := if Rlt_dec f m then [A; B; 5 / 100; t1; t2; 1 / 10 ^ 3; dt] else [A; - B; - (5 / 100); - t1; t2; 1 / 10 ^ 3; dt] in
    let b := if Rlt_dec f m then all_nonnegative 7
             else [(Some 0, None); (None, Some 0); (None, Some 0); (None, Some 0); (Some 0, None); (Some 0, None); (None, None)] in
    admissible p0 b (map Rabs p0) /\
    fit_outcome 3 o (dofit fit fs 3 fc o) (fit (didv_residual (fit_bins p d fc)) p0 b (map Rabs p0))
  end.
Proof.
  intros Hp Hd He Ha mx m f H1 H2.
  assert (G := guess_value (d_tmean d) (flat_values p d) (dsgamp o) (drsh o) (ddt0 o) Ha H1 H2). fold mx m f in G.
  unfold guess_sizes3.
  assert (P3 : 0 < 1 / 10 ^ 3) by (apply Rdiv_lt_0_compat; [lra|apply pow_lt; lra]).
  assert (K : forall A B t1 t2 dt sub, (sub = true <-> f < m) ->
     dofit_start o p d 3 = (A, - B, - (5 / 100), - t1, t2, 1 / 10 ^ 3, dt, sub) ->
     0 < A -> 0 < B -> 0 < t1 -> 0 < t2 -> dt <> 0 ->
    let p0 := if Rlt_dec f m then [A; B; 5 / 100; t1; t2; 1 / 10 ^ 3; dt] else [A; - B; - (5 / 100); - t1; t2; 1 / 10 ^ 3; dt] in
    let b := if Rlt_dec f m then all_nonnegative 7
             else [(Some 0, None); (None, Some 0); (None, Some 0); (None, Some 0); (Some 0, None); (Some 0, None); (None, None)] in
    admissible p0 b (map Rabs p0) /\
    fit_outcome 3 o (dofit fit fs 3 fc o) (fit (didv_residual (fit_bins p d fc)) p0 b (map Rabs p0))).
  { intros A B t1 t2 dt sub Hs Es S1 S2 S3 S4 Hdt.
    assert (E := core_outcome fit fs 3 fc o p d _ _ _ _ _ _ _ _ ltac:(lia) Hp Hd Es).
    destruct (fitdidv_three fit (fit_bins p d fc) A (- B) (- (5 / 100)) (- t1) t2 (1 / 10 ^ 3) dt sub He S1 ltac:(lra) ltac:(lra) ltac:(lra) S4 P3 Hdt) as [Ad F].
    cbv zeta. rewrite F in E. rewrite !Ropp_involutive in E, Ad.
    destruct (Rlt_dec f m) as [L|L]; destruct sub; try (exfalso; intuition congruence); split; assumption. }
  destruct (guess_sizes (dsgamp o * drsh o) mx m f (ddt0 o)) as [[[[A B] t1] t2] dt] eqn:Eg. destruct G as (sub & Hs & G & Ed).
  unfold dofit_start in K. fold (flat_values p d) in K. rewrite G in K. cbv zeta in K.
  destruct (dres2 o) as [r|] eqn:Er.
  - cbv zeta. apply (K _ _ _ _ _ sub Hs). reflexivity.
  - intros S1 S2 S3 S4 S5. cbv zeta. apply (K A B t1 t2 dt sub Hs); try assumption.
    rewrite Rabs_Ropp, Rabs_Ropp, (Rabs_right B), (Rabs_right t1) by lra. now rewrite Ed.
Qed.

(** A vanishing error in the used bins. *)
Lemma zero_error_rejected fit fs fc o p d poles :
  (1 <= poles <= 3)%nat -> dproc o = Some p -> p_data p = Some d -> ~ errors_nonzero (fit_bins p d fc) ->
  dofit fit fs poles fc o = (o, Err ValueError).
Proof.
  intros Hp Hd Hdd Hn.
  destruct (dofit_start o p d poles) as [[[[[[[A0 B0] C0] t1] t2] t3] dt] sub] eqn:E.
  assert (X := core_outcome fit fs poles fc o p d _ _ _ _ _ _ _ _ Hp Hd Hdd E).
  unfold fitdidv in X. destruct (finite_weights _) eqn:Ew; [apply finite_weights_iff in Ew; contradiction|exact X].
Qed.

Lemma dt0_zero_rejected fit fs fc o p d poles :
  (1 <= poles <= 3)%nat -> dproc o = Some p -> p_data p = Some d -> dres2 o = None -> ddt0 o = 0 ->
  dofit fit fs poles fc o = (o, Err ValueError).
Proof.
  intros Hp Hd Hdd Hr H0. unfold dofit. rewrite Hd. unfold dofit_core.
  replace ((poles =? 1) || (poles =? 2) || (poles =? 3))%nat with true by (destruct poles as [|[|[|[|poles]]]]; try lia; reflexivity).
  rewrite Hd, Hdd. cbv zeta.
  destruct (dofit_start o p d poles) as [[[[[[[A0 B0] C0] t1] t2] t3] dt] sub] eqn:E.
  assert (Edt : dt = 0).
  { unfold dofit_start in E. destruct (guessdidvparams _ _ _ _ _) as [[[[gA gB] g1] g2] gs]. rewrite Hr in E.
    destruct poles as [|[|[|[|poles]]]]; try lia; unfold squarewaveguessparams in E; cbv zeta in E; congruence. }
  rewrite Edt.
  assert (F : fitdidv fit (fit_bins p d fc) A0 B0 C0 t1 t2 t3 0 poles sub = Err ValueError).
  { unfold fitdidv.
    assert (I : In 0 (map Rabs (start1 poles A0 B0 C0 t1 t2 t3 0))).
    { apply in_map_iff. exists 0. split; [apply Rabs_R0|].
      destruct poles as [|[|[|poles]]]; cbn; tauto. }
    destruct (finite_weights _); [|reflexivity]. cbn [negb].
    destruct sub; apply (rejected_scale _ _ _ _ _ 0); try assumption; lra. }
  now rewrite F.
Qed.

(** ** didvinitfromdata *)
Lemma flat_eq_periods o q m : (0 < q)%nat -> 0 < dsgfreq o -> dfs o / dsgfreq o = INR q ->
  Int_part (INR (q * m) * dsgfreq o / dfs o) = Z.of_nat m.
Proof.
  intros Hq Hs Hf. assert (E := fs_eq o q Hs Hf). assert (0 < INR q) by (apply lt_0_INR; assumption).
  replace (INR (q * m) * dsgfreq o / dfs o) with (IZR (Z.of_nat m)); [apply Int_part_IZR|].
  rewrite <- INR_IZR_INZ, mult_INR, E. field. lra.
Qed.
Lemma process_parts o q dt0 p : (0 < q)%nat -> 0 < dsgfreq o -> dfs o / dsgfreq o = INR q ->
  process o dt0 = Ok p ->
  let n := (q * (length (nth 0 (raw o) []) / q))%nat in
  flat_indices (dfs o / dsgfreq o) dt0 (dfs o) (length (nth 0 (raw o) []) / q) n = Ok (p_flat p)
  /\ p_freq p = mk n (fftfreq n (dfs o)).
Proof.
  intros Hq Hs Hf. unfold process. destruct (raw o) as [|r rs] eqn:E; [discriminate|].
  cbn [nth]. cbv zeta. rewrite (nperiods_eq o q Hq Hs Hf), (indmax_eq o q Hq Hf).
  destruct (_ <? _)%nat eqn:E0; [discriminate|].
  rewrite Nat2Z.id.
  destruct (flat_indices _ _ _ _ _) as [l|e] eqn:El; [|discriminate]. cbn [bind].
  destruct (Nat.ltb_spec (q * (length r / q)) 2); [discriminate|]. intros H1.
  assert (F1 := f_equal (fun r => match r with Ok p => p_flat p | Err _ => [] end) H1). cbn [p_flat] in F1.
  assert (F2 := f_equal (fun r => match r with Ok p => p_freq p | Err _ => [] end) H1). cbn [p_freq] in F2.
  rewrite <- F1, <- F2. split; [reflexivity|].
  apply mk_ext. intros k Hk. unfold didvfreq. rewrite !mk_nth by lia. f_equal.
  assert (Hp := fs_pos o q Hq Hs Hf). cbn [INR]. field. lra.
Qed.

Lemma from_data_fits fit fs poles fc o o' q p d o2 :
  (0 < q)%nat -> 0 < dsgfreq o -> dfs o / dsgfreq o = INR q ->
  dadd180 o = false -> dres2 o = None ->
  processtraces o = (o', Ok tt) -> dproc o' = Some p -> p_data p = Some d ->
  didvinitfromdata (d_tmean d) (d_mean d) (d_std d) (d_offset d) (d_offset_err d) (dfs o) (dsgfreq o) (dsgamp o) (drsh o) (dr0 o) (drp o)
    false (ddt0 o) = Ok o2 ->
  snd (dofit fit fs poles fc o2) = snd (dofit fit fs poles fc o')
  /\ (snd (dofit fit fs poles fc o') = Ok tt -> fitresult poles (fst (dofit fit fs poles fc o2)) = fitresult poles (fst (dofit fit fs poles fc o'))).
Proof.
  intros Hq Hs Hf Ha Hr Hp Dp Dd Hi.
  assert (X : process o (ddt0 o) = Ok p /\ o' = set_proc o (ddt0 o) (Some p)).
  { unfold processtraces, shifted_dt0 in Hp. rewrite Ha in Hp. destruct (raw o); [discriminate|].
    destruct (process o (ddt0 o)) as [p1|e]; [|discriminate].
    assert (E1 := f_equal fst Hp). cbn [fst] in E1. rewrite <- E1 in Dp |- *. cbn in Dp.
    assert (p1 = p) by congruence. subst. split; reflexivity. }
  destruct X as [Pr Eo].
  destruct (process_length o q Hq Hs Hf (ddt0 o) p Pr) as (_ & _ & _ & Ld). destruct (Ld d Dd) as [Lt _].
  destruct (process_parts o q (ddt0 o) p Hq Hs Hf Pr) as [Ef Efr]. cbv zeta in Ef, Efr.
  set (n := (q * (length (nth 0 (raw o) []) / q))%nat) in *.
  unfold didvinitfromdata, didv_init in Hi. destruct (Req_EM_T _ _) as [Eq|Nq]; [|discriminate].
  cbn [bind] in Hi. rewrite Lt in Hi. unfold n in Hi at 1. rewrite (flat_eq_periods o q (length (nth 0 (raw o) []) / q) Hq Hs Hf) in Hi.
  fold n in Hi. rewrite Nat2Z.id, Ef in Hi. cbn [bind] in Hi. rewrite <- Efr in Hi.
  assert (Ei : o2 = match Ok o2 with Ok x => x | Err _ => o2 end) by reflexivity. rewrite <- Hi in Ei. cbv beta iota in Ei.
  clear Hi. unfold set_proc in Ei. cbn [raw dfs dsgfreq dsgamp dr0 drp drsh dtracegain dduty dadd180 ddt0 dproc dres1 dres2 dres3] in Ei.
  unfold set_proc in Eo. unfold dofit. rewrite Ei, Eo. cbn [dproc].
  unfold dofit_core. destruct ((poles =? 1) || (poles =? 2) || (poles =? 3))%nat eqn:Epo; [|split; [reflexivity|discriminate]].
  assert (Hpo : (1 <= poles <= 3)%nat).
  { apply Bool.orb_true_iff in Epo. destruct Epo as [Eq'|Eq']; [apply Bool.orb_true_iff in Eq'; destruct Eq' as [Eq'|Eq']|]; apply Nat.eqb_eq in Eq'; lia. }
  cbn [dproc p_data]. rewrite Dd. cbv zeta.
  unfold dofit_start. cbn [d_tmean p_flat dsgamp drsh drp dr0 ddt0 dres2]. rewrite Hr.
  unfold fit_bins. cbn [p_freq d_mean d_std].
  destruct (match poles with 1%nat => _ | _ => _ end) as [[[[[[[A0 B0] C0] t1] t2] t3] dt] s].
  destruct (fitdidv _ _ _ _ _ _ _ _ _ _ _) as [[[po pc] co]|e]; [|split; [reflexivity|discriminate]].
  destruct (fitresult_of _ _ _ _ _ _ _) as [r|e]; [|split; [reflexivity|discriminate]].
  cbn [fst snd]. split; [reflexivity|]. intros _. rewrite !fitresult_set_res, Nat.eqb_refl by exact Hpo. reflexivity.
Qed.

Lemma guess_object_dt0 o d priors o2 : priors_guess_object o d priors = Ok o2 ->
  ddt0 o2 = shifted_dt0 o.
Proof.
  unfold priors_guess_object, didvinitfromdata, didv_init. destruct (Req_EM_T _ _); [|discriminate]. cbn [bind].
  destruct (flat_indices _ _ _ _ _); [|discriminate]. cbn [bind].
  intros E. apply (f_equal (fun r => match r with Ok x => ddt0 x | Err _ => 0 end)) in E. rewrite <- E. reflexivity.
Qed.

(** ** DIDVPriors *)
Lemma scaled_fst (r : R) (y e c : C) : r <> 0 -> fst e <> 0 ->
  fst (y * RtoC r - RtoC r * c)%C * (1 / fst (e * RtoC r)%C) = fst (y - c)%C * (1 / fst e).
Proof.
  intros Hr He. simpl. replace (fst e * r - snd e * 0) with (fst e * r) by ring. field. now split.
Qed.
Lemma scaled_snd (r : R) (y e c : C) : r <> 0 -> snd e <> 0 ->
  snd (y * RtoC r - RtoC r * c)%C * (1 / snd (e * RtoC r)%C) = snd (y - c)%C * (1 / snd e).
Proof.
  intros Hr He. simpl. replace (fst e * 0 + snd e * r) with (snd e * r) by ring. field. now split.
Qed.

(** On the same shunt resistance both fitters see the same residuals. *)
Lemma tuple_dt ss f : (length ss = 4 \/ length ss = 8 \/ length ss = 10)%nat ->
  exists c p, complexadmittance f (ss_args ss) = Ok c /\ convertfromtesvalues ss = Ok p
    /\ fit_admittance p f = (c * expm (f * last ss 0))%C /\ val (a_rsh (ss_args ss)) = nth 0 ss 0.
Proof.
  intros [H|[H|H]].
  - destruct ss as [|a [|b [|c [|dt [|? ?]]]]]; try discriminate H. unfold complexadmittance. rewrite impedance_selects. cbn [ss_args bind].
    do 2 eexists. repeat split.
  - destruct ss as [|a [|b [|c [|c1 [|c2 [|c3 [|c4 [|dt [|? ?]]]]]]]]]; try discriminate H. unfold complexadmittance. rewrite impedance_selects. cbn [ss_args bind].
    do 2 eexists. repeat split.
  - destruct ss as [|a [|b [|c [|c1 [|c2 [|c3 [|c4 [|c5 [|c6 [|dt [|? ?]]]]]]]]]]]; try discriminate H. unfold complexadmittance. rewrite impedance_selects. cbn [ss_args bind].
    do 2 eexists. repeat split.
Qed.
Lemma priors_residual_same rsh d params :
  (length params = 4 \/ length params = 8 \/ length params = 10)%nat -> nth 0 params 0 = rsh -> rsh <> 0 ->
  (forall f y e, In (f, y, e) d -> fst e <> 0 /\ snd e <> 0) ->
  exists p, convertfromtesvalues params = Ok p /\ priors_residual rsh d params = Ok (didv_residual d p).
Proof.
  intros Hl Hr Hr0 He. destruct (tuple_dt params 0 Hl) as (c0 & p & _ & Ep & _). exists p. split; [exact Ep|].
  induction d as [|[[f y] e] d IH]; [reflexivity|].
  cbn [priors_residual fold_right]. fold (priors_residual rsh d params). rewrite IH by (intros; eapply He; right; eassumption).
  cbn [bind]. unfold priors_admittance, priors_args.
  destruct (tuple_dt params f Hl) as (c & p' & Ec & Ep' & Ef & Ev). assert (p' = p) by congruence. subst p'.
  rewrite Ec, Ev, Hr. cbn [bind]. destruct (He f y e (or_introl eq_refl)) as [He1 He2].
  rewrite <- Cmult_assoc, <- Ef, scaled_fst, scaled_snd by assumption. reflexivity.
Qed.
Lemma nll_value rsh d priors inv params p :
  (length params = 4 \/ length params = 8 \/ length params = 10)%nat -> nth 0 params 0 = rsh -> rsh <> 0 ->
  (forall f y e, In (f, y, e) d -> fst e <> 0 /\ snd e <> 0) ->
  convertfromtesvalues params = Ok p ->
  0 <= priors_form priors params inv ->
  priors_nll rsh d priors inv params = Ok (Some (lsum (map (fun x => x ^ 2) (didv_residual d p)) / 2 + priors_form priors params inv / 2)).
Proof.
  intros Hl Hr Hr0 He Ep Hq. destruct (priors_residual_same rsh d params Hl Hr Hr0 He) as (p' & Ep' & E).
  assert (p' = p) by congruence. subst p'. unfold priors_nll. rewrite E. cbn [bind]. cbv zeta.
  unfold Rltb. destruct (Rlt_dec _ 0); [lra|]. repeat f_equal.
  - generalize (didv_residual d p). induction l as [|x l IHl]; cbn [map lsum fold_right]; [lra|].
    unfold lsum in IHl. rewrite IHl. lra.
  - rewrite <- Rsqr_pow2, Rsqr_sqrt by exact Hq. reflexivity.
Qed.

Lemma priors_start_spec ss priors : length priors = length ss -> ss <> [] ->
  length (priors_start (priors_guess ss) priors) = length ss /\
  (forall i, (i < length ss)%nat -> nth i priors 0 <> 0 -> nth i (priors_start (priors_guess ss) priors) 0 = nth i priors 0) /\
  (forall i, (i < length ss - 1)%nat -> 0 <= nth i priors 0 -> 0 <= nth i (priors_start (priors_guess ss) priors) 0) /\
  (forall i, (i < length ss)%nat -> nth i priors 0 = 0 ->
     nth i (priors_start (priors_guess ss) priors) 0 = if (i =? length ss - 1)%nat then nth i ss 0 else Rabs (nth i ss 0)).
Proof.
  intros Hl Hn. set (g := priors_guess ss).
  assert (Lr : length (removelast ss) = (length ss - 1)%nat).
  { destruct (exists_last Hn) as (l & a & ->). rewrite removelast_last, app_length. cbn. lia. }
  assert (Lpos : (0 < length ss)%nat) by (destruct ss; [congruence|cbn; lia]).
  assert (Lg : length g = length ss) by (unfold g, priors_guess; rewrite app_length, map_length, Lr; cbn; lia).
  assert (Gn : forall i, (i < length ss)%nat -> nth i g 0 = if (i =? length ss - 1)%nat then nth i ss 0 else Rabs (nth i ss 0)).
  { intros i Hi. unfold g, priors_guess. destruct (Nat.eqb_spec i (length ss - 1)) as [->|Ne].
    - rewrite app_nth2; rewrite map_length, Lr; [|lia]. rewrite Nat.sub_diag. cbn [nth].
      destruct (exists_last Hn) as (l & a & ->). rewrite last_last, app_length. cbn [length].
      rewrite app_nth2 by lia. replace (length l + 1 - 1 - length l)%nat with 0%nat by lia. reflexivity.
    - rewrite app_nth1 by (rewrite map_length, Lr; lia).
      rewrite (nth_indep _ 0 (Rabs 0)) by (rewrite map_length, Lr; lia). rewrite map_nth. f_equal.
      destruct (exists_last Hn) as (l & a & El). rewrite El in *. rewrite removelast_last, app_length in *. cbn [length] in *.
      now rewrite app_nth1 by lia. }
  assert (Sn : forall i, (i < length ss)%nat -> nth i (priors_start g priors) 0 = if Req_EM_T (nth i priors 0) 0 then nth i g 0 else nth i priors 0).
  { intros i Hi. unfold priors_start. set (F := fun q : R * R => if Req_EM_T (snd q) 0 then fst q else snd q).
    assert (E0 : F (0, 0) = 0) by (unfold F; cbn; destruct (Req_EM_T 0 0); reflexivity).
    rewrite <- E0 at 1. rewrite map_nth, combine_nth by lia. reflexivity. }
  split; [|split; [|split]].
  - unfold priors_start. rewrite map_length, combine_length. lia.
  - intros i Hi Hp. rewrite Sn by exact Hi. destruct (Req_EM_T _ _); [contradiction|reflexivity].
  - intros i Hi Hp. rewrite Sn by lia. destruct (Req_EM_T _ _); [|exact Hp]. rewrite Gn by lia.
    destruct (Nat.eqb_spec i (length ss - 1)); [lia|apply Rabs_pos].
  - intros i Hi Hp. rewrite Sn by exact Hi. rewrite Hp. destruct (Req_EM_T 0 0); [|congruence]. now apply Gn.
Qed.
