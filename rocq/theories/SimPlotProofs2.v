(** * The heights of the curves of the simulated noise plots *)
From Coq Require Import String.
From Verif Require Import Base ListLemmas UtilsModel DidvModel SimModel SimProofs1 PlotModel PlotSpec PlotProofs2 PlotProofs3.
From Verif Require Import SimPlotModel SimPlotSpec SimPlotProofs.
From Coquelicot Require Import Complex.
Open Scope R_scope.

Lemma nth_error_map_some {A B} (g : A -> B) l k b : nth_error (map g l) k = Some b -> exists a, nth_error l k = Some a /\ b = g a.
Proof.
  rewrite nth_error_map. destruct (nth_error l k) as [a|]; [|discriminate]. cbn. intros E. exists a. split; [reflexivity|congruence].
Qed.

Lemma draws_abs a l f (g : R -> res R) :
  In (mkCurve (tl f) (map (fun x => rooted (rval (g x))) (tl f)) (Some l)) (a_curves a) ->
  (forall x, In x (tl f) -> exists v, g x = Ok v /\ 0 <= v) ->
  draws a l f (fun x v => g x = Ok v).
Proof.
  intros HI H. eexists. split; [exact HI|]. split; [reflexivity|]. cbn [c_x c_y]. rewrite map_length, length_tl.
  split; [reflexivity|]. split; [reflexivity|]. intros k Hk. rewrite nth_error_tl. split; [reflexivity|].
  destruct (nth_error f (S k)) as [x|] eqn:E; [|apply nth_error_None in E; lia].
  exists x, (sqrt (Rabs (rval (g x)))). split; [reflexivity|]. rewrite nth_error_map, nth_error_tl, E. split; [reflexivity|].
  split; [apply sqrt_pos|]. destruct (H x) as [v [Ev Hv]]. { apply nth_error_In with k. now rewrite nth_error_tl. }
  rewrite Ev. cbn [rval]. now rewrite sqrt_sqrt, Rabs_pos_eq by (apply Rabs_pos || assumption).
Qed.
Lemma draws_root a l f (g : R -> R) :
  In (mkCurve (tl f) (map (fun x => msqrt (g x)) (tl f)) (Some l)) (a_curves a) ->
  (forall x, In x (tl f) -> 0 <= g x) ->
  draws a l f (fun x v => g x = v).
Proof.
  intros HI H. eexists. split; [exact HI|]. split; [reflexivity|]. cbn [c_x c_y]. rewrite map_length, length_tl.
  split; [reflexivity|]. split; [reflexivity|]. intros k Hk. rewrite nth_error_tl. split; [reflexivity|].
  destruct (nth_error f (S k)) as [x|] eqn:E; [|apply nth_error_None in E; lia].
  exists x, (sqrt (g x)). split; [reflexivity|]. rewrite nth_error_map, nth_error_tl, E. cbn [option_map].
  assert (Hx : 0 <= g x). { apply H, nth_error_In with k. now rewrite nth_error_tl. }
  unfold msqrt. destruct (Rltb_spec (g x) 0); [lra|]. split; [reflexivity|]. split; [apply sqrt_pos|].
  now rewrite sqrt_sqrt.
Qed.
Lemma raw_amplitude f psd l : length psd = length f -> shows_amplitude f psd l (mkCurve (tl f) (map msqrt (tl psd)) l).
Proof.
  intros L. split; [reflexivity|]. cbn [c_x c_y]. rewrite map_length, !length_tl, L. split; [reflexivity|]. split; [reflexivity|].
  intros k Hk. rewrite nth_error_tl. split; [reflexivity|].
  destruct (nth_error psd (S k)) as [v|] eqn:E; [|apply nth_error_None in E; lia].
  exists v, (msqrt v). split; [reflexivity|]. rewrite nth_error_map, nth_error_tl, E. split; [reflexivity|]. apply msqrt_spec.
Qed.

(** Positivity of the values *)
Lemma pos_itot t x : physical t -> regular t ->
  exists s a b c, s_itot t x = Ok s /\ s_iload t x = Ok a /\ s_ites t x = Ok b /\ s_itfn t x = Ok c /\
    s = a + b + c + s_isquid t x /\ 0 <= a <= s /\ 0 <= b <= s /\ 0 <= c <= s /\ 0 <= s_isquid t x <= s.
Proof.
  intros P H. destruct (ok_itot t H x) as [s E]. destruct (itot_bounds t x s P E) as [a [b [c K]]]. exists s, a, b, c. tauto.
Qed.
Lemma pos_ptot t x : physical t -> regular t -> Zt t x <> 0%C ->
  exists p s a b q ia ib ic, dIdP t x = Ok p /\ 0 < Cmod p /\ s_ptot t x = Ok s /\ s_pload t x = Ok a /\ s_ptes t x = Ok b /\ s_psquid t x = Ok q /\
    s_itot t x = Ok (s * Cmod p ^ 2) /\ s_iload t x = Ok ia /\ s_ites t x = Ok ib /\ s_itfn t x = Ok ic /\
    a * Cmod p ^ 2 = ia /\ b * Cmod p ^ 2 = ib /\ s_ptfn t * Cmod p ^ 2 = ic /\ q * Cmod p ^ 2 = s_isquid t x /\
    s = a + b + s_ptfn t + q /\ 0 <= a /\ 0 <= b /\ 0 <= s_ptfn t /\ 0 <= q /\ 0 <= s.
Proof.
  intros P H Hz. destruct (pos_itot t x P H) as [si [ia' [ib' [ic' [E [E1 [E2 [E3 [Es [B1 [B2 [B3 B4]]]]]]]]]]]].
  assert (Ep : exists p, dIdP t x = Ok p). { destruct H as [H1 [H2 H3]]. rewrite (dIdP_ok t x H1 H2 H3). eauto. }
  destruct Ep as [p Ep]. destruct (power_noise t x p si Ep Hz E) as [a [b [q [sp [ia [ib [ic [F1 [F2 [F3 [F4 [F5 [F6 [F7 [G1 [G2 [G3 [G4 [G5 G6]]]]]]]]]]]]]]]]]]].
  assert (N := power_times t x p Ep Hz). assert (N' : 0 < Cmod p ^ 2) by (assert (K := pow2_ge_0 (Cmod p)); lra).
  assert (Np : 0 < Cmod p). { assert (K := Cmod_ge_0 p). destruct (Req_dec (Cmod p) 0) as [e|e]; [rewrite e in N'; cbn in N'; lra|lra]. }
  exists p, sp, a, b, q, ia, ib, ic.
  assert (S : forall u, 0 <= u * Cmod p ^ 2 -> 0 <= u).
  { intros u Hu. destruct (Rle_dec 0 u); [assumption|]. exfalso.
    assert (u * Cmod p ^ 2 < 0 * Cmod p ^ 2) by (apply Rmult_lt_compat_r; lra). lra. }
  rewrite F5 in E1. rewrite F6 in E2. rewrite F7 in E3. injection E1 as E1. injection E2 as E2. injection E3 as E3.
  assert (0 <= a) by (apply S; lra). assert (0 <= b) by (apply S; lra). assert (0 <= s_ptfn t) by (apply S; lra). assert (0 <= q) by (apply S; lra).
  rewrite E, G5. repeat (split; [first [assumption|reflexivity|lra]|]). lra.
Qed.

(** Reading the heights off *)
Ltac pick H := let c := fresh "c" in let HI := fresh "HI" in let HL := fresh "HL" in
  destruct H as [c [HI [HL H]]]; cbn [a_curves shown_ti shown_tp shown_sc shown_n In] in HI;
  repeat (destruct HI as [HI | HI]; [subst c; cbn [c_label] in HL; try discriminate HL|]); try contradiction HI; cbn [c_y] in H.

Lemma height_abs f (g : R -> res R) k y : nth_error (map (fun x => rooted (rval (g x))) (tl f)) k = Some (Some y) ->
  exists x, nth_error f (S k) = Some x /\ y = sqrt (Rabs (rval (g x))).
Proof.
  intros H. apply nth_error_map_some in H. destruct H as [x [E H]]. rewrite nth_error_tl in E. exists x. split; [exact E|].
  unfold rooted in H. congruence.
Qed.
Lemma height_root f (g : R -> R) k y : nth_error (map (fun x => msqrt (g x)) (tl f)) k = Some (Some y) ->
  exists x, nth_error f (S k) = Some x /\ y = sqrt (g x) /\ 0 <= g x.
Proof.
  intros H. apply nth_error_map_some in H. destruct H as [x [E H]]. rewrite nth_error_tl in E. exists x. split; [exact E|].
  unfold msqrt in H. destruct (Rltb_spec (g x) 0); [discriminate|]. split; [congruence|lra].
Qed.
Lemma sqr_abs v : 0 <= v -> sqrt (Rabs v) * sqrt (Rabs v) = v.
Proof. intros H. rewrite sqrt_sqrt by apply Rabs_pos. now apply Rabs_pos_eq. Qed.

Lemma sum_ti f psd t title k y y1 y2 y3 y4 : physical t -> regular t -> let a := shown_ti f psd t title in
  height a "Total Noise" k y -> height a "TES Johnson Noise" k y1 -> height a "Load Noise" k y2 ->
  height a "TFN Noise" k y3 -> height a "Squid+Electronics Noise" k y4 ->
  y * y = y1 * y1 + y2 * y2 + y3 * y3 + y4 * y4.
Proof.
  intros P H a H0 H1 H2 H3 H4. unfold a in *. pick H0. pick H1. pick H2. pick H3. pick H4.
  apply height_abs in H0, H1, H2, H3, H4. destruct H0 as [x [E ->]], H1 as [x1 [E1 ->]], H2 as [x2 [E2 ->]], H3 as [x3 [E3 ->]], H4 as [x4 [E4 ->]].
  assert (x1 = x) by congruence. assert (x2 = x) by congruence. assert (x3 = x) by congruence. assert (x4 = x) by congruence. subst x1 x2 x3 x4.
  destruct (pos_itot t x P H) as [s [ia [ib [ic [F [F1 [F2 [F3 [Es [B1 [B2 [B3 B4]]]]]]]]]]]].
  rewrite F, F1, F2, F3. cbn [rval]. rewrite !sqr_abs by lra. lra.
Qed.
Lemma sum_tp f psd t title k y y1 y2 y3 y4 : physical t -> regular t -> (forall x, In x (tl f) -> Zt t x <> 0%C) ->
  let a := shown_tp f psd t title in
  height a "Total Noise" k y -> height a "TES Johnson Noise" k y1 -> height a "Load Noise" k y2 ->
  height a "TFN Noise" k y3 -> height a "Squid+Electronics Noise" k y4 ->
  y * y = y1 * y1 + y2 * y2 + y3 * y3 + y4 * y4.
Proof.
  intros P H HZ a H0 H1 H2 H3 H4. unfold a in *. pick H0. pick H1. pick H2. pick H3. pick H4.
  apply height_abs in H0, H1, H2, H4. apply (height_abs f (fun _ => Ok (s_ptfn t))) in H3.
  destruct H0 as [x [E ->]], H1 as [x1 [E1 ->]], H2 as [x2 [E2 ->]], H3 as [x3 [E3 ->]], H4 as [x4 [E4 ->]].
  assert (x1 = x) by congruence. assert (x2 = x) by congruence. assert (x3 = x) by congruence. assert (x4 = x) by congruence. subst x1 x2 x3 x4.
  assert (Hz : Zt t x <> 0%C). { apply HZ, nth_error_In with k. now rewrite nth_error_tl. }
  destruct (pos_ptot t x P H Hz) as [p [s [pa [pb [q [ia [ib [ic [Ep [Np [F [F1 [F2 [F3 [_ [_ [_ [_ [_ [_ [_ [_ [Es [B1 [B2 [B3 [B4 B5]]]]]]]]]]]]]]]]]]]]]]]]]]].
  rewrite F, F1, F2, F3. cbn [rval]. rewrite !sqr_abs by lra. lra.
Qed.
Lemma sum_sc f psd t title k y y2 y4 : let a := shown_sc f psd t title in
  height a "Total Noise" k y -> height a "Load Noise" k y2 -> height a "Squid+Electronics Noise" k y4 ->
  y * y = y2 * y2 + y4 * y4.
Proof.
  intros a H0 H2 H4. unfold a in *. pick H0. pick H2. pick H4.
  apply height_root in H0, H2, H4. destruct H0 as [x [E [-> G]]], H2 as [x2 [E2 [-> G2]]], H4 as [x4 [E4 [-> G4]]].
  assert (x2 = x) by congruence. assert (x4 = x) by congruence. subst x2 x4.
  rewrite !sqrt_sqrt by assumption. reflexivity.
Qed.
Lemma sum_n f psd t title k y y1 y2 y4 : let a := shown_n f psd t title in
  height a "Total Noise" k y -> height a "TES Johnson Noise" k y1 -> height a "Load Noise" k y2 -> height a "Squid+Electronics Noise" k y4 ->
  y * y = y1 * y1 + y2 * y2 + y4 * y4.
Proof.
  intros a H0 H1 H2 H4. unfold a in *. pick H0. pick H1. pick H2. pick H4.
  apply height_root in H0, H1, H2, H4. destruct H0 as [x [E [-> G]]], H1 as [x1 [E1 [-> G1]]], H2 as [x2 [E2 [-> G2]]], H4 as [x4 [E4 [-> G4]]].
  assert (x1 = x) by congruence. assert (x2 = x) by congruence. assert (x4 = x) by congruence. subst x1 x2 x4.
  rewrite !sqrt_sqrt by assumption. unfold s_itotnormal. lra.
Qed.

(** Power heights times |dIdP| are the current heights. *)
Lemma root_times a b m : 0 <= a -> 0 <= m -> a * m ^ 2 = b -> sqrt (Rabs a) * m = sqrt (Rabs b).
Proof.
  intros Ha Hm <-. assert (0 <= a * m ^ 2) by (apply Rmult_le_pos; [assumption|apply pow2_ge_0]).
  rewrite !Rabs_pos_eq by assumption. rewrite sqrt_mult by (assumption || apply pow2_ge_0). now rewrite sqrt_pow2.
Qed.
Lemma tp_vs_ti f psd t title title' l k y z x p : physical t -> regular t -> (forall x, In x (tl f) -> Zt t x <> 0%C) ->
  length psd = length f ->
  height (shown_tp f psd t title) l k y -> height (shown_ti f psd t title') l k z ->
  nth_error f (S k) = Some x -> dIdP t x = Ok p -> y * Cmod p = z.
Proof.
  intros P H HZ L Hy Hz Ex Ep.
  assert (Nz : Zt t x <> 0%C). { apply HZ, nth_error_In with k. now rewrite nth_error_tl. }
  destruct (pos_ptot t x P H Nz) as [p' [s [pa [pb [q [ia [ib [ic [Ep' [Np [F [F1 [F2 [F3 [G0 [G1 [G2 [G3 [M1 [M2 [M3 [M4 [Es [B1 [B2 [B3 [B4 B5]]]]]]]]]]]]]]]]]]]]]]]]]]].
  assert (p' = p) by congruence. subst p'.
  assert (Z : forall g h u v, g x = Ok u -> h x = Ok v -> 0 <= u -> u * Cmod p ^ 2 = v ->
    nth_error (map (fun x => rooted (rval (g x))) (tl f)) k = Some (Some y) ->
    nth_error (map (fun x => rooted (rval (h x))) (tl f)) k = Some (Some z) -> y * Cmod p = z).
  { intros g h u v Eg Eh Hu E Hy' Hz'. apply height_abs in Hy', Hz'. destruct Hy' as [x1 [E1 ->]], Hz' as [x2 [E2 ->]].
    assert (x1 = x) by congruence. assert (x2 = x) by congruence. subst x1 x2. rewrite Eg, Eh. cbn [rval].
    apply root_times; [assumption|lra|assumption]. }
  pick Hy; injection HL as HL; subst l; pick Hz.
  - exact (Z _ _ _ _ F2 G2 B2 M2 Hy Hz).
  - exact (Z _ _ _ _ F1 G1 B1 M1 Hy Hz).
  - exact (Z (fun _ => Ok (s_ptfn t)) _ _ _ eq_refl G3 B3 M3 Hy Hz).
  - exact (Z _ _ _ _ F G0 B5 eq_refl Hy Hz).
  - exact (Z _ (fun x => Ok (s_isquid t x)) _ _ F3 eq_refl B4 M4 Hy Hz).
  - apply nth_error_map_some in Hy. destruct Hy as [[u x'] [E1 Hy]]. apply nth_error_map_some in Hz. destruct Hz as [v [E2 Hz]].
    cbn [fst snd] in Hy.
    assert (E3 : nth_error (tl psd) k = Some u /\ nth_error (tl f) k = Some x').
    { clear -E1. revert k E1. generalize (tl f). induction (tl psd) as [|a l IH]; intros [|b l'] [|k] E; cbn in *; try discriminate.
      - injection E as <- <-. auto. - now apply IH. }
    destruct E3 as [E3 E4]. rewrite nth_error_tl in E4. assert (x' = x) by congruence. subst x'.
    assert (v = u) by congruence. subst v. rewrite Ep in Hy. cbn [bind rval] in Hy. unfold msqrt in *.
    destruct (Rltb_spec u 0); [discriminate|]. destruct (Rltb_spec (u / Cmod p ^ 2) 0); [discriminate|].
    assert (y = sqrt (u / Cmod p ^ 2)) by congruence. assert (z = sqrt u) by congruence. subst y z.
    assert (U : 0 <= u) by lra. assert (W : 0 < Cmod p ^ 2) by (apply pow_lt; assumption).
    rewrite sqrt_div_alt by assumption. rewrite sqrt_pow2 by lra. field. lra.
Qed.
