(** * Consistency of the dIdV plots, the impedance plot, failures *)
From Coq Require Import String Reals Sorted.
From Coquelicot Require Import Complex.
From Verif Require Import Base ListLemmas Dft UtilsModel DidvModel PlotModel IvPlotModel DidvPlotModel DidvPlotSpec
  DidvPlotProofs1 DidvPlotProofs2.
Local Open Scope R_scope.

(** ** The phase *)

Lemma np_angle_spec z : - PI < np_angle z <= PI /\ z = (RtoC (Cmod z) * cis (np_angle z))%C.
Proof.
  destruct z as [x y]. unfold np_angle.
  assert (PP := PI_RGT_0).
  assert (M : Cmod (x, y) = sqrt (x * x + y * y)) by (unfold Cmod; cbn [fst snd]; f_equal; ring).
  assert (At : forall t, - (PI / 2) < atan t < PI / 2) by (intros t; assert (X := atan_bound t); lra).
  assert (S : x <> 0 -> sqrt (x * x + y * y) = Rabs x * sqrt (1 + Rsqr (y / x))).
  { intros Hx. rewrite <- sqrt_Rsqr_abs, <- sqrt_mult_alt by apply Rle_0_sqr. f_equal. unfold Rsqr. field. exact Hx. }
  assert (Q : 0 < sqrt (1 + Rsqr (y / x))).
  { apply sqrt_lt_R0. assert (X := Rle_0_sqr (y / x)). lra. }
  assert (Main : x <> 0 -> (RtoC (Cmod (x, y)) * cis (atan (y / x)))%C = (Rabs x, Rabs x * (y / x))).
  { intros Hx. rewrite M, (S Hx). unfold cis. rewrite cos_atan, sin_atan. apply Ceq; cbn [fst snd Cmult RtoC]; field; lra. }
  destruct (Rltb_spec 0 x) as [Hx|Hx].
  - split; [assert (X := At (y / x)); lra|]. rewrite Main by lra. rewrite Rabs_pos_eq by lra. f_equal. field. lra.
  - destruct (Rltb_spec x 0) as [Hx'|Hx'].
    + assert (N : x <> 0) by lra. assert (Mn := Main N). rewrite Rabs_left in Mn by lra.
      assert (Hq : forall b : bool, cis (if b then atan (y / x) - PI else atan (y / x) + PI) = (- cis (atan (y / x)))%C).
      { intros b. destruct b; unfold cis; rewrite ?cos_minus, ?sin_minus, ?neg_cos, ?neg_sin, ?cos_PI, ?sin_PI;
          apply Ceq; cbn [fst snd Copp]; ring. }
      assert (E : (x, y) = (RtoC (Cmod (x, y)) * - cis (atan (y / x)))%C).
      { transitivity (- (RtoC (Cmod (x, y)) * cis (atan (y / x))))%C; [|apply Ceq; cbn [fst snd Cmult Copp RtoC]; ring]. rewrite Mn. apply Ceq; cbn [fst snd Copp]; field; lra. }
      assert (X := At (y / x)). destruct (Rltb_spec y 0) as [Hy|Hy].
      * split; [|rewrite (Hq true); exact E].
        assert (0 < y / x) by (unfold Rdiv; assert (/ x < 0) by (now apply Rinv_lt_0_compat); nra).
        assert (0 < atan (y / x)) by (rewrite <- atan_0; now apply atan_increasing). lra.
      * split; [|rewrite (Hq false); exact E].
        assert (y / x <= 0) by (unfold Rdiv; assert (/ x < 0) by (now apply Rinv_lt_0_compat); nra).
        assert (atan (y / x) <= 0).
        { destruct (Req_EM_T (y / x) 0) as [->|]; [rewrite atan_0; lra|].
          rewrite <- atan_0. apply Rlt_le, atan_increasing. lra. }
        lra.
    + assert (x = 0) as -> by lra. rewrite M. replace (0 * 0 + y * y) with (Rsqr y) by (unfold Rsqr; ring).
      rewrite sqrt_Rsqr_abs. unfold cis.
      destruct (Rltb_spec 0 y) as [Hy|Hy]; [|destruct (Rltb_spec y 0) as [Hy'|Hy']].
      * split; [lra|]. rewrite cos_PI2, sin_PI2, Rabs_pos_eq by lra. apply Ceq; cbn [fst snd Cmult RtoC]; ring.
      * split; [lra|]. rewrite cos_neg, sin_neg, cos_PI2, sin_PI2, Rabs_left by lra. apply Ceq; cbn [fst snd Cmult RtoC]; ring.
      * split; [lra|]. assert (y = 0) as -> by lra. rewrite Rabs_R0. apply Ceq; cbn [fst snd Cmult RtoC]; ring.
Qed.

(** ** Points *)

Lemma freq_first_point g o s p d a k x y : freq_curves g o s p d (x_marks a) ->
  (first_point a k x y <-> exists q, nth_error (measured p d) k = Some q /\ x = fst (fst q) /\
     y = g (undelayed (best_offset o) (fst (fst q)) (snd (fst q)))).
Proof.
  intros (l & fits & _ & _ & E). unfold first_point, first_curve. rewrite E. split.
  - intros (c & Ec & Ex & Ey). injection Ec as <-. unfold freq_points in Ex, Ey. cbn [c_x c_y] in Ex, Ey.
    rewrite nth_error_map in Ex, Ey. destruct (nth_error (measured p d) k) as [q|]; [|discriminate].
    cbn [option_map] in Ex, Ey. exists q. repeat split; congruence.
  - intros (q & Eq & -> & ->). eexists. split; [reflexivity|]. unfold freq_points. cbn [c_x c_y].
    rewrite !nth_error_map, Eq. now split.
Qed.

Lemma dvdi_ok o s p d sv sp sn : prepared o p d -> complete o -> impedances_nonzero o p ->
  makes (plot_re_vs_im_dvdi o s sv sp sn) sv (sp ++ "dvdi_real_vs_imag_" ++ sn ++ ".png") (fun a =>
    x_title a = Some "Re($dV/dI$) vs. Im($dV/dI$)"%string /\ dvdi_curves o s p d (x_marks a) /\
    x_xlim a = None /\ x_ylim a = None).
Proof.
  intros P Hc Hz. assert (P' := P). destruct P as (Hp & Hd & Hn & Lt & Lf & Lm & Ls).
  unfold plot_re_vs_im_dvdi, ready. rewrite Hp. cbn [bind]. rewrite (plotted_ok o p d P'). cbn [bind].
  rewrite !draw_ok by now rewrite !map_length. cbn [bind].
  assert (K : forall i r, fit_of o i = Some r -> exists zs,
    Forall2 (fun f z => compleximpedance f (pf_args r) = Ok z) (positive (p_freq p)) zs /\
    freq_fit (fun _ y => fst (1 / y)%C) (fun _ y => snd (1 / y)%C) p r (fit_label i)
      = Ok (mkCurve (map fst zs) (map (fun z => Some (snd z)) zs) (Some (fit_label i)))).
  { intros i r Hr. destruct (Hc i r Hr) as [m Em].
    destruct (each_total (fun f => complexadmittance f (pf_args r)) (p_freq p)) as (ys & E & F).
    { intros f. apply (admittance_ok f _ _ Em). }
    destruct (filter_combined _ _ _ F) as [G1 G2]. rewrite <- positive_filter in G1, G2.
    set (l := filter (fun q => Rltb 0 (fst q)) (combine (p_freq p) ys)) in *.
    exists (map (fun q => (1 / snd q)%C) l). split.
    - rewrite <- (map_map snd (fun y => (1 / y)%C)). revert G2. generalize (map snd l). intros w.
      assert (Pz : forall f z, In f (positive (p_freq p)) -> compleximpedance f (pf_args r) = Ok z -> z <> RtoC 0)
        by (intros f z; apply (Hz i r f z Hr)).
      clear -Pz. revert Pz. generalize (positive (p_freq p)). intros v Pz G2.
      induction G2 as [|f y v w H F IH]; [constructor|]. cbn [map]. constructor.
      + unfold complexadmittance in H. destruct (compleximpedance f (pf_args r)) as [z|] eqn:Ez; [|discriminate].
        cbn [bind] in H. assert (Nz := Pz f z (or_introl eq_refl) Ez). injection H as <-. f_equal. field. split; [exact Nz|].
        intros X. injection X; lra.
      + apply IH. intros f' z Hf. apply Pz. now right.
    - unfold freq_fit. rewrite E. cbn [bind]. fold l. rewrite draw_ok by now rewrite !map_length.
      f_equal. f_equal; now rewrite !map_map. }
  destruct (fit_marks_ok o s (freq_fit (fun _ y => fst (1 / y)%C) (fun _ y => snd (1 / y)%C) p)) as (fits & E & F).
  { intros i r Hr. destruct (K i r Hr) as (zs & _ & Ez). eexists; exact Ez. }
  rewrite E. cbn [bind present]. eexists. split; [reflexivity|]. cbn [x_title x_marks x_xlim x_ylim].
  split; [reflexivity|]. split; [|now split].
  exists (chosen o s), fits. split; [apply chosen_drawn|]. split.
  - eapply forall2_weaken; [|exact F]. intros i m (r & c & Er & Ec & ->). destruct (K i r Er) as (zs & Fz & Ez).
    exists r, zs. split; [exact Er|]. split; [exact Fz|]. f_equal. congruence.
  - unfold dvdi_points.
    assert (EQ : forall q : R * C * C, (1 / (snd (fst q) * time_phase (best_offset o) (fst (fst q))))%C
      = (/ undelayed (best_offset o) (fst (fst q)) (snd (fst q)))%C)
      by (intros q; rewrite undelayed_phase; unfold Cdiv; apply Cmult_1_l).
    f_equal. f_equal. f_equal.
    + apply map_ext. intros q. now rewrite EQ.
    + apply map_ext. intros q. now rewrite EQ.
Qed.

(** ** The time offset *)

Lemma best_offset_none o : (forall i, fit_of o i = None) -> best_offset o = 0.
Proof.
  intros H. assert (H1 := H 1%Z). assert (H2 := H 2%Z). assert (H3 := H 3%Z). cbn in H1, H2, H3.
  unfold best_offset. now rewrite H1, H2, H3.
Qed.

Lemma best_offset_some o i r : best_fit o i r -> best_offset o = pf_dt r.
Proof.
  intros [Hi Hm].
  assert (B : i = 1%Z \/ i = 2%Z \/ i = 3%Z).
  { unfold fit_of in Hi. destruct (Z.eqb_spec i 1); [tauto|]. destruct (Z.eqb_spec i 2); [tauto|].
    destruct (Z.eqb_spec i 3); [tauto|discriminate]. }
  unfold best_offset, best_time_offset.
  assert (M1 := fun r' => Hm 1%Z r'). assert (M2 := fun r' => Hm 2%Z r'). assert (M3 := fun r' => Hm 3%Z r').
  cbn [fit_of Z.eqb Pos.eqb] in M1, M2, M3. clear Hm.
  destruct B as [B|[B|B]]; subst i; cbn [fit_of Z.eqb Pos.eqb] in Hi;
  destruct (b_fit1 o) as [r1|], (b_fit2 o) as [r2|], (b_fit3 o) as [r3|]; try discriminate Hi;
  (match type of Hi with Some ?a = Some ?b => assert (a = b) by congruence end); subst; clear Hi; cbn [map option_map min_cost];
  repeat match goal with
  | H : forall r', Some ?x = Some r' -> _ |- _ => let X := fresh in assert (X := H x eq_refl); clear H
  end;
  repeat match goal with
  | H : _ <= _ /\ (_ -> _) |- _ => let A := fresh in let B := fresh in let D := fresh in destruct H as [A B]; try (assert (D := B ltac:(lia))); clear B
  end; unfold Rltb; repeat (destruct (Rlt_dec _ _); cbn [min_cost]); try reflexivity; try (exfalso; lra).
Qed.

(** ** Data that follow the best fit *)

Lemma undelay dt f y : undelayed dt f (y * cis (- (2 * PI * f * dt)))%C = y.
Proof.
  unfold undelayed, Cdiv. rewrite <- Cmult_assoc, Cinv_r, Cmult_1_r; [reflexivity|].
  intros E. assert (X := cis_n2 (- (2 * PI * f * dt))). rewrite E in X. unfold cn2, RtoC in X. cbn in X. lra.
Qed.

Lemma forall2_in_l {A B} (P : A -> B -> Prop) l m a : Forall2 P l m -> In a l ->
  exists k b, nth_error l k = Some a /\ nth_error m k = Some b /\ P a b.
Proof.
  induction 1 as [|x y l m H F IH]; [intros []|]. intros [->|Ha].
  - exists 0%nat, y. now repeat split.
  - destruct (IH Ha) as (k & b & E1 & E2 & E3). exists (S k), b. now repeat split.
Qed.

Lemma freq_overlay g o s p d a i r : freq_curves g o s p d (x_marks a) -> best_fit o i r -> to_draw o s i ->
  follows_fit p d r -> forall k x y, first_point a k x y -> on_fit a i x y.
Proof.
  intros Hf Hb Ht Hd k x y Hk. assert (Hf' := Hf). apply (freq_first_point g o s p d a k x y Hf) in Hk.
  destruct Hk as (q & Eq & -> & ->). destruct Hf' as (l & fits & Dl & F & E).
  apply Dl in Ht. destruct (forall2_in_l _ _ _ _ F Ht) as (n & m & _ & En & (r' & ys & Er & Fy & ->)).
  assert (r' = r) as -> by (destruct Hb as [Hb _]; congruence).
  apply nth_error_In in Eq. destruct (Hd q Eq) as (y & Ey & Em). rewrite (best_offset_some o i r Hb), Em, undelay.
  destruct (forall2_in_l _ _ _ _ Fy (measured_positive p d q Eq)) as (j & y' & Ej & Ej' & Ey').
  assert (y' = y) as -> by congruence.
  exists (mkCurve (positive (p_freq p)) (map (fun y => Some (g y)) ys) (Some (fit_label i))), j.
  split; [|split; [reflexivity|]].
  - rewrite E. right; right; right. now apply (nth_error_In fits n).
  - cbn [c_x c_y]. split; [exact Ej|]. now rewrite nth_error_map, Ej'.
Qed.

Lemma dvdi_overlay o s p d a i r : dvdi_curves o s p d (x_marks a) -> impedances_nonzero o p -> best_fit o i r -> to_draw o s i ->
  follows_fit p d r -> forall k x y, first_point a k x y -> on_fit a i x y.
Proof.
  intros (l & fits & Dl & F & E) Hz Hb Ht Hd k x y (c & Ec & Ex & Ey). unfold first_curve in Ec. rewrite E in Ec.
  injection Ec as <-. unfold dvdi_points in Ex, Ey. cbn [c_x c_y] in Ex, Ey. rewrite nth_error_map in Ex, Ey.
  destruct (nth_error (measured p d) k) as [q|] eqn:Eq; [|discriminate]. cbn [option_map] in Ex, Ey.
  apply Dl in Ht. destruct (forall2_in_l _ _ _ _ F Ht) as (n & m & _ & En & (r' & zs & Er & Fz & ->)).
  assert (r' = r) as -> by (destruct Hb as [Hb _]; congruence).
  apply nth_error_In in Eq. destruct (Hd q Eq) as (y0 & Ey0 & Em).
  rewrite (best_offset_some o i r Hb), Em, undelay in Ex, Ey.
  destruct (forall2_in_l _ _ _ _ Fz (measured_positive p d q Eq)) as (j & z & Ej & Ej' & Ez).
  assert (Nz := Hz i r _ _ Er (measured_positive p d q Eq) Ez).
  unfold complexadmittance in Ey0. rewrite Ez in Ey0. cbn [bind] in Ey0.
  assert (Y : (/ y0)%C = z).
  { injection Ey0 as <-. field. split; [exact Nz|]. intros X. injection X; lra. }
  rewrite Y in Ex, Ey.
  exists (mkCurve (map fst zs) (map (fun z => Some (snd z)) zs) (Some (fit_label i))), j.
  split; [|split; [reflexivity|]].
  - rewrite E. right. now apply (nth_error_In fits n).
  - cbn [c_x c_y]. split; (erewrite map_nth_error by exact Ej'); congruence.
Qed.

(** ** Failures *)

Lemma not_ready o s z sv sp sn : b_proc o = None ->
  fails (plot_full_trace o s sv sp sn) TypeError /\ fails (plot_single_period_of_trace o s sv sp sn) TypeError /\
  fails (plot_zoomed_in_trace o s z sv sp sn) TypeError /\ fails (plot_didv_flipped o s sv sp sn) TypeError /\
  fails (plot_re_im_didv o s sv sp sn) TypeError /\ fails (plot_abs_phase_didv o s sv sp sn) TypeError /\
  fails (plot_re_vs_im_dvdi o s sv sp sn) TypeError.
Proof.
  intros H. unfold fails, plot_full_trace, plot_single_period_of_trace, plot_zoomed_in_trace, plot_didv_flipped,
    plot_re_im_didv, plot_abs_phase_didv, plot_re_vs_im_dvdi, plot_time_domain, plot_freq_domain, ready. rewrite H.
  cbn [bind present followed fst snd]. repeat split; reflexivity.
Qed.

Lemma freq_nothing g o s p bins : b_proc o = Some p -> plotted_bins p = Ok bins -> complete o ->
  (forall q, In q bins -> 100000 <= fst (fst q)) -> plot_freq_domain g o s = Err ValueError.
Proof.
  intros Hp Hb Hc Hn. unfold plot_freq_domain, ready. rewrite Hp. cbn [bind]. rewrite Hb. cbn [bind].
  rewrite !draw_ok by now rewrite !map_length. cbn [bind].
  destruct (fit_marks_ok o s (freq_fit (fun f _ => f) (fun _ y => g y) p)) as (fits & E & F).
  { intros i r Hr. destruct (freq_fit_ok g o p i r Hc Hr) as (ys & _ & Ey). eexists; exact Ey. }
  rewrite E. cbn [bind].
  assert (filter (fun q : R * C * C => Rltb (fst (fst q)) 100000) bins = []) as ->; [|reflexivity].
  clear -Hn. induction bins as [|q bins IH]; [reflexivity|]. cbn [filter].
  rewrite Rltb_false by (apply Hn; now left). apply IH. intros q' Hq'. apply Hn. now right.
Qed.

Lemma nothing_measured o s p d sv sp sn : prepared o p d -> complete o -> ~ (exists q, below_100kHz p d q) ->
  fails (plot_re_im_didv o s sv sp sn) ValueError /\ fails (plot_abs_phase_didv o s sv sp sn) ValueError.
Proof.
  intros P Hc Hn.
  assert (X : forall g, plot_freq_domain g o s = Err ValueError).
  { intros g. apply (freq_nothing g o s p (measured p d)); [apply P|now apply (plotted_ok o)|exact Hc|].
    intros q Hq. destruct (Rle_lt_dec 100000 (fst (fst q))); [assumption|]. exfalso. apply Hn. now exists q. }
  unfold fails, plot_re_im_didv, plot_abs_phase_didv. rewrite !X. split; reflexivity.
Qed.

Lemma all_cut o s p sv sp sn : b_proc o = Some p -> p_data p = None -> complete o ->
  fails (plot_re_im_didv o s sv sp sn) ValueError /\ fails (plot_abs_phase_didv o s sv sp sn) ValueError.
Proof.
  intros Hp Hd Hc.
  assert (X : forall g, plot_freq_domain g o s = Err ValueError).
  { intros g. apply (freq_nothing g o s p []); [exact Hp|unfold plotted_bins; now rewrite Hd|exact Hc|intros q []]. }
  unfold fails, plot_re_im_didv, plot_abs_phase_didv. rewrite !X. split; reflexivity.
Qed.

Lemma mismatched o s p d sv sp sn : b_proc o = Some p -> p_data p = Some d ->
  length (d_mean d) <> length (d_std d) \/ length (d_mean d) <> length (p_freq p) ->
  fails (plot_re_im_didv o s sv sp sn) ValueError /\ fails (plot_abs_phase_didv o s sv sp sn) ValueError /\
  fails (plot_re_vs_im_dvdi o s sv sp sn) ValueError.
Proof.
  intros Hp Hd Hl.
  assert (X : plotted_bins p = Err ValueError).
  { unfold plotted_bins. rewrite Hd. destruct (Nat.eqb_spec (length (d_mean d)) (length (d_std d))); [|reflexivity].
    destruct (Nat.eqb_spec (length (d_mean d)) (length (p_freq p))); [|reflexivity]. tauto. }
  unfold fails, plot_re_im_didv, plot_abs_phase_didv, plot_re_vs_im_dvdi, plot_freq_domain, ready. rewrite Hp. cbn [bind].
  rewrite X. repeat split; reflexivity.
Qed.
