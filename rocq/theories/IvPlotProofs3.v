(** * Proofs about the current, resistance and power plots: saving, labels, analysed objects *)
From Coq Require Import String Ascii DecimalString Decimal.
From Verif Require Import Base ListLemmas UtilsModel IvModel PlotModel PlotSpec PlotProofs3 PlotProofs5 IvPlotModel IvPlotSpec IvPlotProofs IvPlotProofs2.
Open Scope R_scope.

(** ** Labels *)
Lemma digits_comma d : forall d' s s', (NilEmpty.string_of_uint d ++ String "," s = NilEmpty.string_of_uint d' ++ String "," s')%string ->
  NilEmpty.string_of_uint d = NilEmpty.string_of_uint d' /\ s = s'.
Proof.
  induction d as [|d IH|d IH|d IH|d IH|d IH|d IH|d IH|d IH|d IH|d IH]; intros [|d'|d'|d'|d'|d'|d'|d'|d'|d'|d'] s s';
    cbn [NilEmpty.string_of_uint String.append]; intros H; try discriminate H;
    first [ assert (s = s') by congruence; auto
          | assert (H' : (NilEmpty.string_of_uint d ++ String "," s)%string = (NilEmpty.string_of_uint d' ++ String "," s')%string) by congruence;
            destruct (IH _ _ _ H') as [-> ->]; auto ].
Qed.

Lemma dec_empty n : dec n = NilEmpty.string_of_uint (Nat.to_uint n).
Proof. unfold dec. pose proof (to_uint_nonnil n) as H. destruct (Nat.to_uint n); [contradiction|..]; reflexivity. Qed.

Lemma dec_comma n n' s s' : (dec n ++ String "," s = dec n' ++ String "," s')%string -> n = n' /\ s = s'.
Proof. rewrite !dec_empty. intros H. apply digits_comma in H. destruct H as [H ->]. split; [|reflexivity]. apply dec_inj. rewrite !dec_empty. exact H. Qed.

Lemma dec_not_minus n s s' : (dec n ++ s)%string <> String "-" s'.
Proof. rewrite dec_empty. destruct (Nat.to_uint n) eqn:E; cbn; try discriminate. pose proof (to_uint_nonnil n). contradiction. Qed.

Lemma decZ_comma z z' s s' : (decZ z ++ String "," s = decZ z' ++ String "," s')%string -> z = z' /\ s = s'.
Proof.
  assert (P : forall z, (0 <= z)%Z -> decZ z = dec (Z.to_nat z)) by (intros [|p|p] H; try reflexivity; lia).
  assert (N : forall z, (z < 0)%Z -> decZ z = String "-" (dec (Z.to_nat (- z)))) by (intros [|p|p] H; try reflexivity; lia).
  intros H. destruct (Z_lt_le_dec z 0) as [Hz|Hz], (Z_lt_le_dec z' 0) as [Hz'|Hz'];
    rewrite ?(P _ Hz), ?(P _ Hz'), ?(N _ Hz), ?(N _ Hz') in H; cbn [String.append] in H.
  - assert (H' : (dec (Z.to_nat (- z)) ++ String "," s)%string = (dec (Z.to_nat (- z')) ++ String "," s')%string) by congruence.
    apply dec_comma in H'. split; [lia|tauto].
  - exfalso. symmetry in H. apply dec_not_minus in H. exact H.
  - exfalso. apply dec_not_minus in H. exact H.
  - apply dec_comma in H. split; [lia|tauto].
Qed.

Lemma legend_inj o t t' nm nm' : legend o t nm = legend o t' nm' -> nm = nm' /\ ((1 < v_nt o)%nat -> t = t').
Proof.
  unfold legend. destruct (Nat.ltb_spec 1 (v_nt o)) as [H|H]; intros E.
  - apply app_inj_l in E. cbn [String.append] in E. apply decZ_comma in E. destruct E as [-> E]. split; [|reflexivity].
    exact (app_inj_l " Channel " _ _ E).
  - split; [exact (app_inj_l "Channel " _ _ E)|lia].
Qed.

(** ** Saving *)
Lemma plot_saves savefig ibis o k vb y ye rfit temps chans sf sp sn : ready o k ibis sf vb y ye rfit ->
  within (v_nt o) temps -> within (v_nc o) chans ->
  exists f, figure_of o k ibis sf vb y ye temps chans f /\
    plot savefig ibis o k temps chans sf false sp sn = ([], Ok (Some f)) /\
    let path := (sp ++ prefix_of k ++ sn ++ ".png")%string in
    (savefig path = Ok tt -> plot savefig ibis o k temps chans sf true sp sn = ([(path, f)], Ok None)) /\
    (forall e, savefig path = Err e -> plot savefig ibis o k temps chans sf true sp sn = ([], Err e)).
Proof.
  intros R Wt Wc. destruct (plot_draws savefig ibis o k vb y ye rfit temps chans sf false sp sn R Wt Wc) as (f & E & F & _).
  exists f. split; [exact F|]. split; [rewrite E; reflexivity|].
  rewrite (plot_eq savefig ibis o k temps chans sf false sp sn y ye) in E by apply R.
  rewrite (plot_eq savefig ibis o k temps chans sf true sp sn y ye) by apply R.
  cbv zeta. destruct (draw_groups _ _ _ _ _ _ _ _) as [gs|e]; [|discriminate].
  assert (Ef : mkIvfig (title_of k) gs = f) by (cbn [save_or_return] in E; congruence). rewrite Ef.
  unfold save_or_return, fig_path. split; [intros ->; reflexivity|intros e ->; reflexivity].
Qed.

Lemma method_saves savefig ibis o k vb y ye rfit temps chans sf sp sn : ready o k ibis sf vb y ye rfit ->
  within (v_nt o) temps -> within (v_nc o) chans -> savefig (sp ++ prefix_of k ++ sn ++ ".png")%string = Ok tt ->
  exists f, figure_of o k ibis sf vb y ye temps chans f /\
    unpack (plot savefig ibis o k temps chans sf true sp sn) = ([((sp ++ prefix_of k ++ sn ++ ".png")%string, f)], Err TypeError) /\
    unpack (plot savefig ibis o k temps chans sf false sp sn) = ([], Ok f).
Proof.
  intros R Wt Wc Hs. destruct (plot_saves savefig ibis o k vb y ye rfit temps chans sf sp sn R Wt Wc) as (f & F & E0 & E1 & _).
  exists f. split; [exact F|]. rewrite (E1 Hs), E0. split; reflexivity.
Qed.

Lemma all_curves savefig ibis o vb y1 e1 r1 y2 e2 r2 y3 e3 r3 temps chans sf sv sp sn :
  ready o Current ibis sf vb y1 e1 r1 -> ready o Resistance ibis sf vb y2 e2 r2 -> ready o Power ibis sf vb y3 e3 r3 ->
  within (v_nt o) temps -> within (v_nc o) chans ->
  (forall k, savefig (sp ++ prefix_of k ++ sn ++ ".png")%string = Ok tt) ->
  exists fi fr fp, figure_of o Current ibis sf vb y1 e1 temps chans fi /\ figure_of o Resistance ibis sf vb y2 e2 temps chans fr /\
    figure_of o Power ibis sf vb y3 e3 temps chans fp /\
    plot_all_curves savefig ibis o temps chans sf sv sp sn =
      (if sv then [((sp ++ "iv_curve_" ++ sn ++ ".png")%string, fi); ((sp ++ "rv_curve_" ++ sn ++ ".png")%string, fr);
                   ((sp ++ "pv_curve_" ++ sn ++ ".png")%string, fp)] else [], Ok None).
Proof.
  intros R1 R2 R3 Wt Wc Hs.
  destruct (plot_saves savefig ibis o _ _ _ _ _ temps chans sf sp sn R1 Wt Wc) as (fi & F1 & A1 & B1 & _).
  destruct (plot_saves savefig ibis o _ _ _ _ _ temps chans sf sp sn R2 Wt Wc) as (fr & F2 & A2 & B2 & _).
  destruct (plot_saves savefig ibis o _ _ _ _ _ temps chans sf sp sn R3 Wt Wc) as (fp & F3 & A3 & B3 & _).
  exists fi, fr, fp. split; [exact F1|]. split; [exact F2|]. split; [exact F3|].
  specialize (B1 (Hs Current)). specialize (B2 (Hs Resistance)). specialize (B3 (Hs Power)). cbn [plot prefix_of] in *.
  unfold plot_all_curves, then_plot. destruct sv; [rewrite B1, B2, B3|rewrite A1, A2, A3]; reflexivity.
Qed.

(** ** Objects after their analysis *)
Lemma to_rows_nonneg n f bad : (forall t c i, 0 <= f t c i) -> nonneg (to_rows n f bad).
Proof.
  intros H t c v Hv. unfold to_rows in Hv. unfold mk in Hv. apply in_map_iff in Hv. destruct Hv as (i & E & _). destruct (bad t c i); [discriminate|].
  assert (Ev : f t c i = v) by congruence. rewrite <- Ev. apply H.
Qed.

Lemma to_rows_nonempty n f bad t c : (0 < n)%nat -> to_rows n f bad t c <> [].
Proof. intros H E. apply (f_equal (@length _)) in E. unfold to_rows in E. rewrite mk_length in E. cbn in E. lia. Qed.

(** Invert a chain of binds. *)
Local Ltac binds E :=
  repeat match type of E with
  | bind ?m _ = Ok _ => let X := fresh "X" in destruct m eqn:X; cbn [bind] in E; [|discriminate E]
  | (let (_, _) := ?p in _) = Ok _ => destruct p
  end.

Lemma iv_ready cf o r names k sf : calc_iv cf o = Ok r -> length names = nc o -> (0 < ni o)%nat ->
  exists vb y ye rfit, ready (iv_object o r names) k false sf vb y ye rfit.
Proof.
  intros E Hn Hi. unfold calc_iv in E. binds E.
  match type of E with Ok ?x = Ok _ => assert (Er : x = r) by congruence end. clear E. subst r.
  destruct k; do 4 eexists; constructor; try reflexivity; try discriminate; try exact Hn; intros;
    solve [apply to_rows_nonneg; intros; apply sqrt_pos | apply to_rows_nonempty; exact Hi].
Qed.

Lemma ibis_ready cf o yo yoe xo xoe r names k sf : analyze cf o yo yoe xo xoe = Ok r -> length names = bc o -> (0 < bi o)%nat ->
  exists vb y ye rfit, ready (ibis_object o r names) k true sf vb y ye rfit.
Proof.
  intros E Hn Hi. unfold analyze in E. binds E.
  match type of E with Ok ?x = Ok _ => assert (Er : x = r) by congruence end. clear E. subst r.
  destruct k; do 4 eexists; constructor; try reflexivity; try exact Hn; intros;
    solve [apply to_rows_nonneg; intros; apply sqrt_pos | apply to_rows_nonempty; exact Hi
          | eexists; split; [reflexivity|]; apply to_rows_nonneg; intros; apply sqrt_pos | discriminate].
Qed.

(** The values behind drawn points. *)
Lemma in_unit_nth u row drawn n x : in_unit u row drawn -> nth_error drawn n = Some (Some x) ->
  exists v, nth_error row n = Some (Some v) /\ x = v * u.
Proof.
  intros H. revert n. induction H as [|v d row drawn Hv _ IH]; intros [|n] E; try discriminate; cbn [nth_error] in *; [|apply IH; exact E].
  assert (Ed : d = Some x) by congruence. subst d. destruct v as [v|]; [|contradiction]. exists v. split; [reflexivity|exact Hv].
Qed.

Lemma to_rows_nth n f bad t c i v : nth_error (to_rows n f bad t c) i = Some (Some v) -> (i < n)%nat /\ f t c i = v.
Proof.
  unfold to_rows. rewrite mk_nth_error. destruct (Nat.ltb_spec i n); [|discriminate]. destruct (bad t c i); [discriminate|].
  intros E. split; [assumption|congruence].
Qed.

Section Consistent.
Context (savefig : string -> res unit) (ibis : bool) (o : ivobj) (n : nat) (V I R_ P : arr3) (bV bI bR bP : nat -> nat -> nat -> bool).
Hypothesis Rd : forall k, exists vb y ye rfit, ready o k ibis false vb y ye rfit.
Hypothesis HV : v_vb o = Some (to_rows n V bV).
Hypothesis HI : v_ites o = Some (to_rows n I bI).
Hypothesis HR : v_r0 o = Some (to_rows n R_ bR).
Hypothesis HP : v_ptes o = Some (to_rows n P bP).
Hypothesis Joule : forall t c i, (t < v_nt o)%nat -> (c < v_nc o)%nat -> (i < n)%nat -> I t c i <> 0 -> P t c i = I t c i ^ 2 * R_ t c i.

Lemma figures_agree temps chans sp sn : within (v_nt o) temps -> within (v_nc o) chans ->
  exists fi fr fp, plot savefig ibis o Current temps chans false false sp sn = ([], Ok (Some fi)) /\
    plot savefig ibis o Resistance temps chans false false sp sn = ([], Ok (Some fr)) /\
    plot savefig ibis o Power temps chans false false sp sn = ([], Ok (Some fp)) /\
    forall a b t c, chosen (v_nt o) temps a t -> chosen (v_nc o) chans b c ->
      exists gi gr gp, nth_error (i_groups fi) (a * how_many (v_nc o) chans + b) = Some gi /\
        nth_error (i_groups fr) (a * how_many (v_nc o) chans + b) = Some gr /\
        nth_error (i_groups fp) (a * how_many (v_nc o) chans + b) = Some gp /\
        g_label gi = g_label gr /\ g_label gr = g_label gp /\
        forall m x i x' r x'' p, point (g_points gi) m x i -> point (g_points gr) m x' r -> point (g_points gp) m x'' p ->
          x = x' /\ x' = x'' /\ (i <> 0 -> p = i ^ 2 * r / 1000).
Proof.
  intros Wt Wc.
  destruct (Rd Current) as (vb1 & y1 & e1 & f1 & R1). destruct (Rd Resistance) as (vb2 & y2 & e2 & f2 & R2). destruct (Rd Power) as (vb3 & y3 & e3 & f3 & R3).
  destruct (plot_saves savefig ibis o _ _ _ _ _ temps chans false sp sn R1 Wt Wc) as (fi & (_ & _ & F1) & A1 & _).
  destruct (plot_saves savefig ibis o _ _ _ _ _ temps chans false sp sn R2 Wt Wc) as (fr & (_ & _ & F2) & A2 & _).
  destruct (plot_saves savefig ibis o _ _ _ _ _ temps chans false sp sn R3 Wt Wc) as (fp & (_ & _ & F3) & A3 & _).
  exists fi, fr, fp. split; [exact A1|]. split; [exact A2|]. split; [exact A3|].
  intros a b t c Ha Hb. destruct (Wt a t Ha) as [i Hi]. destruct (Wc b c Hb) as [j Hj].
  destruct (F1 a b t c i j Ha Hb Hi Hj) as (gi & N1 & _ & S1). destruct (F2 a b t c i j Ha Hb Hi Hj) as (gr & N2 & _ & S2).
  destruct (F3 a b t c i j Ha Hb Hi Hj) as (gp & N3 & _ & S3). exists gi, gr, gp. split; [exact N1|]. split; [exact N2|]. split; [exact N3|].
  destruct (shows_label _ _ _ _ _ _ _ _ _ _ _ S1) as (m1 & M1 & L1). destruct (shows_label _ _ _ _ _ _ _ _ _ _ _ S2) as (m2 & M2 & L2).
  destruct (shows_label _ _ _ _ _ _ _ _ _ _ _ S3) as (m3 & M3 & L3).
  split; [congruence|]. split; [congruence|].
  pose proof (ready_vb _ _ _ _ _ _ _ _ R1) as W1. pose proof (ready_vb _ _ _ _ _ _ _ _ R2) as W2. pose proof (ready_vb _ _ _ _ _ _ _ _ R3) as W3.
  pose proof (ready_y _ _ _ _ _ _ _ _ R1) as Y1. pose proof (ready_y _ _ _ _ _ _ _ _ R2) as Y2. pose proof (ready_y _ _ _ _ _ _ _ _ R3) as Y3.
  cbn [quantity] in Y1, Y2, Y3.
  assert (vb1 = to_rows n V bV) by congruence. assert (vb2 = to_rows n V bV) by congruence. assert (vb3 = to_rows n V bV) by congruence.
  assert (y1 = to_rows n I bI) by congruence. assert (y2 = to_rows n R_ bR) by congruence. assert (y3 = to_rows n P bP) by congruence.
  subst vb1 vb2 vb3 y1 y2 y3.
  destruct (shows_values _ _ _ _ _ _ _ _ _ _ _ S1 _ (or_introl eq_refl)) as [U1 V1].
  destruct (shows_values _ _ _ _ _ _ _ _ _ _ _ S2 _ (or_introl eq_refl)) as [U2 V2].
  destruct (shows_values _ _ _ _ _ _ _ _ _ _ _ S3 _ (or_introl eq_refl)) as [U3 V3].
  intros m x ii x' rr x'' pp [P1 Q1] [P2 Q2] [P3 Q3].
  destruct (in_unit_nth _ _ _ _ _ U1 P1) as (v1 & X1 & ->). destruct (in_unit_nth _ _ _ _ _ U2 P2) as (v2 & X2 & ->). destruct (in_unit_nth _ _ _ _ _ U3 P3) as (v3 & X3 & ->).
  destruct (in_unit_nth _ _ _ _ _ V1 Q1) as (w1 & Z1 & ->). destruct (in_unit_nth _ _ _ _ _ V2 Q2) as (w2 & Z2 & ->). destruct (in_unit_nth _ _ _ _ _ V3 Q3) as (w3 & Z3 & ->).
  assert (v2 = v1) by congruence. assert (v3 = v1) by congruence. subst v2 v3. split; [reflexivity|]. split; [reflexivity|].
  apply to_rows_nth in Z1. destruct Z1 as [Hm <-]. apply to_rows_nth in Z2. destruct Z2 as [_ <-]. apply to_rows_nth in Z3. destruct Z3 as [_ <-].
  cbn [unit_of]. intros Hne. rewrite Joule; [|apply Hi|apply Hj|exact Hm|]; [lra|]. intros E0. apply Hne. rewrite E0. ring.
Qed.
End Consistent.

Lemma iv_figures_agree savefig cf o r names temps chans sp sn : calc_iv cf o = Ok r -> length names = nc o -> (0 < ni o)%nat ->
  let p := iv_object o r names in within (nt o) temps -> within (nc o) chans ->
  exists fi fr fp, plot savefig false p Current temps chans false false sp sn = ([], Ok (Some fi)) /\
    plot savefig false p Resistance temps chans false false sp sn = ([], Ok (Some fr)) /\
    plot savefig false p Power temps chans false false sp sn = ([], Ok (Some fp)) /\
    forall a b t c, chosen (nt o) temps a t -> chosen (nc o) chans b c ->
      exists gi gr gp, nth_error (i_groups fi) (a * how_many (nc o) chans + b) = Some gi /\
        nth_error (i_groups fr) (a * how_many (nc o) chans + b) = Some gr /\
        nth_error (i_groups fp) (a * how_many (nc o) chans + b) = Some gp /\
        g_label gi = g_label gr /\ g_label gr = g_label gp /\
        forall m x i x' r x'' p, point (g_points gi) m x i -> point (g_points gr) m x' r -> point (g_points gp) m x'' p ->
          x = x' /\ x' = x'' /\ (i <> 0 -> p = i ^ 2 * r / 1000).
Proof.
  intros E Hn Hi p Wt Wc.
  refine (figures_agree savefig false p (ni o) _ _ _ _ _ _ _ _ _ eq_refl eq_refl eq_refl eq_refl _ temps chans sp sn Wt Wc).
  - intros k. exact (iv_ready cf o r names k false E Hn Hi).
  - intros t c i _ _ _ _. unfold calc_iv in E. binds E. match type of E with Ok ?x = Ok _ => assert (Er : x = r) by congruence end. rewrite <- Er. reflexivity.
Qed.

Lemma ibis_figures_agree savefig cf o yoe xoe r names temps chans sp sn : analyze cf o ONone yoe ONone xoe = Ok r -> length names = bc o -> (0 < bi o)%nat ->
  let p := ibis_object o r names in within (bt o) temps -> within (bc o) chans ->
  exists fi fr fp, plot savefig true p Current temps chans false false sp sn = ([], Ok (Some fi)) /\
    plot savefig true p Resistance temps chans false false sp sn = ([], Ok (Some fr)) /\
    plot savefig true p Power temps chans false false sp sn = ([], Ok (Some fp)) /\
    forall a b t c, chosen (bt o) temps a t -> chosen (bc o) chans b c ->
      exists gi gr gp, nth_error (i_groups fi) (a * how_many (bc o) chans + b) = Some gi /\
        nth_error (i_groups fr) (a * how_many (bc o) chans + b) = Some gr /\
        nth_error (i_groups fp) (a * how_many (bc o) chans + b) = Some gp /\
        g_label gi = g_label gr /\ g_label gr = g_label gp /\
        forall m x i x' r x'' p, point (g_points gi) m x i -> point (g_points gr) m x' r -> point (g_points gp) m x'' p ->
          x = x' /\ x' = x'' /\ (i <> 0 -> p = i ^ 2 * r / 1000).
Proof.
  intros E Hn Hi p Wt Wc.
  refine (figures_agree savefig true p (bi o) _ _ _ _ _ _ _ _ _ eq_refl eq_refl eq_refl eq_refl _ temps chans sp sn Wt Wc).
  - intros k. exact (ibis_ready cf o _ _ _ _ r names k false E Hn Hi).
  - intros t c i _ _ _ Hne. unfold analyze in E. cbn [use_off] in E. binds E.
    match type of E with Ok ?x = Ok _ => assert (Er : x = r) by congruence end. rewrite <- Er in Hne |- *.
    cbn [o_ites o_ptes o_r0] in *. unfold ptes, rtes. field. exact Hne.
Qed.

(** ** The drawn rows in terms of the analysed object *)
Lemma forall2_nth {A B} (P : A -> B -> Prop) l l' : Forall2 P l l' -> forall m v d,
  nth_error l m = Some v -> nth_error l' m = Some d -> P v d.
Proof. intros H. induction H; intros [|m] v d E1 E2; cbn [nth_error] in *; try discriminate; [congruence|eauto]. Qed.

Lemma to_rows_drawn n f bad g u t c row : in_unit u (to_rows n f bad t c) row ->
  (forall m, bad t c m = true <-> g m) -> drawn_row n g (f t c) u row.
Proof.
  intros H Hg. assert (L : length row = n) by (transitivity (length (to_rows n f bad t c)); [clear Hg; symmetry; induction H; cbn; congruence|unfold to_rows; apply mk_length]).
  split; [exact L|]. intros m Hm.
  destruct (nth_error_lt row m ltac:(lia)) as [d Ed].
  assert (Ev : nth_error (to_rows n f bad t c) m = Some (if bad t c m then None else Some (f t c m))).
  { unfold to_rows. rewrite mk_nth_error. destruct (Nat.ltb_spec m n); [reflexivity|lia]. }
  assert (P : match (if bad t c m then None else Some (f t c m)), d with Some v, Some d => d = v * u | None, None => True | _, _ => False end).
  { exact (forall2_nth _ _ _ H m _ _ Ev Ed). }
  specialize (Hg m). split; intros Hx; rewrite Ed; f_equal.
  - apply Hg in Hx. rewrite Hx in P. destruct d; [contradiction|reflexivity].
  - destruct (bad t c m); [exfalso; apply Hx; tauto|]. destruct d; [|contradiction]. congruence.
Qed.

Lemma iv_drawn savefig cf o r names temps chans k sp sn : calc_iv cf o = Ok r -> length names = nc o -> (0 < ni o)%nat ->
  within (nt o) temps -> within (nc o) chans ->
  exists f, plot savefig false (iv_object o r names) k temps chans false false sp sn = ([], Ok (Some f)) /\
    forall a b t c i j, chosen (nt o) temps a t -> chosen (nc o) chans b c -> place (nt o) t i -> place (nc o) c j ->
      let mis x := missing (nc o) (ni o) x i j in
      exists g, nth_error (i_groups f) (a * how_many (nc o) chans + b) = Some g /\ g_xerr g = None /\
        (forall p, p = g_points g \/ p = g_line g \/ p = g_bars g ->
          drawn_row (ni o) (mis (vb o)) (at3 (nc o) (ni o) (vb o) i j) (10 ^ 6) (fst p) /\
          drawn_row (ni o) (fun m => gone k (mis (vb o) m) (mis (dites o) m))
            (of_kind k (iv_ites r) (iv_r0 r) (iv_ptes r) i j) (unit_of k) (snd p)) /\
        drawn_row (ni o) (fun m => gone_err k (mis (vb o) m) (mis (dites o) m) (mis (vb_err o) m) (mis (dites_err o) m))
          (of_kind k (iv_ites_err r) (iv_r0_err r) (iv_ptes_err r) i j) (unit_of k) (g_yerr g).
Proof.
  intros E Hn Hi Wt Wc. set (p := iv_object o r names).
  destruct (iv_ready cf o r names k false E Hn Hi) as (V & Y & YE & F & Rd). fold p in Rd.
  destruct (plot_saves savefig false p k V Y YE F temps chans false sp sn Rd Wt Wc) as (f & (_ & _ & Sh) & Pl & _).
  exists f. split; [exact Pl|]. intros a b t c i j Ha Hb Hpi Hpj mis.
  destruct (Sh a b t c i j Ha Hb Hpi Hpj) as (g & Ng & _ & S). exists g. split; [exact Ng|].
  destruct S as [_ Sv Se Sx _]. split; [destruct (g_xerr g); [destruct Sx; discriminate|reflexivity]|].
  pose proof (ready_vb _ _ _ _ _ _ _ _ Rd) as Ev. pose proof (ready_y _ _ _ _ _ _ _ _ Rd) as Ey. pose proof (ready_ye _ _ _ _ _ _ _ _ Rd) as Ee.
  split; [intros q Hq; destruct (Sv q Hq) as [S1 S2]; split|].
  - cbn in Ev. match type of Ev with Some ?x = _ => assert (EV : V = x) by congruence end. rewrite EV in S1.
    eapply to_rows_drawn; [exact S1|]. intros m. unfold mis, missing, nan3. reflexivity.
  - destruct k; cbn in Ey; match type of Ey with Some ?x = _ => assert (EY : Y = x) by congruence end; rewrite EY in S2;
      (eapply to_rows_drawn; [exact S2|]); intros m; unfold mis, gone, missing, nan3; rewrite ?orb_true_iff; tauto.
  - destruct k; cbn in Ee; match type of Ee with Some ?x = _ => assert (EE : YE = x) by congruence end; rewrite EE in Se;
      (eapply to_rows_drawn; [exact Se|]); intros m; unfold mis, gone_err, missing, nan3; rewrite ?orb_true_iff; tauto.
Qed.

Lemma ibis_drawn savefig cf o yo yoe xo xoe r names temps chans k sp sn : analyze cf o yo yoe xo xoe = Ok r -> length names = bc o -> (0 < bi o)%nat ->
  within (bt o) temps -> within (bc o) chans ->
  exists f, plot savefig true (ibis_object o r names) k temps chans false false sp sn = ([], Ok (Some f)) /\
    forall a b t c i j, chosen (bt o) temps a t -> chosen (bc o) chans b c -> place (bt o) t i -> place (bc o) c j ->
      let mis x := missing (bc o) (bi o) x i j in
      exists g ex, nth_error (i_groups f) (a * how_many (bc o) chans + b) = Some g /\ g_xerr g = Some ex /\
        (forall p, p = g_points g \/ p = g_line g \/ p = g_bars g ->
          drawn_row (bi o) (mis (b_ibias o)) (o_vb r i j) (10 ^ 6) (fst p) /\
          drawn_row (bi o) (fun m => gone k (mis (b_ibias o) m) (mis (b_dites o) m))
            (of_kind k (o_ites r) (o_r0 r) (o_ptes r) i j) (unit_of k) (snd p)) /\
        drawn_row (bi o) (fun m => gone_err k (mis (b_ibias o) m) (mis (b_dites o) m) (mis (b_ibias_err o) m) (mis (b_dites_err o) m))
          (of_kind k (o_ites_err r) (o_r0_err r) (o_ptes_err r) i j) (unit_of k) (g_yerr g) /\
        drawn_row (bi o) (fun m => mis (b_ibias o) m \/ mis (b_ibias_err o) m) (o_vb_err r i j) (10 ^ 6) ex.
Proof.
  intros E Hn Hi Wt Wc. set (p := ibis_object o r names).
  destruct (ibis_ready cf o yo yoe xo xoe r names k false E Hn Hi) as (V & Y & YE & F & Rd). fold p in Rd.
  destruct (plot_saves savefig true p k V Y YE F temps chans false sp sn Rd Wt Wc) as (f & (_ & _ & Sh) & Pl & _).
  exists f. split; [exact Pl|]. intros a b t c i j Ha Hb Hpi Hpj mis.
  destruct (Sh a b t c i j Ha Hb Hpi Hpj) as (g & Ng & _ & S).
  destruct S as [_ Sv Se Sx _]. destruct (g_xerr g) as [ex|] eqn:Ex; [|discriminate]. exists g, ex. split; [exact Ng|]. split; [exact Ex|].
  destruct Sx as (_ & vbe & Evb & Sx).
  pose proof (ready_vb _ _ _ _ _ _ _ _ Rd) as Ev. pose proof (ready_y _ _ _ _ _ _ _ _ Rd) as Ey. pose proof (ready_ye _ _ _ _ _ _ _ _ Rd) as Ee.
  split; [intros q Hq; destruct (Sv q Hq) as [S1 S2]; split|split].
  - cbn in Ev. match type of Ev with Some ?x = _ => assert (EV : V = x) by congruence end. rewrite EV in S1.
    eapply to_rows_drawn; [exact S1|]. intros m. unfold mis, missing, nan3. reflexivity.
  - destruct k; cbn in Ey; match type of Ey with Some ?x = _ => assert (EY : Y = x) by congruence end; rewrite EY in S2;
      (eapply to_rows_drawn; [exact S2|]); intros m; unfold mis, gone, missing, nan3; rewrite ?orb_true_iff; tauto.
  - destruct k; cbn in Ee; match type of Ee with Some ?x = _ => assert (EE : YE = x) by congruence end; rewrite EE in Se;
      (eapply to_rows_drawn; [exact Se|]); intros m; unfold mis, gone_err, missing, nan3; rewrite ?orb_true_iff; tauto.
  - cbn in Evb. match type of Evb with Some ?x = _ => assert (EV : vbe = x) by congruence end. rewrite EV in Sx.
    eapply to_rows_drawn; [exact Sx|]. intros m. unfold mis, missing, nan3. rewrite orb_true_iff. tauto.
Qed.
