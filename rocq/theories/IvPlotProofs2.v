(** * Proofs about the current, resistance and power plots: the figures *)
From Coq Require Import String Ascii.
From Verif Require Import Base ListLemmas UtilsModel IvModel PlotModel PlotSpec PlotProofs3 IvPlotModel IvPlotSpec IvPlotProofs.
Open Scope R_scope.

Definition fig_path (k : kind) (savepath savename : string) : string := (savepath ++ prefix_of k ++ savename ++ ".png")%string.

(** What the three plots do, in one formula. *)
Definition unit_lit (k : kind) : R := match k with Current => 1000000 | Resistance => 1000 | Power => 1000000000000 end.
Lemma unit_lit_eq k : unit_lit k = unit_of k. Proof. destruct k; cbn; ring. Qed.
Lemma unit_nonneg k : 0 <= unit_lit k. Proof. destruct k; cbn; lra. Qed.

Lemma plot_eq savefig ibis o k temps chans sf sv sp sn y ye : quantity k o = Some y -> quantity_err k o = Some ye ->
  plot savefig ibis o k temps chans sf sv sp sn =
  match draw_groups ibis o (Some y) (Some ye) (unit_lit k) (has_fit k sf) (selected (v_nt o) temps) (selected (v_nc o) chans) with
  | Err e => ([], Err e)
  | Ok gs => save_or_return savefig sv (fig_path k sp sn) (mkIvfig (title_of k) gs)
  end.
Proof.
  intros Hy He. destruct k; cbn [quantity quantity_err] in Hy, He; cbn [plot has_fit unit_lit title_of];
    [unfold plot_iv|unfold plot_rv|unfold plot_pv]; rewrite ?Hy, ?He; reflexivity.
Qed.

Lemma within_place n s z : within n s -> In z (selected n s) -> exists i, place n z i.
Proof. intros H Hin. apply In_nth_error in Hin. destruct Hin as [k Hk]. apply selected_chosen in Hk. exact (H k z Hk). Qed.

Lemma turn_ok ibis o k vb y ye rfit sf kcol t c : ready o k ibis sf vb y ye rfit ->
  (exists i, place (v_nt o) t i) -> (exists j, place (v_nc o) c j) ->
  exists g, draw_group ibis o (Some y) (Some ye) (unit_lit k) (has_fit k sf) kcol t c = Ok g.
Proof.
  intros R [i Hi] [j Hj]. destruct R as [R1 R2 R3 R4 R5 R6 R7 R8].
  destruct (axis_name o c j R7 Hj) as (nm & Hnm & _).
  assert (Hb : exists vbe, ibis = true -> v_vb_err o = Some vbe /\ nonneg vbe).
  { destruct ibis; [destruct (R5 eq_refl) as [vbe H]; exists vbe; intros _; exact H|exists y; discriminate]. }
  destruct Hb as [vbe Hb].
  assert (Hf : exists fl, if has_fit k sf then exists f, fit_line o (vb i j) t c = Ok f /\ fl = Some f else fl = None).
  { destruct (has_fit k sf); [|exists None; reflexivity].
    destruct (fit_line_total o (vb i j) rfit t c i j R6 Hi Hj (R8 eq_refl i j)) as [f Ef]. exists (Some f). eauto. }
  destruct Hf as [fl Hf]. eexists. exact (draw_group_ok ibis o vb vbe y ye _ _ kcol t c i j nm fl R1 (unit_nonneg k) R4 Hb R7 Hi Hj Hnm Hf).
Qed.

Lemma turn_shows ibis o k vb y ye rfit sf kcol t c i j g : ready o k ibis sf vb y ye rfit ->
  place (v_nt o) t i -> place (v_nc o) c j ->
  draw_group ibis o (Some y) (Some ye) (unit_lit k) (has_fit k sf) kcol t c = Ok g ->
  g_colour g = kcol /\ shows o k ibis sf vb y ye t i j g /\
  forall f, g_fit g = Some f -> fit_line o (vb i j) t c = Ok f.
Proof.
  intros R Hi Hj E. destruct R as [R1 R2 R3 R4 R5 R6 R7 R8].
  destruct (axis_name o c j R7 Hj) as (nm & Hnm & _).
  assert (Hb : exists vbe, ibis = true -> v_vb_err o = Some vbe /\ nonneg vbe).
  { destruct ibis; [destruct (R5 eq_refl) as [vbe H]; exists vbe; intros _; exact H|exists y; discriminate]. }
  destruct Hb as [vbe Hb].
  assert (Hf : exists fl, if has_fit k sf then exists f, fit_line o (vb i j) t c = Ok f /\ fl = Some f else fl = None).
  { destruct (has_fit k sf); [|exists None; reflexivity].
    destruct (fit_line_total o (vb i j) rfit t c i j R6 Hi Hj (R8 eq_refl i j)) as [f Ef]. exists (Some f). eauto. }
  destruct Hf as [fl Hf]. 
  rewrite (draw_group_ok ibis o vb vbe y ye _ _ kcol t c i j nm fl R1 (unit_nonneg k) R4 Hb R7 Hi Hj Hnm Hf) in E.
  assert (Eg : g = group_of ibis o vb vbe y ye (unit_lit k) kcol t i j nm fl) by congruence. subst g. clear E.
  assert (T : 10 ^ 6 = 1000000) by ring.
  split; [reflexivity|]. split.
  - constructor; cbn [group_of g_label g_points g_line g_bars g_yerr g_xerr g_fit]; rewrite <- ?unit_lit_eq, ?T.
    + exists nm. split; [exact Hnm|reflexivity].
    + intros p [-> | [-> | ->]]; cbn [fst snd]; split; apply scaled_in_unit.
    + apply scaled_in_unit.
    + destruct ibis; [|reflexivity]. destruct (Hb eq_refl) as [Hb1 _]. split; [reflexivity|]. exists vbe. split; [exact Hb1|apply scaled_in_unit].
    + destruct (has_fit k sf); [destruct Hf as (f & _ & ->); reflexivity|subst fl; reflexivity].
  - cbn [group_of g_fit]. intros f ->. destruct (has_fit k sf); [destruct Hf as (f' & Hf & Ef)|discriminate]. congruence.
Qed.

(** The two loops. *)
Definition turns (ts cs : list Z) : list (nat * Z * (nat * Z)) := list_prod (combine (seq 0 (length ts)) ts) (combine (seq 0 (length cs)) cs).

Lemma turns_in ts cs p : In p (turns ts cs) -> In (snd (fst p)) ts /\ In (snd (snd p)) cs.
Proof.
  destruct p as [p q]. intros H. apply in_prod_iff in H. destruct H as [H1 H2]. apply in_pairs in H1. apply in_pairs in H2.
  split; eapply nth_error_In; eassumption.
Qed.

Lemma plot_draws savefig ibis o k vb y ye rfit temps chans sf sv sp sn : ready o k ibis sf vb y ye rfit ->
  within (v_nt o) temps -> within (v_nc o) chans ->
  exists f, plot savefig ibis o k temps chans sf sv sp sn = save_or_return savefig sv (fig_path k sp sn) f /\
    figure_of o k ibis sf vb y ye temps chans f /\
    forall a b t c i j, chosen (v_nt o) temps a t -> chosen (v_nc o) chans b c -> place (v_nt o) t i -> place (v_nc o) c j ->
      forall g l, nth_error (i_groups f) (a * how_many (v_nc o) chans + b) = Some g -> g_fit g = Some l -> fit_line o (vb i j) t c = Ok l.
Proof.
  intros R Wt Wc. rewrite (plot_eq _ _ _ _ _ _ _ _ _ _ y ye) by apply R.
  set (ts := selected (v_nt o) temps). set (cs := selected (v_nc o) chans).
  assert (E : exists gs, draw_groups ibis o (Some y) (Some ye) (unit_lit k) (has_fit k sf) ts cs = Ok gs).
  { apply each_total. intros p Hp. apply turns_in in Hp. destruct Hp as [H1 H2].
    eapply turn_ok; [exact R|exact (within_place _ _ _ Wt H1)|exact (within_place _ _ _ Wc H2)]. }
  destruct E as [gs E]. rewrite E. exists (mkIvfig (title_of k) gs). split; [reflexivity|].
  unfold draw_groups in E. apply each_nth in E. destruct E as [L N].
  rewrite prod_length, !combine_length, !seq_length, !Nat.min_id in L. unfold ts, cs in L. rewrite !selected_length in L.
  assert (G : forall a b t c i j, chosen (v_nt o) temps a t -> chosen (v_nc o) chans b c -> place (v_nt o) t i -> place (v_nc o) c j ->
    exists g, nth_error gs (a * how_many (v_nc o) chans + b) = Some g /\
      draw_group ibis o (Some y) (Some ye) (unit_lit k) (has_fit k sf) (a * how_many (v_nc o) chans + b) t c = Ok g).
  { intros a b t c i j Ha Hb Hi Hj. apply selected_chosen in Ha. apply selected_chosen in Hb.
    pose proof (nth_error_list_prod _ _ _ _ _ _ (combine_seq_nth _ _ _ Ha) (combine_seq_nth _ _ _ Hb)) as Hp.
    destruct (N _ _ Hp) as (g & Hg & Eg). cbn [fst snd] in Eg.
    assert (Lc : length (combine (seq 0 (length (selected (v_nc o) chans))) (selected (v_nc o) chans)) = how_many (v_nc o) chans)
      by (rewrite combine_length, seq_length, Nat.min_id; apply selected_length).
    rewrite Lc in Hg. unfold cs in Eg. rewrite selected_length in Eg. exists g. split; [exact Hg|exact Eg]. }
  split.
  - split; [reflexivity|]. split; [exact L|]. intros a b t c i j Ha Hb Hi Hj. destruct (G _ _ _ _ _ _ Ha Hb Hi Hj) as (g & Hg & Eg).
    exists g. split; [exact Hg|]. destruct (turn_shows _ _ _ _ _ _ _ _ _ _ _ _ _ _ R Hi Hj Eg) as (C & S & _). split; assumption.
  - intros a b t c i j Ha Hb Hi Hj g l Hg El. destruct (G _ _ _ _ _ _ Ha Hb Hi Hj) as (g' & Hg' & Eg). cbn [i_groups] in Hg.
    assert (g' = g) by congruence. subst g'. exact (proj2 (proj2 (turn_shows _ _ _ _ _ _ _ _ _ _ _ _ _ _ R Hi Hj Eg)) l El).
Qed.

(** A group whose bias row has no missing value: the fit line. *)
Lemma plot_fit savefig ibis o vb y ye rfit temps chans sp sn : ready o Current ibis true vb y ye rfit ->
  within (v_nt o) temps -> within (v_nc o) chans ->
  exists f, plot savefig ibis o Current temps chans true false sp sn = ([], Ok (Some f)) /\
    forall a b t c i j, chosen (v_nt o) temps a t -> chosen (v_nc o) chans b c -> place (v_nt o) t i -> place (v_nc o) c j ->
      ~ In None (vb i j) ->
      exists g l e, nth_error (i_groups f) (a * how_many (v_nc o) chans + b) = Some g /\ g_fit g = Some l /\
        farthest (vb i j) e /\ line_from_origin (rfit i j) (e * 10 ^ 6) l.
Proof.
  intros R Wt Wc. destruct (plot_draws savefig ibis o Current vb y ye rfit temps chans true false sp sn R Wt Wc) as (f & E & F & H).
  exists f. split; [rewrite E; reflexivity|]. intros a b t c i j Ha Hb Hi Hj Hn.
  destruct F as (_ & _ & F). destruct (F _ _ _ _ _ _ Ha Hb Hi Hj) as (g & Hg & _ & S).
  pose proof (shows_fit _ _ _ _ _ _ _ _ _ _ _ S) as Sf. destruct (g_fit g) as [l|] eqn:El; [|discriminate].
  pose proof (H _ _ _ _ _ _ Ha Hb Hi Hj g l Hg El) as Hl.
  destruct (fit_line_ok o (vb i j) rfit t c i j (ready_rfit _ _ _ _ _ _ _ _ R) Hi Hj (ready_points _ _ _ _ _ _ _ _ R eq_refl i j) Hn) as (l' & e & El' & Fe & Le).
  assert (l' = l) by congruence. subst l'. exists g, l, e. auto.
Qed.

(** Choices outside the data. *)
Lemma plot_range savefig ibis o k vb y ye rfit temps chans sf sv sp sn a t b c : ready o k ibis sf vb y ye rfit ->
  chosen (v_nt o) temps a t -> chosen (v_nc o) chans b c ->
  (forall i, ~ place (v_nt o) t i) \/ (forall j, ~ place (v_nc o) c j) ->
  plot savefig ibis o k temps chans sf sv sp sn = ([], Err IndexError).
Proof.
  intros R Ha Hb H. rewrite (plot_eq _ _ _ _ _ _ _ _ _ _ y ye) by apply R.
  assert (E : draw_groups ibis o (Some y) (Some ye) (unit_lit k) (has_fit k sf) (selected (v_nt o) temps) (selected (v_nc o) chans) = Err IndexError);
    [|rewrite E; reflexivity].
  apply each_err.
  - intros [[a' t'] [b' c']] _. cbn [fst snd]. destruct (place_dec (v_nt o) t') as [Ht|Ht]; [destruct (place_dec (v_nc o) c') as [Hc|Hc]|].
    + left. eapply turn_ok; eassumption.
    + right. eapply draw_group_range; [apply R|apply R|now right].
    + right. eapply draw_group_range; [apply R|apply R|now left].
  - apply selected_chosen in Ha. apply selected_chosen in Hb.
    exists ((a, t), (b, c)). split; [|cbn [fst snd]; eapply draw_group_range; [apply R|apply R|exact H]].
    apply in_prod_iff. split; eapply nth_error_In; apply combine_seq_nth; eassumption.
Qed.

(** Before the analysis. *)
Lemma plot_unanalysed savefig ibis o temps chans sf sv sp sn :
  (v_r0 o = None -> plot savefig ibis o Resistance temps chans sf sv sp sn = ([], Err AttributeError)) /\
  (v_ptes o = None -> plot savefig ibis o Power temps chans sf sv sp sn = ([], Err AttributeError)) /\
  (v_ites o = None -> length (v_names o) = v_nc o ->
   forall a t b c, chosen (v_nt o) temps a t -> chosen (v_nc o) chans b c -> within (v_nt o) temps -> within (v_nc o) chans ->
   plot savefig ibis o Current temps chans sf sv sp sn = ([], Err TypeError)).
Proof.
  split; [intros H; cbn [plot]; unfold plot_rv; rewrite H; reflexivity|].
  split; [intros H; cbn [plot]; unfold plot_pv; rewrite H; reflexivity|].
  intros H Hn a t b c Ha Hb Wt Wc. cbn [plot]. unfold plot_iv. rewrite H.
  assert (E : draw_groups ibis o None (v_ites_err o) 1000000 sf (selected (v_nt o) temps) (selected (v_nc o) chans) = Err TypeError);
    [|rewrite E; reflexivity].
  assert (X : forall kcol t c, (exists i, place (v_nt o) t i) -> (exists j, place (v_nc o) c j) ->
    draw_group ibis o None (v_ites_err o) 1000000 sf kcol t c = Err TypeError).
  { intros kcol t' c' [i Hi] [j Hj]. unfold draw_group. rewrite Hn, (axis_index_place _ _ _ Hj). cbn [bind]. unfold row_at at 1.
    destruct (axis_name o c' j Hn Hj) as (nm & -> & _). cbn [bind].
    destruct (v_vb o) as [vb|]; [|reflexivity]. rewrite (at_rows_ok o vb _ _ _ _ Hi Hj). reflexivity. }
  apply each_err.
  - intros p Hp. apply turns_in in Hp. destruct Hp as [H1 H2]. right. apply X; eapply within_place; eassumption.
  - apply selected_chosen in Ha. apply selected_chosen in Hb.
    exists ((a, t), (b, c)). split.
    + apply in_prod_iff. split; eapply nth_error_In; apply combine_seq_nth; eassumption.
    + cbn [fst snd]. apply X; [exact (within_place _ _ _ Wt (nth_error_In _ _ Ha))|exact (within_place _ _ _ Wc (nth_error_In _ _ Hb))].
Qed.
