(** * Properties C125-C128: the current, resistance and power plots of IV and IBIS *)
From Coq Require Import String Ascii.
From Verif Require Import Base ListLemmas UtilsModel IvModel PlotModel IvPlotModel IvPlotSpec IvPlotProofs IvPlotProofs2 IvPlotProofs3.
Open Scope R_scope.

(** Two temperatures, one channel, bias points 2 and 1 (the second temperature -1 and missing). *)
Definition ex_rows (l l' : list (option R)) : rows := fun t _ => match t with O => l | _ => l' end.
Definition ex_vb := ex_rows [Some 2; Some 1] [Some (-1); None].
Definition ex_one := ex_rows [Some 1; Some 1] [Some 1; None].
Definition ex_obj : ivobj :=
  mkObj 2 1 ["A"%string] (Some ex_vb) (Some ex_one) (Some ex_one) (Some ex_one) (Some ex_one) (Some ex_one) (Some ex_one) (Some ex_one)
    (Some (fun _ _ => 4)).

Lemma ex_one_nonneg : nonneg ex_one.
Proof. intros [|t] c v H; cbn in H; destruct H as [H|[H|[]]]; try discriminate; assert (v = 1) by congruence; lra. Qed.

Lemma ex_ready k ibis sf : ready ex_obj k ibis sf ex_vb ex_one ex_one (fun _ _ => 4).
Proof.
  constructor; try (destruct k; reflexivity); [exact ex_one_nonneg|intros _; exists ex_one; split; [reflexivity|exact ex_one_nonneg]|].
  intros _ [|t] c; discriminate.
Qed.

Lemma all_within n : within n SAll.
Proof. intros k z [Hk ->]. exists k. split; [exact Hk|now left]. Qed.

(** ** C125: what is drawn *)

(** One group for every chosen temperature and channel, in this order, with its own colour, legend
    entry, values in microvolt against microampere, milliohm or picowatt, and error bars. *)
Theorem C125_figure : forall savefig ibis o k vb y ye rfit temps chans sf sp sn, ready o k ibis sf vb y ye rfit ->
  within (v_nt o) temps -> within (v_nc o) chans ->
  exists f, figure_of o k ibis sf vb y ye temps chans f /\
    plot savefig ibis o k temps chans sf false sp sn = ([], Ok (Some f)).
Proof.
  intros savefig ibis o k vb y ye rfit temps chans sf sp sn R Wt Wc.
  destruct (plot_saves savefig ibis o k vb y ye rfit temps chans sf sp sn R Wt Wc) as (f & F & E & _). exists f. auto.
Qed.
Print Assumptions C125_figure.

(** Legend entries are equal only for the same channel name, and the same temperature if there are several. *)
Theorem C125_legend : forall o t t' name name', legend o t name = legend o t' name' ->
  name = name' /\ ((1 < v_nt o)%nat -> t = t').
Proof. exact legend_inj. Qed.
Print Assumptions C125_legend.

(** A temperature or channel that is not there. *)
Theorem C125_out_of_range : forall savefig ibis o k vb y ye rfit temps chans sf sv sp sn a t b c, ready o k ibis sf vb y ye rfit ->
  chosen (v_nt o) temps a t -> chosen (v_nc o) chans b c ->
  (forall i, ~ place (v_nt o) t i) \/ (forall j, ~ place (v_nc o) c j) ->
  plot savefig ibis o k temps chans sf sv sp sn = ([], Err IndexError).
Proof. exact plot_range. Qed.
Print Assumptions C125_out_of_range.

(** Before the analysis. *)
Theorem C125_unanalysed : forall savefig ibis o temps chans sf sv sp sn,
  (v_r0 o = None -> plot savefig ibis o Resistance temps chans sf sv sp sn = ([], Err AttributeError)) /\
  (v_ptes o = None -> plot savefig ibis o Power temps chans sf sv sp sn = ([], Err AttributeError)) /\
  (v_ites o = None -> length (v_names o) = v_nc o ->
   forall a t b c, chosen (v_nt o) temps a t -> chosen (v_nc o) chans b c -> within (v_nt o) temps -> within (v_nc o) chans ->
   plot savefig ibis o Current temps chans sf sv sp sn = ([], Err TypeError)).
Proof. exact plot_unanalysed. Qed.
Print Assumptions C125_unanalysed.

(** After [calc_iv] and [analyze] the objects are ready for all plots. *)
Theorem C125_after_analysis : 
  (forall cf o r names k sf, calc_iv cf o = Ok r -> length names = nc o -> (0 < ni o)%nat ->
     exists vb y ye rfit, ready (iv_object o r names) k false sf vb y ye rfit) /\
  (forall cf o yo yoe xo xoe r names k sf, analyze cf o yo yoe xo xoe = Ok r -> length names = bc o -> (0 < bi o)%nat ->
     exists vb y ye rfit, ready (ibis_object o r names) k true sf vb y ye rfit).
Proof. split; [exact iv_ready|exact ibis_ready]. Qed.
Print Assumptions C125_after_analysis.

(** The second temperature, counted from the end. *)
Example C125_ex : exists f g, plot (fun _ => Ok tt) true ex_obj Power (SOne (-1)) SAll true false "" "" = ([], Ok (Some f)) /\
  i_groups f = [g] /\ g_label g = "Temp -1, Channel A"%string /\ g_points g = ([Some (-1 * 1000000); None], [Some (1 * 1000000000000); None]).
Proof.
  assert (E : exists gs, draw_groups true ex_obj (Some ex_one) (Some ex_one) 1000000000000 false [(-1)%Z] [0%Z] = Ok gs /\
    exists g, gs = [g] /\ g_label g = "Temp -1, Channel A"%string /\ g_points g = ([Some (-1 * 1000000); None], [Some (1 * 1000000000000); None])).
  { eexists. split.
    - unfold draw_groups. cbn [length seq combine list_prod map app each fst snd Nat.mul Nat.add].
      rewrite (draw_group_ok true ex_obj ex_vb ex_one ex_one ex_one 1000000000000 false 0 (-1) 0 1 0 "A" None).
      + cbn [bind]. reflexivity.
      + reflexivity.
      + lra.
      + exact ex_one_nonneg.
      + intros _. split; [reflexivity|exact ex_one_nonneg].
      + reflexivity.
      + split; [cbn; lia|right; reflexivity].
      + split; [cbn; lia|left; reflexivity].
      + reflexivity.
      + reflexivity.
    - eexists. split; [reflexivity|]. split; reflexivity. }
  destruct E as (gs & E & g & -> & L & P). exists (mkIvfig "$P_0$ vs. $V_b$" [g]), g.
  split; [|split; [reflexivity|split; assumption]].
  rewrite (plot_eq _ true ex_obj Power (SOne (-1)) SAll true false "" "" ex_one ex_one eq_refl eq_refl).
  change (draw_groups _ _ _ _ _ _ _ _) with (draw_groups true ex_obj (Some ex_one) (Some ex_one) 1000000000000 false [(-1)%Z] [0%Z]).
  rewrite E. reflexivity.
Qed.

Example C125_range_ex : plot (fun _ => Ok tt) false ex_obj Current (SMany [0; 2]%Z) SAll true true "" "" = ([], Err IndexError).
Proof.
  eapply (C125_out_of_range _ _ _ _ _ _ _ _ _ _ _ _ _ _ 1%nat 2%Z 0%nat 0%Z (ex_ready _ _ _)); [reflexivity|split; [cbn; lia|reflexivity]|].
  left. intros i [H1 H2]. cbn in H1, H2. lia.
Qed.

(** ** C126: the fit line of the current plot *)

(** If no bias point of the channel is missing: ten points on the line through the origin with slope
    1/rfit, from the origin to the farthest bias point (or back). *)
Theorem C126_fit_line_partial : forall savefig ibis o vb y ye rfit temps chans sp sn, ready o Current ibis true vb y ye rfit ->
  within (v_nt o) temps -> within (v_nc o) chans ->
  exists f, plot savefig ibis o Current temps chans true false sp sn = ([], Ok (Some f)) /\
    forall a b t c i j, chosen (v_nt o) temps a t -> chosen (v_nc o) chans b c -> place (v_nt o) t i -> place (v_nc o) c j ->
      ~ In None (vb i j) ->
      exists g l e, nth_error (i_groups f) (a * how_many (v_nc o) chans + b) = Some g /\ g_fit g = Some l /\
        farthest (vb i j) e /\ line_from_origin (rfit i j) (e * 10 ^ 6) l.
Proof. exact plot_fit. Qed.
Print Assumptions C126_fit_line_partial.

(** With a missing bias point (rows of different lengths are padded with nan) it is not: bias points
    2, 1 and a missing one give the line from 1 to 0. *)
Definition ex_padded : ivobj :=
  let a : rows := fun _ _ => [Some 2; Some 1; None] in
  mkObj 1 1 ["A"%string] (Some a) (Some a) (Some a) (Some a) (Some a) (Some a) (Some a) (Some a) (Some (fun _ _ => 4)).

Theorem C126_padded_refuted : exists f g l,
  plot (fun _ => Ok tt) false ex_padded Current SAll SAll true false "" "" = ([], Ok (Some f)) /\ i_groups f = [g] /\ g_fit g = Some l /\
  nth_error (fst l) 0 = Some (Some (1 * 10 ^ 6)) /\ (forall x, In (Some x) (fst l) -> x <= 1 * 10 ^ 6) /\
  farthest [Some 2; Some 1; None] 2 /\ ~ exists e, farthest [Some 2; Some 1; None] e /\ line_from_origin 4 (e * 10 ^ 6) l.
Proof.
  set (a := [Some 2; Some 1; None] : list (option R)). set (ar := (fun _ _ => a) : rows).
  set (l := linspace10 (Some (1 * 1000000)) (Some 0)).
  assert (F : fit_line ex_padded a 0 0 = Ok (l, map (option_map (fun v => 1 / 4 * v)) l)).
  { unfold fit_line, a. cbn [of_largest fold_left bind]. destruct (Rltb_spec (Rabs 2) (Rabs 1)) as [H|H].
    - rewrite !Rabs_right in H by lra. lra.
    - cbn [ogt]. unfold scaled. cbn [map option_map py_min fold_left ogt]. destruct (Rltb_spec (1 * 1000000) (2 * 1000000)); [|lra]. reflexivity. }
  assert (N : nonneg ar).
  { intros t c v H. cbn in H. destruct H as [H|[H|[H|[]]]]; try discriminate; [assert (v = 2) by congruence|assert (v = 1) by congruence]; lra. }
  assert (P0 : place 1 0 0) by (split; [lia|now left]).
  pose proof (draw_group_ok false ex_padded ar ar ar ar 1000000 true 0 0 0 0 0 "A" (Some (l, map (option_map (fun v => 1 / 4 * v)) l))
    eq_refl ltac:(lra) N ltac:(discriminate) eq_refl P0 P0 eq_refl (ex_intro _ _ (conj F eq_refl))) as G.
  match type of G with _ = Ok ?g => set (g0 := g) in * end.
  exists (mkIvfig "$I_0$ vs. $V_b$" [g0]), g0, (l, map (option_map (fun v => 1 / 4 * v)) l). split; [|split; [reflexivity|split; [reflexivity|]]].
  - rewrite (plot_eq _ false ex_padded Current SAll SAll true false "" "" ar ar eq_refl eq_refl).
    change (draw_groups _ _ _ _ _ _ _ _) with (bind (draw_group false ex_padded (Some ar) (Some ar) 1000000 true 0 0 0) (fun g => Ok [g])).
    rewrite G. reflexivity.
  - assert (T : 10 ^ 6 = 1000000) by ring. rewrite T. cbn [fst].
    assert (L0 : nth_error l 0 = Some (Some (1 * 1000000))).
    { unfold l, linspace10. rewrite mk_nth_error. cbn [Nat.ltb Nat.leb INR]. f_equal. f_equal. lra. }
    assert (Lx : forall x, In (Some x) l -> x <= 1 * 1000000).
    { intros x Hx. unfold l, linspace10, mk in Hx. apply in_map_iff in Hx. destruct Hx as (n & Hn & _).
      assert (E : 1 * 1000000 + INR n * ((0 - 1 * 1000000) / 9) = x) by congruence. pose proof (pos_INR n). lra. }
    split; [exact L0|]. split; [exact Lx|]. 
    assert (F2 : farthest [Some 2; Some 1; None] 2).
    { split; [now left|]. intros v [H|[H|[H|[]]]]; try discriminate; [assert (v = 2) by congruence|assert (v = 1) by congruence]; subst v; rewrite !Rabs_right; lra. }
    split; [exact F2|]. intros (e & [He Hm] & _ & _ & s & Hs & Hd). cbn [fst] in Hs.
    assert (Ee : e = 2).
    { specialize (Hm 2 (or_introl eq_refl)). destruct He as [He|[He|[He|[]]]]; try discriminate; [congruence|].
      assert (e = 1) by congruence. subst e. rewrite !Rabs_right in Hm by lra. lra. }
    subst e.
    assert (Big : exists n, (n < 10)%nat /\ s n = 2 * 1000000).
    { destruct Hd as [Hd|Hd]; [exists 9%nat|exists 0%nat]; (split; [lia|]); rewrite Hd; cbn [INR]; lra. }
    destruct Big as (n & Hn & Es). destruct (Hs n Hn) as [H1 _]. apply nth_error_In in H1. specialize (Lx _ H1). rewrite Es in Lx. lra.
Qed.
Print Assumptions C126_padded_refuted.

(** ** C127: saving *)

(** The functions write savepath + iv_curve_/rv_curve_/pv_curve_ + savename + .png and return None. *)
Theorem C127_functions : forall savefig ibis o k vb y ye rfit temps chans sf sp sn, ready o k ibis sf vb y ye rfit ->
  within (v_nt o) temps -> within (v_nc o) chans ->
  exists f, figure_of o k ibis sf vb y ye temps chans f /\
    plot savefig ibis o k temps chans sf false sp sn = ([], Ok (Some f)) /\
    let path := (sp ++ prefix_of k ++ sn ++ ".png")%string in
    (savefig path = Ok tt -> plot savefig ibis o k temps chans sf true sp sn = ([(path, f)], Ok None)) /\
    (forall e, savefig path = Err e -> plot savefig ibis o k temps chans sf true sp sn = ([], Err e)).
Proof. exact plot_saves. Qed.
Print Assumptions C127_functions.

(** The methods of IV and IBIS raise TypeError after writing the file. *)
Theorem C127_methods_refuted : forall savefig ibis o k vb y ye rfit temps chans sf sp sn, ready o k ibis sf vb y ye rfit ->
  within (v_nt o) temps -> within (v_nc o) chans -> savefig (sp ++ prefix_of k ++ sn ++ ".png")%string = Ok tt ->
  exists f, figure_of o k ibis sf vb y ye temps chans f /\
    unpack (plot savefig ibis o k temps chans sf true sp sn) = ([((sp ++ prefix_of k ++ sn ++ ".png")%string, f)], Err TypeError) /\
    unpack (plot savefig ibis o k temps chans sf false sp sn) = ([], Ok f).
Proof. exact method_saves. Qed.
Print Assumptions C127_methods_refuted.

(** [plot_all_curves] draws the three plots and, on request, writes the three files. *)
Theorem C127_all_curves : forall savefig ibis o vb y1 e1 r1 y2 e2 r2 y3 e3 r3 temps chans sf sv sp sn,
  ready o Current ibis sf vb y1 e1 r1 -> ready o Resistance ibis sf vb y2 e2 r2 -> ready o Power ibis sf vb y3 e3 r3 ->
  within (v_nt o) temps -> within (v_nc o) chans ->
  (forall k, savefig (sp ++ prefix_of k ++ sn ++ ".png")%string = Ok tt) ->
  exists fi fr fp, figure_of o Current ibis sf vb y1 e1 temps chans fi /\ figure_of o Resistance ibis sf vb y2 e2 temps chans fr /\
    figure_of o Power ibis sf vb y3 e3 temps chans fp /\
    plot_all_curves savefig ibis o temps chans sf sv sp sn =
      (if sv then [((sp ++ "iv_curve_" ++ sn ++ ".png")%string, fi); ((sp ++ "rv_curve_" ++ sn ++ ".png")%string, fr);
                   ((sp ++ "pv_curve_" ++ sn ++ ".png")%string, fp)] else [], Ok None).
Proof. exact all_curves. Qed.
Print Assumptions C127_all_curves.

Example C127_ex : exists f, unpack (plot (fun _ => Ok tt) false ex_obj Resistance SAll SAll true true "fig/" "run1")
  = ([("fig/rv_curve_run1.png"%string, f)], Err TypeError).
Proof.
  destruct (C127_methods_refuted (fun _ => Ok tt) false ex_obj Resistance _ _ _ _ SAll SAll true "fig/" "run1" (ex_ready _ _ _) (all_within _) (all_within _) eq_refl)
    as (f & _ & E & _). exists f. exact E.
Qed.

(** ** C128: the three plots of one object agree *)

(** Same abscissa, same legend entries, and in the drawn units power = current squared times
    resistance / 1000, wherever all three have a point and the current is not 0. *)
Theorem C128_iv : forall savefig cf o r names temps chans sp sn, calc_iv cf o = Ok r -> length names = nc o -> (0 < ni o)%nat ->
  let p := iv_object o r names in within (nt o) temps -> within (nc o) chans ->
  exists fi fr fp, plot savefig false p Current temps chans false false sp sn = ([], Ok (Some fi)) /\
    plot savefig false p Resistance temps chans false false sp sn = ([], Ok (Some fr)) /\
    plot savefig false p Power temps chans false false sp sn = ([], Ok (Some fp)) /\
    forall a b t c, chosen (nt o) temps a t -> chosen (nc o) chans b c ->
      exists gi gr gp, nth_error (i_groups fi) (a * how_many (nc o) chans + b) = Some gi /\
        nth_error (i_groups fr) (a * how_many (nc o) chans + b) = Some gr /\
        nth_error (i_groups fp) (a * how_many (nc o) chans + b) = Some gp /\
        g_label gi = g_label gr /\ g_label gr = g_label gp /\
        forall m x i x' r x'' p, point (g_points gi) m x i -> point (g_points gr) m x' r -> point (g_points gp) m x'' p ->
          x = x' /\ x' = x'' /\ (i <> 0 -> p = i ^ 2 * r / 1000).
Proof. exact iv_figures_agree. Qed.
Print Assumptions C128_iv.

Theorem C128_ibis : forall savefig cf o yoe xoe r names temps chans sp sn, analyze cf o ONone yoe ONone xoe = Ok r -> length names = bc o -> (0 < bi o)%nat ->
  let p := ibis_object o r names in within (bt o) temps -> within (bc o) chans ->
  exists fi fr fp, plot savefig true p Current temps chans false false sp sn = ([], Ok (Some fi)) /\
    plot savefig true p Resistance temps chans false false sp sn = ([], Ok (Some fr)) /\
    plot savefig true p Power temps chans false false sp sn = ([], Ok (Some fp)) /\
    forall a b t c, chosen (bt o) temps a t -> chosen (bc o) chans b c ->
      exists gi gr gp, nth_error (i_groups fi) (a * how_many (bc o) chans + b) = Some gi /\
        nth_error (i_groups fr) (a * how_many (bc o) chans + b) = Some gr /\
        nth_error (i_groups fp) (a * how_many (bc o) chans + b) = Some gp /\
        g_label gi = g_label gr /\ g_label gr = g_label gp /\
        forall m x i x' r x'' p, point (g_points gi) m x i -> point (g_points gr) m x' r -> point (g_points gp) m x'' p ->
          x = x' /\ x' = x'' /\ (i <> 0 -> p = i ^ 2 * r / 1000).
Proof. exact ibis_figures_agree. Qed.
Print Assumptions C128_ibis.

(** Each plotted point is the analysed value in its unit, and it is left out exactly where a measured
    input of it is missing. *)
Theorem C128_iv_drawn : forall savefig cf o r names temps chans k sp sn,
  calc_iv cf o = Ok r -> length names = nc o -> (0 < ni o)%nat ->
  within (nt o) temps -> within (nc o) chans ->
  exists f, plot savefig false (iv_object o r names) k temps chans false false sp sn = ([], Ok (Some f)) /\
    forall a b t c i j, chosen (nt o) temps a t -> chosen (nc o) chans b c -> place (nt o) t i -> place (nc o) c j ->
      let mis x := missing (nc o) (ni o) x i j in
      exists g, nth_error (i_groups f) (a * how_many (nc o) chans + b) = Some g /\ g_xerr g = None /\
        (forall p, p = g_points g \/ p = g_line g \/ p = g_bars g ->
          drawn_row (ni o) (mis (vb o)) (at3 (nc o) (ni o) (vb o) i j) (10 ^ 6) (fst p) /\
          drawn_row (ni o) (fun m => gone k (mis (vb o) m) (mis (dites o) m))
            (of_kind k (iv_ites r) (iv_r0 r) (iv_ptes r) i j) (unit_of k) (snd p)) /\
        drawn_row (ni o) (fun m => gone_err k (mis (vb o) m) (mis (dites o) m) (mis (vb_err o) m) (mis (dites_err o) m))
          (of_kind k (iv_ites_err r) (iv_r0_err r) (iv_ptes_err r) i j) (unit_of k) (g_yerr g).
Proof. exact iv_drawn. Qed.
Print Assumptions C128_iv_drawn.

Theorem C128_ibis_drawn : forall savefig cf o yo yoe xo xoe r names temps chans k sp sn,
  analyze cf o yo yoe xo xoe = Ok r -> length names = bc o -> (0 < bi o)%nat ->
  within (bt o) temps -> within (bc o) chans ->
  exists f, plot savefig true (ibis_object o r names) k temps chans false false sp sn = ([], Ok (Some f)) /\
    forall a b t c i j, chosen (bt o) temps a t -> chosen (bc o) chans b c -> place (bt o) t i -> place (bc o) c j ->
      let mis x := missing (bc o) (bi o) x i j in
      exists g ex, nth_error (i_groups f) (a * how_many (bc o) chans + b) = Some g /\ g_xerr g = Some ex /\
        (forall p, p = g_points g \/ p = g_line g \/ p = g_bars g ->
          drawn_row (bi o) (mis (b_ibias o)) (o_vb r i j) (10 ^ 6) (fst p) /\
          drawn_row (bi o) (fun m => gone k (mis (b_ibias o) m) (mis (b_dites o) m))
            (of_kind k (o_ites r) (o_r0 r) (o_ptes r) i j) (unit_of k) (snd p)) /\
        drawn_row (bi o) (fun m => gone_err k (mis (b_ibias o) m) (mis (b_dites o) m) (mis (b_ibias_err o) m) (mis (b_dites_err o) m))
          (of_kind k (o_ites_err r) (o_r0_err r) (o_ptes_err r) i j) (unit_of k) (g_yerr g) /\
        drawn_row (bi o) (fun m => mis (b_ibias o) m \/ mis (b_ibias_err o) m) (o_vb_err r i j) (10 ^ 6) ex.
Proof. exact ibis_drawn. Qed.
Print Assumptions C128_ibis_drawn.

(** An object with two bias points. *)
Example C128_ex : exists o r, calc_iv (fun _ => Ok (mkFit 1 (1 / 2) (fun _ _ => 0))) o = Ok r /\ nc o = 1%nat /\ ni o = 2%nat /\
  exists fi gi, plot (fun _ => Ok tt) false (iv_object o r ["A"%string]) Current SAll SAll false false "" "" = ([], Ok (Some fi)) /\
    nth_error (i_groups fi) 0 = Some gi.
Proof.
  set (z := mkNd [1; 1; 2]%nat (fun _ => 1) (fun _ => false)).
  set (o := mkIv 1 1 2 z z z z (Some z) (Some z) (Some [0; 1]%nat)).
  assert (E : exists r, calc_iv (fun _ => Ok (mkFit 1 (1 / 2) (fun _ _ => 0))) o = Ok r) by (eexists; reflexivity).
  destruct E as [r E]. exists o, r. split; [exact E|]. split; [reflexivity|]. split; [reflexivity|].
  destruct (C128_iv (fun _ => Ok tt) _ o r ["A"%string] SAll SAll "" "" E eq_refl ltac:(cbn; lia) (all_within _) (all_within _))
    as (fi & fr & fp & Ei & _ & _ & H).
  destruct (H 0%nat 0%nat 0%Z 0%Z) as (gi & gr & gp & G & _); [split; [cbn; lia|reflexivity]|split; [cbn; lia|reflexivity]|].
  exists fi, gi. split; [exact Ei|exact G].
Qed.

(** Three bias points, the last current missing: the last resistance is left out, the first is drawn. *)
Example C128_drawn_ex : exists o r, calc_iv (fun _ => Ok (mkFit 1 (1 / 2) (fun _ _ => 0))) o = Ok r /\ nc o = 1%nat /\ ni o = 3%nat /\
  exists f g x, plot (fun _ => Ok tt) false (iv_object o r ["A"%string]) Resistance SAll SAll false false "" "" = ([], Ok (Some f)) /\
    nth_error (i_groups f) 0 = Some g /\ nth_error (snd (g_points g)) 2 = Some None /\ nth_error (snd (g_points g)) 0 = Some (Some x).
Proof.
  set (z := mkNd [1; 1; 3]%nat (fun _ => 1) (fun _ => false)).
  set (d := mkNd [1; 1; 3]%nat (fun _ => 1) (fun k => Nat.eqb k 2)).
  set (o := mkIv 1 1 3 d z z z (Some z) (Some z) (Some [0; 1]%nat)).
  assert (E : exists r, calc_iv (fun _ => Ok (mkFit 1 (1 / 2) (fun _ _ => 0))) o = Ok r) by (eexists; reflexivity).
  destruct E as [r E]. exists o, r. split; [exact E|]. split; [reflexivity|]. split; [reflexivity|].
  destruct (C128_iv_drawn (fun _ => Ok tt) _ o r ["A"%string] SAll SAll Resistance "" "" E eq_refl ltac:(cbn; lia) (all_within _) (all_within _))
    as (f & Ef & H).
  destruct (H 0%nat 0%nat 0%Z 0%Z 0%nat 0%nat) as (g & G & _ & Hp & _); try (split; [cbn; lia|]; auto; fail).
  destruct (Hp _ (or_introl eq_refl)) as [_ [_ Hd]]. exists f, g. eexists. split; [exact Ef|]. split; [exact G|]. split.
  - apply (Hd 2%nat); [cbn; lia|]. right. reflexivity.
  - apply (Hd 0%nat); [cbn; lia|]. cbn. intros [X|X]; discriminate X.
Qed.
