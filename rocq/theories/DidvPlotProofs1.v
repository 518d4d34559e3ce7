(** * The curves of the dIdV plots *)
From Coq Require Import String Reals Sorted.
From Coquelicot Require Import Complex.
From Verif Require Import Base ListLemmas Dft UtilsModel DidvModel PlotModel IvPlotModel DidvPlotModel DidvPlotSpec.
Local Open Scope R_scope.

(** ** Which fits *)

Lemma asked_spec s i : (1 <= i <= 3)%Z ->
  (asked s i = true <-> match s with SAll => True | SOne z => z = i | SMany zs => In i zs end).
Proof.
  intros Hi. destruct s as [|z|zs]; cbn [asked].
  - split; [trivial|intros _].
    destruct (Z.eqb_spec i 1); [reflexivity|]. destruct (Z.eqb_spec i 2); [reflexivity|].
    destruct (Z.eqb_spec i 3); [reflexivity|lia].
  - apply Z.eqb_eq.
  - rewrite existsb_exists. split.
    + intros (x & Hx & E). apply Z.eqb_eq in E. now subst.
    + intros H. exists i. split; [exact H|apply Z.eqb_refl].
Qed.

Definition chosen (o : dobj) (s : selection) : list Z :=
  filter (fun i => match fit_of o i with Some _ => asked s i | None => false end) [1%Z; 2%Z; 3%Z].

Lemma filter_sorted (f : Z -> bool) l : StronglySorted Z.lt l -> StronglySorted Z.lt (filter f l).
Proof.
  induction 1 as [|a l H IH F]; [constructor|]. cbn [filter].
  assert (F' : Forall (Z.lt a) (filter f l)).
  { rewrite Forall_forall in *. intros x Hx. apply filter_In in Hx. now apply F. }
  destruct (f a); [now constructor|exact IH].
Qed.

Lemma chosen_drawn o s : drawn_fits o s (chosen o s).
Proof.
  split.
  - intros i. unfold chosen, to_draw. rewrite filter_In. split.
    + intros [Hi Hf]. assert (B : (1 <= i <= 3)%Z) by (cbn [In] in Hi; lia).
      destruct (fit_of o i); [|discriminate]. split; [exact B|]. split; [discriminate|]. now apply asked_spec.
    + intros (B & F & A). split.
      * cbn [In]. lia.
      * destruct (fit_of o i); [|congruence]. now apply asked_spec.
  - apply filter_sorted. repeat constructor; lia.
Qed.

Lemma drawn_unique o s l : drawn_fits o s l -> l = chosen o s.
Proof.
  intros [H1 S1]. destruct (chosen_drawn o s) as [H2 S2].
  assert (E : forall i, In i l <-> In i (chosen o s)) by (intros i; rewrite H1, H2; tauto).
  revert E S1 S2. generalize (chosen o s). clear. induction l as [|a l IH]; intros m E S1 S2.
  - destruct m as [|b m]; [reflexivity|]. exfalso. apply (E b). now left.
  - destruct m as [|b m]; [exfalso; apply (E a); now left|].
    inversion S1 as [|? ? Sl Fl]; inversion S2 as [|? ? Sm Fm]; subst.
    rewrite Forall_forall in Fl, Fm.
    assert (a = b) as ->.
    { destruct (proj1 (E a) (or_introl eq_refl)) as [H|H]; [now symmetry|].
      destruct (proj2 (E b) (or_introl eq_refl)) as [H'|H']; [exact H'|].
      apply Fm in H. apply Fl in H'. lia. }
    f_equal. apply IH; [|assumption|assumption]. intros i. split; intros Hi.
    + destruct (proj1 (E i) (or_intror Hi)) as [->|H]; [|exact H]. apply Fl in Hi. lia.
    + destruct (proj2 (E i) (or_intror Hi)) as [->|H]; [|exact H]. apply Fm in Hi. lia.
Qed.

Definition fit_drawn (o : dobj) (dr : pfit -> string -> res curve) (i : Z) (m : mark) : Prop :=
  exists r c, fit_of o i = Some r /\ dr r (fit_label i) = Ok c /\ m = Line c.

Lemma fit_marks_ok o s dr :
  (forall i r, fit_of o i = Some r -> exists c, dr r (fit_label i) = Ok c) ->
  exists fits, fit_marks s dr (three_fits o) = Ok fits /\ Forall2 (fit_drawn o dr) (chosen o s) fits.
Proof.
  intros H.
  assert (G : forall l, (forall t, In t l -> snd (fst t) = fit_of o (fst (fst t)) /\ snd t = fit_label (fst (fst t))) ->
    exists fits, fit_marks s dr l = Ok fits /\
      Forall2 (fit_drawn o dr)
        (filter (fun i => match fit_of o i with Some _ => asked s i | None => false end) (map (fun t => fst (fst t)) l)) fits).
  { induction l as [|[[i f] lab] l IH]; intros Hl; [exists []; split; [reflexivity|constructor]|].
    destruct IH as (fits & E & F); [intros t Ht; apply Hl; now right|].
    destruct (Hl (i, f, lab) (or_introl eq_refl)) as [Ef El]. cbn [fst snd] in Ef, El. subst lab.
    cbn [map fst snd filter fit_marks]. rewrite <- Ef. destruct f as [r|]; [|exists fits; now split].
    destruct (asked s i) eqn:A; [|exists fits; now split].
    destruct (H i r (eq_sym Ef)) as [c Ec]. rewrite Ec, E. cbn [bind].
    exists (Line c :: fits). split; [reflexivity|]. constructor; [|exact F].
    exists r, c. now split. }
  destruct (G (three_fits o)) as (fits & E & F).
  - intros t Ht. cbn [three_fits In] in Ht. destruct Ht as [Ht|[Ht|[Ht|[]]]]; subst t; now split.
  - exists fits. split; [exact E|exact F].
Qed.

Lemma forall2_weaken {A B} (P Q : A -> B -> Prop) l m : (forall a b, P a b -> Q a b) -> Forall2 P l m -> Forall2 Q l m.
Proof. intros H. induction 1; constructor; auto. Qed.

(** ** Time domain *)

Lemma convert_from_ok a n : pole_extractor a = Ok n ->
  exists p, convertfromtesvalues (tes_tuple n a) = Ok p /\
    ((exists A tau2 dt, p = [A; tau2; dt]) \/ (exists A B tau1 tau2 dt, p = [A; B; tau1; tau2; dt]) \/
     (exists A B C' tau1 tau2 tau3 dt, p = [A; B; C'; tau1; tau2; tau3; dt])).
Proof.
  unfold pole_extractor. intros E.
  assert (N : n = 1%nat \/ n = 2%nat \/ n = 3%nat).
  { repeat match type of E with context [if ?b then _ else _] => destruct b end; inversion E; auto. }
  destruct N as [N|[N|N]]; subst n; eexists; (split; [reflexivity|]).
  - left. repeat eexists.
  - right; left. repeat eexists.
  - right; right. repeat eexists.
Qed.

Lemma response_ok n t sgamp sgfreq duty a m : (2 <= n)%nat -> pole_extractor a = Ok m ->
  exists ys, squarewaveresponse n t sgamp sgfreq duty a = Ok ys /\ length ys = n.
Proof.
  intros Hn E. destruct (convert_from_ok _ _ E) as (p & Ep & Hp).
  unfold squarewaveresponse. rewrite E. cbn [bind]. rewrite Ep. cbn [bind].
  assert (L : (n <? 2)%nat = false) by (apply Nat.ltb_ge; lia).
  destruct Hp as [(A & tau2 & dt & ->)|[(A & B & tau1 & tau2 & dt & ->)|(A & B & C' & tau1 & tau2 & tau3 & dt & ->)]];
    unfold convolvedidv; rewrite L; (eexists; split; [reflexivity|apply mk_length]).
Qed.

Lemma admittance_ok f a m : pole_extractor a = Ok m -> exists y, complexadmittance f a = Ok y.
Proof.
  intros E. destruct (convert_from_ok _ _ E) as (p & Ep & Hp).
  unfold complexadmittance, compleximpedance. rewrite E. cbn [bind]. rewrite Ep. cbn [bind].
  destruct Hp as [(A & tau2 & dt & ->)|[(A & B & tau1 & tau2 & dt & ->)|(A & B & C' & tau1 & tau2 & tau3 & dt & ->)]];
    (eexists; reflexivity).
Qed.

Lemma draw_ok x y l : length x = length y -> draw x y l = Ok (mkCurve x y l).
Proof. intros H. unfold draw. now rewrite H, Nat.eqb_refl. Qed.

Lemma map_comm_mult (l : list R) (g : R -> R) k : map (fun v => g v * k) l = map (fun v => k * g v) l.
Proof. apply map_ext. intros v. ring. Qed.

Lemma time_domain_ok o s p d : prepared o p d -> complete o ->
  exists ms, plot_time_domain o s = Ok (mkDaxes None ms None None) /\ time_curves o s p d ms.
Proof.
  intros (Hp & Hd & Hn & Lt & Lf & Lm & Ls) Hc. unfold plot_time_domain, ready. rewrite Hp. cbn [bind].
  unfold mean_trace. rewrite Hd. rewrite draw_ok by (rewrite !map_length; congruence). cbn [bind].
  destruct (fit_marks_ok o s (time_fit o p)) as (fits & E & F).
  { intros i r Hr. destruct (Hc i r Hr) as [m Em].
    destruct (response_ok (length (p_time p)) (fun j => nth j (p_time p) 0) (b_sgamp o) (b_sgfreq o) (b_duty o) _ _ Hn Em)
      as (ys & Ey & Ly).
    unfold time_fit. rewrite Ey. cbn [bind]. rewrite draw_ok by (rewrite !map_length; congruence). eexists; reflexivity. }
  rewrite E. cbn [bind]. eexists. split; [reflexivity|].
  exists (chosen o s), fits. split; [apply chosen_drawn|]. split.
  - eapply forall2_weaken; [|exact F]. intros i m (r & c & Er & Ec & ->).
    unfold time_fit in Ec. destruct (squarewaveresponse _ _ _ _ _ _) as [ys|] eqn:Ey; [|discriminate].
    cbn [bind] in Ec. unfold draw in Ec. destruct (_ =? _)%nat; [|discriminate].
    exists r, ys. split; [exact Er|]. split; [exact Ey|]. injection Ec as <-. f_equal. f_equal.
    + apply map_ext. intros t. ring.
    + apply map_ext. intros t. f_equal. ring.
  - unfold time_mean. f_equal. f_equal. f_equal.
    + apply map_ext. intros t. ring.
    + apply map_ext. intros t. f_equal. ring.
Qed.

Lemma time_domain_nan o s p : b_proc o = Some p -> p_data p = None -> (2 <= length (p_time p))%nat -> complete o ->
  exists l fits, plot_time_domain o s = Ok (mkDaxes None (time_nan p :: fits) None None) /\
    drawn_fits o s l /\ Forall2 (time_fit_curve o p) l fits.
Proof.
  intros Hp Hd Hn Hc. unfold plot_time_domain, ready. rewrite Hp. cbn [bind].
  unfold mean_trace. rewrite Hd. rewrite draw_ok by now rewrite !map_length. cbn [bind].
  destruct (fit_marks_ok o s (time_fit o p)) as (fits & E & F).
  { intros i r Hr. destruct (Hc i r Hr) as [m Em].
    destruct (response_ok (length (p_time p)) (fun j => nth j (p_time p) 0) (b_sgamp o) (b_sgfreq o) (b_duty o) _ _ Hn Em)
      as (ys & Ey & Ly).
    unfold time_fit. rewrite Ey. cbn [bind]. rewrite draw_ok by (rewrite !map_length; congruence). eexists; reflexivity. }
  rewrite E. cbn [bind]. exists (chosen o s), fits. split; [|split; [apply chosen_drawn|]].
  - unfold time_nan. do 5 f_equal.
    + apply map_ext. intros t. ring.
    + generalize (p_time p). intros l. induction l as [|x l IH]; [reflexivity|]. cbn [map repeat length]. now rewrite IH.
  - eapply forall2_weaken; [|exact F]. intros i m (r & c & Er & Ec & ->).
    unfold time_fit in Ec. destruct (squarewaveresponse _ _ _ _ _ _) as [ys|] eqn:Ey; [|discriminate].
    cbn [bind] in Ec. unfold draw in Ec. destruct (_ =? _)%nat; [|discriminate].
    exists r, ys. split; [exact Er|]. split; [exact Ey|]. injection Ec as <-. f_equal. f_equal.
    + apply map_ext. intros t. ring.
    + apply map_ext. intros t. f_equal. ring.
Qed.

Lemma first_sample l : (2 <= length l)%nat -> pyindex l 0 = Ok (nth 0 l 0).
Proof. intros H. destruct l as [|x l]; [cbn in H; lia|reflexivity]. Qed.
Lemma last_sample l : (2 <= length l)%nat -> pyindex l (-1) = Ok (nth (length l - 1) l 0).
Proof.
  intros H. unfold pyindex. replace (-1 <? 0)%Z with true by reflexivity.
  destruct (Z.ltb_spec (-1 + Z.of_nat (length l)) 0); [lia|].
  rewrite (nth_error_nth_eq _ _ 0) by lia. f_equal. f_equal. lia.
Qed.

Lemma full_trace_ok o s p d sv sp sn : prepared o p d -> complete o ->
  makes (plot_full_trace o s sv sp sn) sv (sp ++ "full_trace_" ++ sn ++ ".png") (fun a =>
    x_title a = Some "Full Trace of dIdV"%string /\ time_curves o s p d (x_marks a) /\ x_ylim a = None /\
    x_xlim a = Some (10 ^ 6 * nth 0 (p_time p) 0, 10 ^ 6 * nth (length (p_time p) - 1) (p_time p) 0)).
Proof.
  intros P C. destruct (time_domain_ok o s p d P C) as (ms & E & T). destruct P as (Hp & _ & Hn & _).
  unfold plot_full_trace, ready. rewrite E, Hp. cbn [bind]. rewrite first_sample, last_sample by exact Hn.
  cbn [bind present]. eexists. split; [reflexivity|]. cbn [titled xlimited x_title x_marks x_ylim x_xlim].
  split; [reflexivity|]. split; [exact T|]. split; [reflexivity|]. f_equal. f_equal; ring.
Qed.

Lemma single_period_ok o s p d sv sp sn : prepared o p d -> complete o ->
  makes (plot_single_period_of_trace o s sv sp sn) sv (sp ++ "trace_one_period_" ++ sn ++ ".png") (fun a =>
    x_title a = Some "Single Period of Trace"%string /\ time_curves o s p d (x_marks a) /\ x_ylim a = None /\
    x_xlim a = Some (10 ^ 6 * nth 0 (p_time p) 0, 10 ^ 6 * (nth 0 (p_time p) 0 + 1 / b_sgfreq o))).
Proof.
  intros P C. destruct (time_domain_ok o s p d P C) as (ms & E & T). destruct P as (Hp & _ & Hn & _).
  unfold plot_single_period_of_trace, ready. rewrite E, Hp. cbn [bind]. rewrite first_sample by exact Hn.
  cbn [bind present]. eexists. split; [reflexivity|]. cbn [titled xlimited x_title x_marks x_ylim x_xlim].
  split; [reflexivity|]. split; [exact T|]. split; [reflexivity|]. f_equal. f_equal; ring.
Qed.

Lemma zoomed_ok o s p d z sv sp sn : prepared o p d -> complete o ->
  makes (plot_zoomed_in_trace o s z sv sp sn) sv (sp ++ "zoomed_in_trace_" ++ sn ++ ".png") (fun a =>
    x_title a = Some "Zoomed In Portion of Trace"%string /\ time_curves o s p d (x_marks a) /\ x_ylim a = None /\
    exists lo hi, x_xlim a = Some (lo, hi) /\ hi - lo = 10 ^ 6 * (z * (1 / b_sgfreq o)) /\
      (lo + hi) / 2 = 10 ^ 6 * (nth 0 (p_time p) 0 + (1 / b_sgfreq o) / 2 + best_offset o)).
Proof.
  intros P C. destruct (time_domain_ok o s p d P C) as (ms & E & T). destruct P as (Hp & _ & Hn & _).
  unfold plot_zoomed_in_trace, ready. rewrite E, Hp. cbn [bind]. rewrite first_sample by exact Hn.
  cbn [bind present]. eexists. split; [reflexivity|]. cbn [titled xlimited x_title x_marks x_ylim x_xlim].
  split; [reflexivity|]. split; [exact T|]. split; [reflexivity|]. do 2 eexists. split; [reflexivity|].
  split; generalize (1 / b_sgfreq o); intros x; lra.
Qed.

Lemma flipped_ok o s p d sv sp sn : prepared o p d -> complete o ->
  makes (plot_didv_flipped o s sv sp sn) sv (sp ++ "flipped_trace_" ++ sn ++ ".png") (fun a =>
    x_title a = Some "Flipped Traces to Check Asymmetry"%string /\ x_xlim a = None /\ x_ylim a = None /\
    exists ms, time_curves o s p d ms /\ x_marks a = (ms ++ [flipped_curve o p d])%list).
Proof.
  intros P C. destruct (time_domain_ok o s p d P C) as (ms & E & T). destruct P as (Hp & Hd & Hn & Lt & _).
  unfold plot_didv_flipped, ready. rewrite E, Hp. cbn [bind]. unfold mean_trace. rewrite Hd.
  rewrite draw_ok by (rewrite !map_length; congruence).
  cbn [bind present]. eexists. split; [reflexivity|]. cbn [titled marked x_title x_marks x_ylim x_xlim].
  split; [reflexivity|]. split; [reflexivity|]. split; [reflexivity|]. exists ms. split; [exact T|].
  f_equal. f_equal. unfold flipped_curve. f_equal. f_equal.
  - apply map_ext. intros t. ring.
  - rewrite map_map. apply map_ext. intros t. cbn [option_map]. f_equal. ring.
Qed.

(** A trace that is odd under a shift by half a period: the flipped curve repeats the mean curve. *)
Lemma flipped_overlays o p d (h : nat) :
  length (d_tmean d) = length (p_time p) ->
  (forall j, (j + h < length (p_time p))%nat -> nth (j + h) (p_time p) 0 = nth j (p_time p) 0 + 1 / b_sgfreq o / 2) ->
  (forall j, (j + h < length (p_time p))%nat -> nth (j + h) (d_tmean d) 0 - d_offset d = - (nth j (d_tmean d) 0 - d_offset d)) ->
  forall c f, time_mean p d = Line c -> flipped_curve o p d = Line f ->
  forall j, (j + h < length (p_time p))%nat ->
    nth_error (c_x f) (j + h) = nth_error (c_x c) j /\ nth_error (c_y f) (j + h) = nth_error (c_y c) j.
Proof.
  intros L Ht Ha c f Ec Ef j Hj. unfold time_mean in Ec. unfold flipped_curve in Ef.
  injection Ec as <-. injection Ef as <-. cbn [c_x c_y]. rewrite !nth_error_map.
  rewrite (nth_error_nth_eq (p_time p) (j + h) 0), (nth_error_nth_eq (p_time p) j 0) by lia.
  rewrite (nth_error_nth_eq (d_tmean d) (j + h) 0), (nth_error_nth_eq (d_tmean d) j 0) by lia.
  cbn [option_map]. rewrite (Ht j Hj), (Ha j Hj). split; [f_equal; ring|]. f_equal. f_equal. ring.
Qed.
