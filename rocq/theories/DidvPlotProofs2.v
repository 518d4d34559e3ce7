(** * The frequency domain plots *)
From Coq Require Import String Reals Sorted.
From Coquelicot Require Import Complex.
From Verif Require Import Base ListLemmas Dft UtilsModel DidvModel PlotModel IvPlotModel DidvPlotModel DidvPlotSpec
  DidvPlotProofs1.
Local Open Scope R_scope.

(** ** Selection of the bins *)

Lemma Cmod_zero_iff z : Cmod z = 0 <-> z = RtoC 0.
Proof. split; [apply Cmod_eq_0|intros ->; apply Cmod_0]. Qed.
Lemma Cmod_pos z : z <> RtoC 0 -> 0 < Cmod z.
Proof. intros H. apply Cmod_gt_0. exact H. Qed.

Lemma goodind_spec m s : goodind m s = true <-> 2 * Cmod s < Cmod m.
Proof.
  unfold goodind. destruct (Ceq_dec s (RtoC 0)) as [->|Hs].
  - rewrite Cmod_0. destruct (Ceq_dec m (RtoC 0)) as [->|Hm].
    + rewrite Cmod_0. split; [discriminate|lra].
    + split; [intros _|trivial]. assert (P := Cmod_pos m Hm). lra.
  - assert (P := Cmod_pos s Hs). rewrite Cmod_div by exact Hs.
    assert (E : Cmod m / Cmod s * Cmod s = Cmod m) by (field; lra).
    destruct (Rltb_spec 2 (Cmod m / Cmod s)) as [H|H].
    + split; [intros _|trivial]. rewrite <- E at 1. apply Rmult_lt_compat_r; assumption.
    + split; [discriminate|]. intros H'. exfalso. apply H. apply (Rmult_lt_reg_r (Cmod s)); [exact P|]. now rewrite E.
Qed.

Lemma plotted_ok o p d : prepared o p d -> plotted_bins p = Ok (measured p d).
Proof.
  intros (_ & Hd & _ & _ & Lf & Lm & Ls). unfold plotted_bins, measured. rewrite Hd, Lm, Ls, Lf, !Nat.eqb_refl.
  cbn [andb]. f_equal. apply filter_ext. intros q.
  destruct (significant_dec q) as [[H1 H2]|H].
  - rewrite (Rltb_true _ _ H1). cbn [andb]. now apply goodind_spec.
  - destruct (Rltb_spec 0 (fst (fst q))) as [H1|H1]; [|reflexivity]. cbn [andb].
    destruct (goodind (snd (fst q)) (snd q)) eqn:G; [|reflexivity]. apply goodind_spec in G.
    exfalso. apply H. now split.
Qed.

Lemma cis_inv x : (/ cis (- x))%C = cis x.
Proof.
  assert (N : cis (- x) <> RtoC 0).
  { intros E. assert (X := cis_n2 (- x)). rewrite E in X. unfold cn2, RtoC in X. cbn in X. lra. }
  assert (E : (cis (- x) * cis x = RtoC 1)%C) by (rewrite <- cis_plus, Rplus_opp_l; apply cis_0).
  rewrite <- (Cmult_1_r (/ cis (- x))%C), <- E, Cmult_assoc, Cinv_l by exact N. apply Cmult_1_l.
Qed.

Lemma undelayed_phase dt f y : (y * time_phase dt f)%C = undelayed dt f y.
Proof. unfold undelayed, time_phase, Cdiv. rewrite cis_inv. f_equal. f_equal. ring. Qed.

Lemma undelayed_zero f y : undelayed 0 f y = y.
Proof.
  rewrite <- undelayed_phase. unfold time_phase. replace (2 * PI * 0 * f) with 0 by ring. rewrite cis_0. apply Cmult_1_r.
Qed.

(** ** The curves of the fits *)

Lemma positive_filter l : positive l = filter (Rltb 0) l.
Proof. apply filter_ext. intros x. unfold Rltb. now destruct (Rlt_dec 0 x). Qed.

Lemma each_total {A B} (f : A -> res B) l : (forall a, exists b, f a = Ok b) ->
  exists bs, each f l = Ok bs /\ Forall2 (fun a b => f a = Ok b) l bs.
Proof.
  intros H. induction l as [|a l (bs & E & F)]; [exists []; split; [reflexivity|constructor]|].
  destruct (H a) as [b Eb]. exists (b :: bs). cbn [each]. rewrite Eb, E. split; [reflexivity|now constructor].
Qed.

Lemma filter_combined (P : R -> C -> Prop) l ys : Forall2 P l ys ->
  let z := filter (fun q => Rltb 0 (fst q)) (combine l ys) in
  map fst z = filter (Rltb 0) l /\ Forall2 P (filter (Rltb 0) l) (map snd z).
Proof.
  induction 1 as [|f y l ys H F [IH1 IH2]]; [split; [reflexivity|constructor]|].
  cbn [combine filter fst]. cbn [fst] in *. destruct (Rltb 0 f); [|now split].
  cbn [map fst snd]. split; [now f_equal|now constructor].
Qed.

Lemma freq_fit_ok (g : C -> R) o p i r : complete o -> fit_of o i = Some r ->
  exists ys, Forall2 (fun f y => complexadmittance f (pf_args r) = Ok y) (positive (p_freq p)) ys /\
    freq_fit (fun f _ => f) (fun _ y => g y) p r (fit_label i)
      = Ok (mkCurve (positive (p_freq p)) (map (fun y => Some (g y)) ys) (Some (fit_label i))).
Proof.
  intros Hc Hr. destruct (Hc i r Hr) as [m Em].
  destruct (each_total (fun f => complexadmittance f (pf_args r)) (p_freq p)) as (ys & E & F).
  { intros f. apply (admittance_ok f _ _ Em). }
  destruct (filter_combined _ _ _ F) as [G1 G2].
  exists (map snd (filter (fun q => Rltb 0 (fst q)) (combine (p_freq p) ys))). rewrite positive_filter. split; [exact G2|].
  unfold freq_fit. rewrite E. cbn [bind]. rewrite draw_ok by now rewrite !map_length.
  f_equal. f_equal; [exact G1|]. now rewrite map_map.
Qed.

(** ** Limits *)

Lemma max_of_ok l : l <> [] -> exists m, max_of l = Ok m /\ In m l /\ forall x, In x l -> x <= m.
Proof.
  destruct l as [|x l]; [congruence|intros _]. cbn [max_of]. eexists. split; [reflexivity|].
  revert x. induction l as [|y l IH]; intros x; cbn [fold_left].
  - split; [now left|]. intros z [->|[]]. lra.
  - destruct (IH (if Rltb x y then y else x)) as [I M]. split.
    + destruct I as [I|I]; [|right; now right]. rewrite <- I. destruct (Rltb x y); [right; now left|now left].
    + intros z Hz. assert (B := M _ (or_introl eq_refl)). destruct (Rltb_spec x y).
      * destruct Hz as [<-|[<-|Hz]]; [lra|exact B|apply M; now right].
      * destruct Hz as [<-|[<-|Hz]]; [exact B|lra|apply M; now right].
Qed.
Lemma min_of_ok l : l <> [] -> exists m, min_of l = Ok m /\ In m l /\ forall x, In x l -> m <= x.
Proof.
  destruct l as [|x l]; [congruence|intros _]. cbn [min_of]. eexists. split; [reflexivity|].
  revert x. induction l as [|y l IH]; intros x; cbn [fold_left].
  - split; [now left|]. intros z [->|[]]. lra.
  - destruct (IH (if Rltb y x then y else x)) as [I M]. split.
    + destruct I as [I|I]; [|right; now right]. rewrite <- I. destruct (Rltb y x); [right; now left|now left].
    + intros z Hz. assert (B := M _ (or_introl eq_refl)). destruct (Rltb_spec y x).
      * destruct Hz as [<-|[<-|Hz]]; [lra|exact B|apply M; now right].
      * destruct Hz as [<-|[<-|Hz]]; [exact B|lra|apply M; now right].
Qed.

Lemma measured_in p d q : In q (measured p d) <->
  In q (combine (combine (p_freq p) (d_mean d)) (d_std d)) /\ significant q.
Proof. unfold measured. rewrite filter_In. destruct (significant_dec q); intuition discriminate. Qed.

Lemma measured_positive p d q : In q (measured p d) -> In (fst (fst q)) (positive (p_freq p)).
Proof.
  intros H. apply measured_in in H. destruct H as [H [S _]]. destruct q as [[f m] s]. cbn [fst snd] in *.
  apply in_combine_l in H. apply in_combine_l in H. rewrite positive_filter. apply filter_In. split; [exact H|].
  now apply Rltb_true.
Qed.

Definition low_values (g : C -> R) (dt : R) (p : processed) (d : pdata) : list R :=
  map (fun q => g (undelayed dt (fst (fst q)) (snd (fst q)))) (filter (fun q => Rltb (fst (fst q)) 100000) (measured p d)).

Lemma low_values_in g dt p d y : In y (low_values g dt p d) <->
  exists q, below_100kHz p d q /\ y = g (undelayed dt (fst (fst q)) (snd (fst q))).
Proof.
  unfold low_values, below_100kHz. rewrite in_map_iff. split.
  - intros (q & E & H). apply filter_In in H. destruct H as [H1 H2]. exists q. split; [|now symmetry].
    split; [exact H1|]. now destruct (Rltb_spec (fst (fst q)) 100000).
  - intros (q & [H1 H2] & ->). exists q. split; [reflexivity|]. apply filter_In. split; [exact H1|]. now apply Rltb_true.
Qed.

Lemma freq_domain_ok g o s p d : prepared o p d -> complete o -> (exists q, below_100kHz p d q) ->
  exists a, plot_freq_domain g o s = Ok a /\ x_title a = None /\ freq_curves g o s p d (x_marks a) /\
    spans_positive p (x_xlim a) /\ just_holds g (best_offset o) p d (x_ylim a).
Proof.
  intros P Hc (q0 & Hq0). assert (P' := P). destruct P as (Hp & Hd & Hn & Lt & Lf & Lm & Ls).
  unfold plot_freq_domain, ready. rewrite Hp. cbn [bind]. rewrite (plotted_ok o p d P'). cbn [bind].
  rewrite !draw_ok by now rewrite !map_length. cbn [bind].
  destruct (fit_marks_ok o s (freq_fit (fun f _ => f) (fun _ y => g y) p)) as (fits & E & F).
  { intros i r Hr. destruct (freq_fit_ok g o p i r Hc Hr) as (ys & _ & Ey). eexists; exact Ey. }
  rewrite E. cbn [bind].
  assert (EL : map (fun q : R * C * C => g (snd (fst q) * time_phase (best_offset o) (fst (fst q)))%C)
     (filter (fun q => Rltb (fst (fst q)) 100000) (measured p d)) = low_values g (best_offset o) p d).
  { unfold low_values. apply map_ext. intros q. now rewrite undelayed_phase. }
  rewrite EL. set (low := low_values g (best_offset o) p d) in *.
  assert (N1 : low <> []).
  { assert (I : In (g (undelayed (best_offset o) (fst (fst q0)) (snd (fst q0)))) low) by (apply low_values_in; now exists q0).
    intros X. rewrite X in I. destruct I. }
  assert (N2 : filter (Rltb 0) (p_freq p) <> []).
  { rewrite <- positive_filter. assert (I := measured_positive p d q0 (proj1 Hq0)). intros X. rewrite X in I. destruct I. }
  destruct (max_of_ok _ N1) as (yh & -> & Iy & My). destruct (min_of_ok _ N1) as (yl & -> & Il & Ml).
  destruct (min_of_ok _ N2) as (f0 & -> & I0 & M0). destruct (max_of_ok _ N2) as (f1 & -> & I1 & M1).
  cbn [bind]. eexists. split; [reflexivity|]. cbn [x_title x_marks x_xlim x_ylim]. split; [reflexivity|]. split; [|split].
  - exists (chosen o s), fits. split; [apply chosen_drawn|]. split.
    + eapply forall2_weaken; [|exact F]. intros i m (r & c & Er & Ec & ->).
      destruct (freq_fit_ok g o p i r Hc Er) as (ys & Fy & Ey). exists r, ys. split; [exact Er|]. split; [exact Fy|].
      f_equal. congruence.
    + unfold freq_points.
      assert (EM : forall v : R * C * C -> C,
        map (fun q => Some (g (v q * time_phase (best_offset o) (fst (fst q)))%C)) (measured p d)
        = map (fun q => Some (g (undelayed (best_offset o) (fst (fst q)) (v q)))) (measured p d))
        by (intros v; apply map_ext; intros q; now rewrite undelayed_phase).
      now rewrite !EM.
  - exists f0, f1. rewrite positive_filter. split; [reflexivity|]. split; [exact I0|]. split; [exact I1|].
    intros f Hf. split; [now apply M0|now apply M1].
  - eexists. split; [reflexivity|]. split.
    + intros q Hq. assert (I : In (g (undelayed (best_offset o) (fst (fst q)) (snd (fst q)))) low) by (apply low_values_in; now exists q).
      assert (B1 := My _ I). assert (B2 := Ml _ I). destruct (Rltb_spec yh (- yl)); lra.
    + destruct (Rltb_spec yh (- yl)) as [H|H].
      * apply low_values_in in Il. destruct Il as (q & Hq & Eq). exists q. split; [exact Hq|]. right. rewrite <- Eq. ring.
      * apply low_values_in in Iy. destruct Iy as (q & Hq & Eq). exists q. split; [exact Hq|]. left. now symmetry.
Qed.

Lemma just_holds_high g dt p d lim : (forall z, 0 <= g z) -> just_holds g dt p d lim ->
  exists b, lim = Some (- b, b) /\ (forall q, below_100kHz p d q -> g (undelayed dt (fst (fst q)) (snd (fst q))) <= b) /\
    exists q, below_100kHz p d q /\ g (undelayed dt (fst (fst q)) (snd (fst q))) = b.
Proof.
  intros Hg (b & -> & H1 & (q & Hq & H2)). exists b. split; [reflexivity|]. split.
  - intros q' Hq'. apply (H1 q' Hq').
  - exists q. split; [exact Hq|]. destruct H2 as [H2|H2]; [exact H2|].
    assert (B := H1 q Hq). assert (G := Hg (undelayed dt (fst (fst q)) (snd (fst q)))). lra.
Qed.

Lemma re_im_ok o s p d sv sp sn : prepared o p d -> complete o -> (exists q, below_100kHz p d q) ->
  makes2 (plot_re_im_didv o s sv sp sn) sv (sp ++ "didv_real_" ++ sn ++ ".png") (sp ++ "didv_imag_" ++ sn ++ ".png") (fun a b =>
    x_title a = Some "Real Part of dIdV"%string /\ x_title b = Some "Imaginary Part of dIdV"%string /\
    freq_curves fst o s p d (x_marks a) /\ freq_curves snd o s p d (x_marks b) /\
    spans_positive p (x_xlim a) /\ spans_positive p (x_xlim b) /\
    just_holds fst (best_offset o) p d (x_ylim a) /\ just_holds snd (best_offset o) p d (x_ylim b)).
Proof.
  intros P C Q. destruct (freq_domain_ok fst o s p d P C Q) as (a & Ea & _ & Ha).
  destruct (freq_domain_ok snd o s p d P C Q) as (b & Eb & _ & Hb).
  unfold plot_re_im_didv. rewrite Ea, Eb. cbn [bind present followed fst snd app]. do 2 eexists. split; [reflexivity|].
  cbn [titled x_title x_marks x_xlim x_ylim]. tauto.
Qed.

Lemma abs_phase_ok o s p d sv sp sn : prepared o p d -> complete o -> (exists q, below_100kHz p d q) ->
  makes2 (plot_abs_phase_didv o s sv sp sn) sv (sp ++ "didv_abs_" ++ sn ++ ".png") (sp ++ "didv_phase_" ++ sn ++ ".png") (fun a b =>
    x_title a = Some "|dIdV|"%string /\ x_title b = Some "Phase of dIdV"%string /\
    freq_curves Cmod o s p d (x_marks a) /\ freq_curves np_angle o s p d (x_marks b) /\
    spans_positive p (x_xlim a) /\ spans_positive p (x_xlim b) /\
    (exists top, x_ylim a = Some (0, top) /\
      (forall q, below_100kHz p d q -> Cmod (snd (fst q)) <= top) /\ exists q, below_100kHz p d q /\ Cmod (snd (fst q)) = top) /\
    x_ylim b = Some (- PI, PI)).
Proof.
  intros P C Q. destruct (freq_domain_ok Cmod o s p d P C Q) as (a & Ea & _ & Ha1 & Ha2 & Ha3).
  destruct (freq_domain_ok np_angle o s p d P C Q) as (b & Eb & _ & Hb1 & Hb2 & _).
  unfold plot_abs_phase_didv. rewrite Ea, Eb. cbn [bind present followed fst snd app]. do 2 eexists. split; [reflexivity|].
  assert (U : forall dt f z, Cmod (undelayed dt f z) = Cmod z).
  { intros dt f z. rewrite <- undelayed_phase, Cmod_mult. unfold time_phase.
    assert (X := cis_n2 (2 * PI * dt * f)). rewrite cn2_Cmod in X.
    assert (Y := Cmod_ge_0 (cis (2 * PI * dt * f))). assert (Cmod (cis (2 * PI * dt * f)) = 1) as -> by nra. ring. }
  destruct (just_holds_high _ _ _ _ _ Cmod_ge_0 Ha3) as (t & Et & T1 & (q & Hq & T2)).
  unfold from_zero. cbn [titled x_ylim]. rewrite Et. cbn [titled ylimited x_title x_marks x_xlim x_ylim].
  repeat (split; [first [reflexivity|assumption]|]). split; [|reflexivity].
  exists t. split; [reflexivity|]. split.
  - intros q' Hq'. rewrite <- (U (best_offset o) (fst (fst q'))). now apply T1.
  - exists q. split; [exact Hq|]. rewrite <- (U (best_offset o) (fst (fst q))). exact T2.
Qed.
