(** * Consistency of the four frequency domain figures; example object *)
From Coq Require Import String Reals Sorted.
From Coquelicot Require Import Complex.
From Verif Require Import Base ListLemmas Dft UtilsModel DidvModel PlotModel IvPlotModel DidvPlotModel DidvPlotSpec
  DidvPlotProofs1 DidvPlotProofs2 DidvPlotProofs3.
Local Open Scope R_scope.

Lemma consistent o s p d a b c e k x1 x2 x3 x4 re im m ph :
  freq_curves fst o s p d (x_marks a) -> freq_curves snd o s p d (x_marks b) ->
  freq_curves Cmod o s p d (x_marks c) -> freq_curves np_angle o s p d (x_marks e) ->
  first_point a k x1 re -> first_point b k x2 im -> first_point c k x3 m -> first_point e k x4 ph ->
  x1 = x2 /\ x1 = x3 /\ x1 = x4 /\ 0 < x1 /\ 0 < m /\ - PI < ph <= PI /\ re = m * cos ph /\ im = m * sin ph.
Proof.
  intros Ha Hb Hc He Pa Pb Pc Pe.
  apply (freq_first_point fst o s p d a k x1 re Ha) in Pa. destruct Pa as (q & Eq & -> & ->).
  apply (freq_first_point snd o s p d b k x2 im Hb) in Pb. destruct Pb as (q2 & Eq2 & -> & ->).
  apply (freq_first_point Cmod o s p d c k x3 m Hc) in Pc. destruct Pc as (q3 & Eq3 & -> & ->).
  apply (freq_first_point np_angle o s p d e k x4 ph He) in Pe. destruct Pe as (q4 & Eq4 & -> & ->).
  assert (q2 = q) as -> by congruence. assert (q3 = q) as -> by congruence. assert (q4 = q) as -> by congruence.
  set (z := undelayed (best_offset o) (fst (fst q)) (snd (fst q))).
  destruct (np_angle_spec z) as [B E].
  apply nth_error_In in Eq. apply measured_in in Eq. destruct Eq as [_ [S1 S2]].
  repeat split; try exact S1; try apply B.
  - apply Cmod_pos. intros X. unfold z in X. rewrite <- undelayed_phase in X.
    assert (Y := f_equal Cmod X). rewrite Cmod_mult, Cmod_0 in Y.
    assert (Z := cis_n2 (2 * PI * best_offset o * fst (fst q))). rewrite cn2_Cmod in Z.
    assert (G := Cmod_ge_0 (snd q)). fold (time_phase (best_offset o) (fst (fst q))) in Z. nra.
  - transitivity (fst (RtoC (Cmod z) * cis (np_angle z))%C); [now rewrite <- E|]. unfold cis. cbn [fst snd Cmult RtoC]. ring.
  - transitivity (snd (RtoC (Cmod z) * cis (np_angle z))%C); [now rewrite <- E|]. unfold cis. cbn [fst snd Cmult RtoC]. ring.
Qed.

Lemma reciprocal o s p d a b e k x1 x2 re im zr zi :
  freq_curves fst o s p d (x_marks a) -> freq_curves snd o s p d (x_marks b) -> dvdi_curves o s p d (x_marks e) ->
  first_point a k x1 re -> first_point b k x2 im -> first_point e k zr zi ->
  re * zr - im * zi = 1 /\ re * zi + im * zr = 0.
Proof.
  intros Ha Hb (l & fits & _ & _ & E) Pa Pb (c & Ec & Ex & Ey).
  apply (freq_first_point fst o s p d a k x1 re Ha) in Pa. destruct Pa as (q & Eq & -> & ->).
  apply (freq_first_point snd o s p d b k x2 im Hb) in Pb. destruct Pb as (q2 & Eq2 & -> & ->).
  assert (q2 = q) as -> by congruence.
  unfold first_curve in Ec. rewrite E in Ec. injection Ec as <-. unfold dvdi_points in Ex, Ey. cbn [c_x c_y] in Ex, Ey.
  rewrite nth_error_map, Eq in Ex. rewrite nth_error_map, Eq in Ey. cbn [option_map] in Ex, Ey.
  set (z := undelayed (best_offset o) (fst (fst q)) (snd (fst q))) in *.
  assert (Nz : z <> RtoC 0).
  { apply nth_error_In in Eq. apply measured_in in Eq. destruct Eq as [_ [S1 S2]].
    intros X. unfold z in X. rewrite <- undelayed_phase in X.
    assert (Y := f_equal Cmod X). rewrite Cmod_mult, Cmod_0 in Y.
    assert (Z := cis_n2 (2 * PI * best_offset o * fst (fst q))). rewrite cn2_Cmod in Z.
    assert (G := Cmod_ge_0 (snd q)). fold (time_phase (best_offset o) (fst (fst q))) in Z. nra. }
  assert (I := Cinv_r z Nz). assert (zr = fst (/ z)%C) as -> by congruence. assert (zi = snd (/ z)%C) as -> by congruence.
  split; [exact (f_equal fst I)|exact (f_equal snd I)].
Qed.

(** Bounds without a time offset: one error above and below the mean. *)
Lemma bounds_undelayed (g : C -> R) o s p d a :
  (g = fst \/ g = snd) -> freq_curves g o s p d (x_marks a) -> best_offset o = 0 ->
  exists c u l, bound_curves a = Some (c, u, l) /\ forall k q, nth_error (measured p d) k = Some q ->
    nth_error (c_y c) k = Some (Some (g (snd (fst q)))) /\
    nth_error (c_y u) k = Some (Some (g (snd (fst q)) + g (snd q))) /\
    nth_error (c_y l) k = Some (Some (g (snd (fst q)) - g (snd q))).
Proof.
  intros Hg (l & fits & _ & _ & E) H0. unfold bound_curves. rewrite E. do 3 eexists. split; [reflexivity|].
  intros k q Hq. unfold freq_points. cbn [c_y]. rewrite !nth_error_map, Hq. cbn [option_map]. rewrite H0, !undelayed_zero.
  destruct Hg as [->| ->]; repeat split.
Qed.

(** ** Example: one bin of data, a 1-pole fit delayed by an eighth of its period *)
Definition ex_fit1 : pfit := mkPfit (mkArgs (Some 1) (Some 1) None None None (Some 1) None None None) (1 / 8) 1.
Definition ex_dproc : processed :=
  mkProc [0; 1] [0; 1] [] 1 [] (Some (mkData [1; 3] [RtoC 0; (1 / 4, 1 / 4)] [RtoC 0; (1, 1)] [] 2 0)).
Definition ex_pdata : pdata := mkData [1; 3] [RtoC 0; (1 / 4, 1 / 4)] [RtoC 0; (1, 1)] [] 2 0.
Definition ex_dobj : dobj := mkDobj (Some ex_dproc) 1 (1 / 2) (1 / 2) (Some ex_fit1) None None.

Lemma ex_prepared : prepared ex_dobj ex_dproc ex_pdata.
Proof. unfold prepared. cbn. repeat split. lia. Qed.
Lemma ex_complete : complete ex_dobj.
Proof.
  intros i r. unfold fit_of. cbn [ex_dobj b_fit1 b_fit2 b_fit3]. destruct (i =? 1)%Z; [|destruct (i =? 2)%Z; [discriminate|destruct (i =? 3)%Z; discriminate]].
  intros E. assert (r = ex_fit1) as -> by congruence. now exists 1%nat.
Qed.
Lemma ex_measured : measured ex_dproc ex_pdata = [(1, (1, 1), (1 / 4, 1 / 4))].
Proof.
  unfold measured. cbn [ex_dproc ex_pdata p_freq d_mean d_std combine filter].
  match goal with |- context [significant_dec (0, ?a, ?b)] => destruct (significant_dec (0, a, b)) as [[H _]|_] end;
    [cbn [fst] in H; lra|].
  match goal with |- context [significant_dec ?q] => destruct (significant_dec q) as [_|N] end; [reflexivity|]. exfalso. apply N.
  split; cbn [fst snd]; [lra|].
  assert (E : ((1, 1) : C) = Cmult (RtoC 4) (1 / 4, 1 / 4)) by (apply Ceq; cbn [fst snd Cmult RtoC]; field).
  rewrite E, Cmod_mult, Cmod_R, Rabs_pos_eq by lra.
  assert (0 < Cmod (1 / 4, 1 / 4)); [|lra]. apply Cmod_pos. intros X. injection X; lra.
Qed.
Lemma ex_below : exists q, below_100kHz ex_dproc ex_pdata q.
Proof. exists (1, (1, 1), (1 / 4, 1 / 4)). unfold below_100kHz. rewrite ex_measured. cbn [In fst]. split; [tauto|lra]. Qed.
Lemma ex_best : best_fit ex_dobj 1 ex_fit1.
Proof.
  split; [reflexivity|]. intros j r'. unfold fit_of. cbn [ex_dobj b_fit1 b_fit2 b_fit3].
  destruct (Z.eqb_spec j 1) as [->|]; [|destruct (j =? 2)%Z; [discriminate|destruct (j =? 3)%Z; discriminate]].
  intros E. assert (r' = ex_fit1) as -> by congruence. split; [lra|lia].
Qed.
Lemma ex_offset : best_offset ex_dobj = 1 / 8.
Proof. apply (best_offset_some _ _ _ ex_best). Qed.
Lemma ex_impedances : impedances_nonzero ex_dobj ex_dproc.
Proof.
  intros i r f z Hr _ Ez.
  assert (r = ex_fit1) as ->.
  { unfold fit_of in Hr. cbn [ex_dobj b_fit1 b_fit2 b_fit3] in Hr.
    destruct (i =? 1)%Z; [congruence|destruct (i =? 2)%Z; [discriminate|destruct (i =? 3)%Z; discriminate]]. }
  cbn in Ez. injection Ez as <-. unfold onepoleimpedance, jw. intros X. apply (f_equal fst) in X. cbn in X. lra.
Qed.

(** With the time offset the drawn bounds of the real part shrink onto the mean. *)
Lemma ex_bounds_collapse s sv sp sn :
  makes2 (plot_re_im_didv ex_dobj s sv sp sn) sv (sp ++ "didv_real_" ++ sn ++ ".png") (sp ++ "didv_imag_" ++ sn ++ ".png")
    (fun a _ => exists c u l y, bound_curves a = Some (c, u, l) /\
       c_y c = [Some y] /\ c_y u = [Some y] /\ c_y l = [Some y]).
Proof.
  destruct (re_im_ok ex_dobj s ex_dproc ex_pdata sv sp sn ex_prepared ex_complete ex_below) as (a & b & E & _ & _ & Ha & _).
  exists a, b. split; [exact E|]. destruct Ha as (l & fits & _ & _ & Em). unfold bound_curves. rewrite Em.
  do 4 eexists. split; [reflexivity|]. unfold freq_points. cbn [c_y]. rewrite ex_measured, ex_offset. cbn [map fst snd].
  assert (PH : time_phase (1 / 8) 1 = (1 / sqrt 2, 1 / sqrt 2)).
  { unfold time_phase, cis. replace (2 * PI * (1 / 8) * 1) with (PI / 4) by field. now rewrite cos_PI4, sin_PI4. }
  rewrite <- !undelayed_phase, PH. split; [reflexivity|].
  split; (f_equal; f_equal; cbn [fst snd Cmult Cplus Cminus Copp]; ring).
Qed.

(** Example: data that are exactly the delayed admittance of that fit, without errors. *)
Definition ex_y : C := (1 / onepoleimpedance 1 (1 + 1) (1 / (1 + 1)))%C.
Definition ex_exact_data : pdata :=
  mkData [1; 3] [RtoC 0; RtoC 0] [RtoC 0; (ex_y * cis (- (2 * PI * 1 * (1 / 8))))%C] [] 2 0.
Definition ex_exact_proc : processed := mkProc [0; 1] [0; 1] [] 1 [] (Some ex_exact_data).
Definition ex_exact : dobj := mkDobj (Some ex_exact_proc) 1 (1 / 2) (1 / 2) (Some ex_fit1) None None.

Lemma ex_exact_prepared : prepared ex_exact ex_exact_proc ex_exact_data.
Proof. unfold prepared. cbn. repeat split. lia. Qed.
Lemma ex_exact_complete : complete ex_exact.
Proof. exact ex_complete. Qed.
Lemma ex_exact_best : best_fit ex_exact 1 ex_fit1.
Proof. exact ex_best. Qed.
Lemma ex_y_nonzero : ex_y <> RtoC 0.
Proof.
  assert (N : onepoleimpedance 1 (1 + 1) (1 / (1 + 1)) <> RtoC 0).
  { unfold onepoleimpedance, jw. intros Y. apply (f_equal fst) in Y. cbn in Y. lra. }
  unfold ex_y, Cdiv. rewrite Cmult_1_l. intros X. assert (I := Cinv_r _ N). rewrite X, Cmult_0_r in I. injection I. lra.
Qed.
Lemma ex_exact_measured q : In q (measured ex_exact_proc ex_exact_data) ->
  q = (1, (ex_y * cis (- (2 * PI * 1 * (1 / 8))))%C, RtoC 0).
Proof.
  intros H. apply measured_in in H. destruct H as [H [S _]]. cbn [ex_exact_proc ex_exact_data p_freq d_mean d_std combine In] in H.
  destruct H as [H|[H|[]]]; subst q; [cbn [fst] in S; lra|reflexivity].
Qed.
Lemma ex_exact_below : exists q, below_100kHz ex_exact_proc ex_exact_data q.
Proof.
  exists (1, (ex_y * cis (- (2 * PI * 1 * (1 / 8))))%C, RtoC 0). split; [|cbn [fst]; lra].
  apply measured_in. split; [right; now left|]. split; cbn [fst snd]; [lra|]. rewrite Cmod_0, Cmod_mult.
  assert (P := Cmod_pos _ ex_y_nonzero). assert (Z := cis_n2 (- (2 * PI * 1 * (1 / 8)))). rewrite cn2_Cmod in Z.
  assert (G := Cmod_ge_0 (cis (- (2 * PI * 1 * (1 / 8))))). nra.
Qed.
Lemma ex_exact_follows : follows_fit ex_exact_proc ex_exact_data ex_fit1.
Proof. intros q H. apply ex_exact_measured in H. subst q. exists ex_y. split; reflexivity. Qed.
Lemma ex_exact_impedances : impedances_nonzero ex_exact ex_exact_proc.
Proof. exact ex_impedances. Qed.
