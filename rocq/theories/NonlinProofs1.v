(** * Peak and Fourier integral of the pulse shapes *)
From Coq Require Import Reals ZArith List Bool Lia Lra.
From Verif Require Import Base ListLemmas Dft UtilsModel UtilsSpec UtilsProofs1 WindowModel CutModel OFModel NonlinModel NonlinSpec.
From Coquelicot Require Import Complex RInt Lim_seq Rbar Continuity Hierarchy Derive AutoDerive RInt_analysis ElemFct Rcomplements.
Import ListNotations.
Local Open Scope R_scope.

Lemma exp_convex l y : 0 <= l <= 1 -> exp (l * y) <= l * exp y + (1 - l).
Proof.
  intros Hl. set (p := l * y).
  assert (H1 : exp p * (1 + (y - p)) <= exp y).
  { replace (exp y) with (exp p * exp (y - p)) by (rewrite <- exp_plus; f_equal; ring).
    apply Rmult_le_compat_l; [left; apply exp_pos|apply exp_ineq1_le]. }
  assert (H2 : exp p * (1 + - p) <= 1).
  { replace 1 with (exp p * exp (- p)) at 2 by (rewrite <- exp_plus, <- exp_0; f_equal; ring).
    apply Rmult_le_compat_l; [left; apply exp_pos|apply exp_ineq1_le]. }
  assert (H3 := Rmult_le_compat_l l _ _ (proj1 Hl) H1).
  assert (H4 := Rmult_le_compat_l (1 - l) _ _ ltac:(lra) H2).
  replace (exp p) with (l * (exp p * (1 + (y - p))) + (1 - l) * (exp p * (1 + - p))).
  2: { unfold p. ring. }
  lra.
Qed.

(** Difference of two exponentials and the time of its extremum *)
Definition ediff (a b t : R) : R := exp (- (a * t)) - exp (- (b * t)).
Definition tpeak (a b : R) : R := ln (b / a) / (b - a).

Lemma tpeak_sym a b : 0 < a -> 0 < b -> a <> b -> tpeak a b = tpeak b a.
Proof.
  intros Ha Hb N. unfold tpeak.
  replace (b / a) with (/ (a / b)) by (field; lra).
  rewrite ln_Rinv by (apply Rdiv_lt_0_compat; assumption). field. lra.
Qed.

Lemma tpeak_eq a b : 0 < a -> 0 < b -> a <> b ->
  a * exp (- (a * tpeak a b)) = b * exp (- (b * tpeak a b)).
Proof.
  intros Ha Hb N.
  assert (E : exp ((b - a) * tpeak a b) = b / a).
  { replace ((b - a) * tpeak a b) with (ln (b / a)) by (unfold tpeak; field; lra).
    apply exp_ln. now apply Rdiv_lt_0_compat. }
  replace (- (a * tpeak a b)) with (- (b * tpeak a b) + (b - a) * tpeak a b) by ring.
  rewrite exp_plus, E. field. lra.
Qed.

Lemma ediff_bounds a b t : 0 < a -> a < b -> 0 <= t ->
  0 <= ediff a b t <= ediff a b (tpeak a b) /\ 0 < ediff a b (tpeak a b) /\ 0 < tpeak a b.
Proof.
  intros Ha Hb Ht. set (s := tpeak a b).
  assert (P : 0 < s).
  { unfold s, tpeak. apply Rdiv_lt_0_compat; [|lra]. rewrite <- ln_1. apply ln_increasing; [lra|].
    apply (Rmult_lt_reg_r a); [exact Ha|]. unfold Rdiv. rewrite Rmult_assoc, Rinv_l; lra. }
  assert (E := tpeak_eq a b Ha ltac:(lra) ltac:(lra)). fold s in E.
  split; [split|split; [|exact P]].
  - unfold ediff. assert (exp (- (b * t)) <= exp (- (a * t))); [|lra].
    destruct (Req_dec t 0) as [->|]; [rewrite !Rmult_0_r; lra|].
    left. apply exp_increasing. apply Ropp_lt_contravar. apply Rmult_lt_compat_r; lra.
  - unfold ediff. set (m := b * exp (- (b * s))) in *.
    assert (Mp : 0 < m) by (apply Rmult_lt_0_compat; [lra|apply exp_pos]).
    assert (Ea : exp (- (a * s)) = m / a) by (rewrite <- E; field; lra).
    assert (Eb : exp (- (b * s)) = m / b) by (unfold m; field; lra).
    replace (- (a * t)) with (- (a * s) + - (a * (t - s))) by ring.
    replace (- (b * t)) with (- (b * s) + - (b * (t - s))) by ring.
    rewrite !exp_plus, Ea, Eb.
    assert (L : 0 <= a / b <= 1).
    { split; [left; apply Rdiv_lt_0_compat; lra|]. apply (Rmult_le_reg_r b); [lra|].
      unfold Rdiv. rewrite Rmult_assoc, Rinv_l; lra. }
    assert (Cv := exp_convex (a / b) (- (b * (t - s))) L).
    replace (a / b * - (b * (t - s))) with (- (a * (t - s))) in Cv by (field; lra).
    assert (H := Rmult_le_compat_l (m / a) _ _ ltac:(left; apply Rdiv_lt_0_compat; lra) Cv).
    replace (m / a * (a / b * exp (- (b * (t - s))) + (1 - a / b)))
      with (m / b * exp (- (b * (t - s))) + (m / a - m / b)) in H by (field; lra).
    lra.
  - unfold ediff. assert (exp (- (b * s)) < exp (- (a * s))); [|lra].
    apply exp_increasing. apply Ropp_lt_contravar. apply Rmult_lt_compat_r; lra.
Qed.

Lemma ediff_peak a b A : 0 < a -> 0 < b -> a <> b ->
  has_peak (fun t => A / ediff a b (tpeak a b) * ediff a b t) A /\ ediff a b (tpeak a b) <> 0.
Proof.
  intros Ha Hb N.
  assert (H : forall a b, 0 < a -> a < b ->
     has_peak (fun t => A / ediff a b (tpeak a b) * ediff a b t) A /\ ediff a b (tpeak a b) <> 0).
  { clear. intros a b Ha Hb. destruct (ediff_bounds a b 0 Ha Hb (Rle_refl 0)) as (_ & P & T).
    split; [|lra]. exists (fun t => ediff a b t / ediff a b (tpeak a b)). split; [|split].
    - intros t. field. lra.
    - intros t Ht. destruct (ediff_bounds a b t Ha Hb Ht) as (B & _ & _). split.
      + apply Rmult_le_pos; [lra|]. left. now apply Rinv_0_lt_compat.
      + apply (Rmult_le_reg_r (ediff a b (tpeak a b))); [exact P|]. unfold Rdiv. rewrite Rmult_assoc, Rinv_l; lra.
    - exists (tpeak a b). split; [exact T|]. field. lra. }
  destruct (Rlt_dec a b) as [L|L]; [now apply H|].
  destruct (H b a Hb ltac:(lra)) as ((u & U1 & U2) & NZ).
  assert (S : forall t, ediff a b t = - ediff b a t) by (intros t; unfold ediff; ring).
  rewrite (tpeak_sym a b Ha Hb N), S. split; [|lra].
  exists u. split; [|exact U2]. intros t. rewrite S, <- U1. field. lra.
Qed.

(** ** The scaled amplitude *)
Lemma scaled_amp_ok A tr tf : 0 < tr -> 0 < tf -> tr <> tf ->
  scaled_amp A tr tf = Some (A / ediff (/ tf) (/ tr) (tpeak (/ tf) (/ tr))) .
Proof.
  intros Hr Hf N. unfold scaled_amp, Reqb, Rltb.
  destruct (Req_EM_T (tr - tf) 0) as [E|_]; [exfalso; lra|].
  destruct (Rlt_dec 0 (tr / tf)) as [P|X]; [clear P|exfalso; apply X; now apply Rdiv_lt_0_compat].
  f_equal. f_equal. unfold ediff, tpeak, Rpower.
  assert (/ tr - / tf <> 0).
  { intros X. apply N. assert (Y : (/ tr - / tf) * (tr * tf) = tf - tr) by (field; lra). rewrite X in Y. lra. }
  replace (/ tr / / tf) with (/ (tr / tf)) by (field; lra).
  rewrite ln_Rinv by (now apply Rdiv_lt_0_compat).
  f_equal; [|]; [f_equal|f_equal; f_equal]; field; lra.
Qed.

Lemma tau_exp t tau : exp (- t / tau) = exp (- (/ tau * t)).
Proof. f_equal. unfold Rdiv. ring. Qed.

Lemma twopoletime_ok n fs A tr tf t0 : 0 < tr -> 0 < tf -> tr <> tf ->
  exists c out, twopoletime n fs true A tr tf t0 = Ok (Some out) /\
    has_peak (fun t => c * (exp (- t / tf) - exp (- t / tr))) A /\
    is_shift_of (mk n (fun k => c * (exp (- (INR k / fs) / tf) - exp (- (INR k / fs) / tr)))) (int_trunc (t0 * fs)) 0 out.
Proof.
  intros Hr Hf N.
  assert (N' : / tf <> / tr).
  { intros X. apply N. apply (f_equal Rinv) in X. rewrite !Rinv_inv in X. now symmetry. }
  assert (Hr' := Rinv_0_lt_compat _ Hr). assert (Hf' := Rinv_0_lt_compat _ Hf).
  destruct (ediff_peak (/ tf) (/ tr) A Hf' Hr' N') as [(u & U1 & U2) _].
  eexists. unfold twopoletime. rewrite (scaled_amp_ok A tr tf Hr Hf N).
  set (c := A / ediff (/ tf) (/ tr) (tpeak (/ tf) (/ tr))) in *.
  destruct (shift_correct (map (fun t => c * (exp (- t / tf) - exp (- t / tr))) (nl_time n fs)) (int_trunc (t0 * fs)) 0)
    as (out & E & S).
  exists out. rewrite E. simpl. split; [reflexivity|]. split.
  - exists u. split; [|exact U2]. intros t. rewrite <- U1. unfold ediff. now rewrite !tau_exp.
  - unfold nl_time, mk in S. rewrite map_map in S. exact S.
Qed.

(** ** Fourier integrals *)
Lemma denom_pos w tau : 0 < 1 + (w * tau) ^ 2.
Proof. assert (H := pow2_ge_0 (w * tau)). lra. Qed.

Definition Fcos (tau w t : R) : R :=
  exp (- t / tau) * (- tau * cos (w * t) + w * tau ^ 2 * sin (w * t)) / (1 + (w * tau) ^ 2).
Definition Fsin (tau w t : R) : R :=
  exp (- t / tau) * (tau * sin (w * t) + w * tau ^ 2 * cos (w * t)) / (1 + (w * tau) ^ 2).

Lemma is_lim_exp_bounded tau g M : 0 < tau -> (forall t, Rabs (g t) <= M) ->
  is_lim (fun t => exp (- t / tau) * g t) p_infty 0.
Proof.
  intros Ht B.
  assert (E : is_lim (fun t => exp (- t / tau)) p_infty 0).
  { apply is_lim_ext with (fun t => exp (- / tau * t)); [intros t; f_equal; unfold Rdiv; ring|].
    apply (is_lim_comp exp (fun t => - / tau * t) p_infty 0 m_infty).
    - apply is_lim_exp_m.
    - assert (H := is_lim_scal_l (fun t => t) (- / tau) p_infty p_infty (is_lim_id p_infty)).
      assert (P : - / tau < 0) by (assert (X := Rinv_0_lt_compat _ Ht); lra).
      simpl in H. destruct (Rle_dec 0 (- / tau)) as [X|X]; [exfalso; lra|exact H].
    - exists 0. intros y _. discriminate. }
  assert (M0 : 0 <= M) by (eapply Rle_trans; [apply Rabs_pos|apply (B 0)]).
  apply (is_lim_le_le_loc (fun t => - M * exp (- t / tau)) (fun t => M * exp (- t / tau))).
  - exists 0. intros t _. assert (P := exp_pos (- t / tau)). assert (Bt := B t).
    apply Rabs_le_between in Bt. split.
    + replace (- M * exp (- t / tau)) with (exp (- t / tau) * - M) by ring. apply Rmult_le_compat_l; lra.
    + rewrite (Rmult_comm M). apply Rmult_le_compat_l; lra.
  - replace (Finite 0) with (Rbar_mult (- M) 0) by (simpl; f_equal; ring). now apply is_lim_scal_l.
  - replace (Finite 0) with (Rbar_mult M 0) by (simpl; f_equal; ring). now apply is_lim_scal_l.
Qed.

Lemma Fcos_lim tau w : 0 < tau -> is_lim (Fcos tau w) p_infty 0.
Proof.
  intros Ht. assert (D := denom_pos w tau). unfold Fcos.
  apply is_lim_ext with (fun t => exp (- t / tau) * ((- tau * cos (w * t) + w * tau ^ 2 * sin (w * t)) / (1 + (w * tau) ^ 2))).
  { intros t. unfold Rdiv. ring. }
  apply is_lim_exp_bounded with ((tau + Rabs (w * tau ^ 2)) / (1 + (w * tau) ^ 2)); [exact Ht|].
  intros t. unfold Rdiv. rewrite Rabs_mult, (Rabs_right (/ _)) by (apply Rle_ge; left; now apply Rinv_0_lt_compat).
  apply Rmult_le_compat_r; [left; now apply Rinv_0_lt_compat|].
  eapply Rle_trans; [apply Rabs_triang|]. apply Rplus_le_compat.
  - rewrite Rabs_mult, Rabs_Ropp, (Rabs_right tau) by lra.
    rewrite <- (Rmult_1_r tau) at 2. apply Rmult_le_compat_l; [lra|]. apply Rabs_le. apply COS_bound.
  - rewrite Rabs_mult. rewrite <- (Rmult_1_r (Rabs (w * tau ^ 2))) at 2. apply Rmult_le_compat_l; [apply Rabs_pos|].
    apply Rabs_le. apply SIN_bound.
Qed.

Lemma Fsin_lim tau w : 0 < tau -> is_lim (Fsin tau w) p_infty 0.
Proof.
  intros Ht. assert (D := denom_pos w tau). unfold Fsin.
  apply is_lim_ext with (fun t => exp (- t / tau) * ((tau * sin (w * t) + w * tau ^ 2 * cos (w * t)) / (1 + (w * tau) ^ 2))).
  { intros t. unfold Rdiv. ring. }
  apply is_lim_exp_bounded with ((tau + Rabs (w * tau ^ 2)) / (1 + (w * tau) ^ 2)); [exact Ht|].
  intros t. unfold Rdiv. rewrite Rabs_mult, (Rabs_right (/ _)) by (apply Rle_ge; left; now apply Rinv_0_lt_compat).
  apply Rmult_le_compat_r; [left; now apply Rinv_0_lt_compat|].
  eapply Rle_trans; [apply Rabs_triang|]. apply Rplus_le_compat.
  - rewrite Rabs_mult, (Rabs_right tau) by lra.
    rewrite <- (Rmult_1_r tau) at 2. apply Rmult_le_compat_l; [lra|]. apply Rabs_le. apply SIN_bound.
  - rewrite Rabs_mult. rewrite <- (Rmult_1_r (Rabs (w * tau ^ 2))) at 2. apply Rmult_le_compat_l; [apply Rabs_pos|].
    apply Rabs_le. apply COS_bound.
Qed.

Lemma Fcos_der tau w t : 0 < tau -> is_derive (Fcos tau w) t (exp (- t / tau) * cos (w * t)).
Proof.
  intros Ht. assert (D := denom_pos w tau). unfold Fcos. auto_derive; [repeat split; lra|].
  simpl. match goal with |- @eq _ ?a ?b => change (@eq R a b) end. unfold Rdiv. field. split; simpl in D; lra.
Qed.
Lemma Fsin_der tau w t : 0 < tau -> is_derive (Fsin tau w) t (exp (- t / tau) * - sin (w * t)).
Proof.
  intros Ht. assert (D := denom_pos w tau). unfold Fsin. auto_derive; [repeat split; lra|].
  simpl. match goal with |- @eq _ ?a ?b => change (@eq R a b) end. unfold Rdiv. field. split; simpl in D; lra.
Qed.

Lemma continuous_cos_part tau w t : continuous (fun t => exp (- t / tau) * cos (w * t)) t.
Proof. apply (ex_derive_continuous (fun t => exp (- t / tau) * cos (w * t))). auto_derive. exact I. Qed.
Lemma continuous_sin_part tau w t : continuous (fun t => exp (- t / tau) * - sin (w * t)) t.
Proof. apply (ex_derive_continuous (fun t => exp (- t / tau) * - sin (w * t))). auto_derive. exact I. Qed.

Lemma improper_cos tau w : 0 < tau -> improper (fun t => exp (- t / tau) * cos (w * t)) (tau / (1 + (w * tau) ^ 2)).
Proof.
  intros Ht. assert (D := denom_pos w tau). exists (fun T => Fcos tau w T - Fcos tau w 0). split.
  - intros T. apply (is_RInt_derive (Fcos tau w)).
    + intros x _. now apply Fcos_der.
    + intros x _. apply continuous_cos_part.
  - replace (Finite (tau / (1 + (w * tau) ^ 2))) with (Finite (0 - Fcos tau w 0)).
    2: { f_equal. unfold Fcos. rewrite Rmult_0_r, sin_0, cos_0.
         replace (- 0 / tau) with 0 by (field; lra). rewrite exp_0. field. lra. }
    apply (is_lim_minus' (Fcos tau w) (fun _ => Fcos tau w 0)); [now apply Fcos_lim|apply is_lim_const].
Qed.
Lemma improper_sin tau w : 0 < tau -> improper (fun t => exp (- t / tau) * - sin (w * t)) (- (w * tau ^ 2) / (1 + (w * tau) ^ 2)).
Proof.
  intros Ht. assert (D := denom_pos w tau). exists (fun T => Fsin tau w T - Fsin tau w 0). split.
  - intros T. apply (is_RInt_derive (Fsin tau w)).
    + intros x _. now apply Fsin_der.
    + intros x _. apply continuous_sin_part.
  - replace (Finite (- (w * tau ^ 2) / (1 + (w * tau) ^ 2))) with (Finite (0 - Fsin tau w 0)).
    2: { f_equal. unfold Fsin. rewrite Rmult_0_r, sin_0, cos_0.
         replace (- 0 / tau) with 0 by (field; lra). rewrite exp_0. field. lra. }
    apply (is_lim_minus' (Fsin tau w) (fun _ => Fsin tau w 0)); [now apply Fsin_lim|apply is_lim_const].
Qed.

Lemma improper_ext f g l : (forall t, f t = g t) -> improper f l -> improper g l.
Proof.
  intros E (F & H1 & H2). exists F. split; [|exact H2]. intros T.
  apply (is_RInt_ext f); [intros x _; apply E|apply H1].
Qed.
Lemma improper_lin f g l m a b : improper f l -> improper g m -> improper (fun t => a * f t + b * g t) (a * l + b * m).
Proof.
  intros (F & F1 & F2) (G & G1 & G2). exists (fun T => a * F T + b * G T). split.
  - intros T. apply (is_RInt_plus (fun t => a * f t) (fun t => b * g t)).
    + apply (is_RInt_scal f 0 T a (F T)). apply F1.
    + apply (is_RInt_scal g 0 T b (G T)). apply G1.
  - apply (is_lim_plus' (fun T => a * F T) (fun T => b * G T)).
    + apply (is_lim_scal_l F a p_infty l F2).
    + apply (is_lim_scal_l G b p_infty m G2).
Qed.

Lemma fourier_ext f g w z : (forall t, f t = g t) -> fourier f w z -> fourier g w z.
Proof. intros E (H1 & H2). split; eapply improper_ext; try eassumption; intros t; simpl; now rewrite E. Qed.

Lemma fourier_lin f g w y z a b : fourier f w y -> fourier g w z ->
  fourier (fun t => a * f t + b * g t) w (RtoC a * y + RtoC b * z)%C.
Proof.
  intros (F1 & F2) (G1 & G2). split.
  - eapply improper_ext. 2: { replace (fst _) with (a * fst y + b * fst z). 2: { simpl. ring. }
      exact (improper_lin _ _ _ _ a b F1 G1). } intros t; simpl; ring.
  - eapply improper_ext. 2: { replace (snd _) with (a * snd y + b * snd z). 2: { simpl. ring. }
      exact (improper_lin _ _ _ _ a b F2 G2). } intros t; simpl; ring.
Qed.

Lemma pole_parts tau w : pole tau w = (tau / (1 + (w * tau) ^ 2), - (w * tau ^ 2) / (1 + (w * tau) ^ 2)).
Proof.
  assert (D := denom_pos w tau). unfold pole. unfold Cdiv, Cmult, Cinv, Cplus, RtoC, Ci; simpl.
  f_equal; field; simpl in D; repeat split; try lra; nra.
Qed.

Lemma fourier_pole tau w : 0 < tau -> fourier (fun t => exp (- t / tau)) w (pole tau w).
Proof. intros H. rewrite pole_parts. split; simpl fst; simpl snd; [now apply improper_cos|now apply improper_sin]. Qed.
