(** * Proofs about TESnoise *)
From Coq Require Import Reals Lra Psatz.
From Verif Require Import Base Dft UtilsModel DidvModel SimModel SimSpec.
From Coquelicot Require Import Coquelicot.
Local Open Scope R_scope.

Lemma fdiv_ok a b : b <> 0 -> fdiv a b = Ok (a / b).
Proof. intros H. unfold fdiv. destruct (Reqb_spec b 0); [contradiction|reflexivity]. Qed.
Lemma fdiv_inv a b c : fdiv a b = Ok c -> b <> 0 /\ c = a / b.
Proof. unfold fdiv. destruct (Reqb_spec b 0); [discriminate|]. intros E. injection E as <-. auto. Qed.
Lemma fdiv_zero a : fdiv a 0 = Err ZeroDivisionError.
Proof. unfold fdiv. destruct (Reqb_spec 0 0); [reflexivity|lra]. Qed.

(** The thermal factor 1 + i w tau0/(1-l) *)
Definition thermal (t : tes) (f : R) : C := (1 + jomega f * RtoC (t_tau0 t) / RtoC (1 - t_loopgain t))%C.

Lemma thermal_re t f : t_loopgain t <> 1 -> thermal t f = (1, 2 * PI * f * t_tau0 t / (1 - t_loopgain t)).
Proof.
  intros H. unfold thermal, jomega, Cdiv. rewrite <- RtoC_inv by lra. unfold Ci, RtoC, Cplus, Cmult, Rdiv. cbn [fst snd].
  apply injective_projections; cbn [fst snd]; ring.
Qed.
Lemma thermal_nz t f : t_loopgain t <> 1 -> thermal t f <> 0%C.
Proof. intros H. rewrite thermal_re by assumption. intros E. apply (f_equal fst) in E. cbn in E. lra. Qed.

(** The impedance *)
Definition Zt (t : tes) (f : R) : C :=
  (RtoC (t_rload t + t_r0 t * (1 + t_beta t)) + jomega f * RtoC (t_inductance t)
   + RtoC (t_r0 t * t_loopgain t / (1 - t_loopgain t) * (2 + t_beta t)) / thermal t f)%C.

Lemma dVdI_ok t f : t_loopgain t <> 1 -> dVdI t f = Ok (Zt t f).
Proof. intros H. unfold dVdI. rewrite fdiv_ok by lra. reflexivity. Qed.
Lemma dVdI_inv t f z : dVdI t f = Ok z -> t_loopgain t <> 1 /\ z = Zt t f.
Proof.
  unfold dVdI. destruct (fdiv _ _) as [q|] eqn:E; [|discriminate]. cbn [bind]. intros H. injection H as <-.
  apply fdiv_inv in E. destruct E as [E ->]. split; [lra|reflexivity].
Qed.
Lemma dIdV_ok t f : t_loopgain t <> 1 -> dIdV t f = Ok (1 / Zt t f)%C.
Proof. intros H. unfold dIdV. now rewrite dVdI_ok. Qed.
Lemma dIdV_inv t f y : dIdV t f = Ok y -> t_loopgain t <> 1 /\ y = (1 / Zt t f)%C.
Proof.
  unfold dIdV. destruct (dVdI t f) eqn:E; [|discriminate]. cbn [bind]. intros H. injection H as <-.
  apply dVdI_inv in E. destruct E as [E ->]. auto.
Qed.

(** The power responsivity *)
Definition Pt (t : tes) (f : R) : C :=
  (RtoC (1 / t_i0 t / (1 - 1 / t_loopgain t)) / thermal t f * (1 / Zt t f))%C.

Lemma dIdP_ok t f : t_loopgain t <> 1 -> t_loopgain t <> 0 -> t_i0 t <> 0 -> dIdP t f = Ok (Pt t f).
Proof.
  intros H1 H2 H3. unfold dIdP. rewrite (fdiv_ok 1 (t_i0 t)) by assumption. cbn [bind].
  rewrite (fdiv_ok 1 (t_loopgain t)) by assumption. cbn [bind].
  rewrite fdiv_ok; [|intros E; apply H1; apply Rmult_eq_reg_r with (/ t_loopgain t); [unfold Rdiv in E; rewrite Rmult_1_l in E; rewrite Rinv_r by assumption; lra|now apply Rinv_neq_0_compat]].
  cbn [bind]. rewrite dIdV_ok by assumption. reflexivity.
Qed.
Lemma dIdP_inv t f p : dIdP t f = Ok p -> t_loopgain t <> 1 /\ t_loopgain t <> 0 /\ t_i0 t <> 0 /\ p = Pt t f.
Proof.
  unfold dIdP. destruct (fdiv 1 (t_i0 t)) as [a|] eqn:E1; [|discriminate]. cbn [bind].
  destruct (fdiv 1 (t_loopgain t)) as [il|] eqn:E2; [|discriminate]. cbn [bind].
  destruct (fdiv a (1 - il)) as [b|] eqn:E3; [|discriminate]. cbn [bind].
  destruct (dIdV t f) as [y|] eqn:E4; [|discriminate]. cbn [bind]. intros H. injection H as <-.
  apply fdiv_inv in E1. apply fdiv_inv in E2. apply fdiv_inv in E3. apply dIdV_inv in E4.
  destruct E1 as [E1 ->], E2 as [E2 ->], E3 as [E3 ->], E4 as [E4 ->]. auto.
Qed.

(** Success of the transition methods *)
Lemma dIdP_zero_gain t f : t_loopgain t = 0 -> dIdP t f = Err ZeroDivisionError.
Proof.
  intros H. unfold dIdP. rewrite H. destruct (fdiv 1 (t_i0 t)) as [a|e] eqn:E; cbn [bind].
  - now rewrite fdiv_zero.
  - unfold fdiv in E. destruct (Reqb _ _); [now injection E as <-|discriminate].
Qed.

Ltac runs t f H1 H2 H3 :=
  rewrite ?(dIdV_ok t f H1), ?(dIdP_ok t f H1 H2 H3); cbn [bind]; rewrite ?(dIdV_ok t f H1), ?(dIdP_ok t f H1 H2 H3); cbn [bind].

Definition physical (t : tes) : Prop :=
  0 <= t_tload t /\ 0 <= t_rload t /\ 0 <= t_tc t /\ 0 <= t_r0 t /\ 0 <= t_G t /\ 0 <= t_ftfn t.

Lemma const_k_pos : 0 < const_k.
Proof. unfold const_k. apply Rdiv_lt_0_compat; [lra|apply pow_lt; lra]. Qed.
Lemma const_e_pos : 0 < const_e.
Proof. unfold const_e. apply Rdiv_lt_0_compat; [lra|apply pow_lt; lra]. Qed.

Lemma s_vload_nonneg t : physical t -> 0 <= s_vload t.
Proof. intros [H1 [H2 _]]. unfold s_vload. assert (K := const_k_pos). repeat (apply Rmult_le_pos; try lra). Qed.
Lemma s_vtes_nonneg t : physical t -> 0 <= s_vtes t.
Proof.
  intros [_ [_ [H1 [H2 _]]]]. unfold s_vtes. assert (K := const_k_pos).
  apply Rmult_le_pos; [|apply pow2_ge_0]. repeat (apply Rmult_le_pos; try lra).
Qed.
Lemma s_ptfn_nonneg t : physical t -> 0 <= s_ptfn t.
Proof.
  intros [_ [_ [_ [_ [H1 H2]]]]]. unfold s_ptfn. assert (K := const_k_pos). assert (K2 := pow2_ge_0 (t_tc t)).
  apply Rmult_le_pos; [|assumption]. apply Rmult_le_pos; [|assumption]. apply Rmult_le_pos; lra.
Qed.
Lemma s_isquid_nonneg t f : 0 <= s_isquid t f.
Proof. unfold s_isquid. apply pow2_ge_0. Qed.

(** The four current noises, when the methods return *)
Lemma itot_parts t f s : s_itot t f = Ok s -> exists a b c, s_iload t f = Ok a /\ s_ites t f = Ok b /\ s_itfn t f = Ok c /\
  s = a + b + c + s_isquid t f.
Proof.
  unfold s_itot. destruct (s_iload t f) as [a|]; [|discriminate]. destruct (s_ites t f) as [b|]; [|discriminate].
  destruct (s_itfn t f) as [c|]; [|discriminate]. cbn [bind]. intros E. injection E as <-. exists a, b, c. auto.
Qed.

Lemma iload_inv t f a : s_iload t f = Ok a -> t_loopgain t <> 1 /\ a = s_vload t * Cmod (1 / Zt t f)%C ^ 2.
Proof.
  unfold s_iload. destruct (dIdV t f) eqn:E; [|discriminate]. cbn [bind]. intros H. injection H as <-.
  apply dIdV_inv in E. destruct E as [E ->]. auto.
Qed.
Lemma ites_inv t f a : s_ites t f = Ok a -> t_loopgain t <> 1 /\ t_loopgain t <> 0 /\ t_i0 t <> 0 /\
  a = s_vtes t * Cmod (1 / Zt t f - RtoC (t_i0 t) * Pt t f)%C ^ 2.
Proof.
  unfold s_ites. destruct (dIdV t f) eqn:E; [|discriminate]. cbn [bind]. destruct (dIdP t f) eqn:E'; [|discriminate]. cbn [bind].
  intros H. injection H as <-. apply dIdV_inv in E. apply dIdP_inv in E'. destruct E as [E ->], E' as [E1 [E2 [E3 ->]]]. auto.
Qed.
Lemma itfn_inv t f a : s_itfn t f = Ok a -> a = s_ptfn t * Cmod (Pt t f) ^ 2.
Proof.
  unfold s_itfn. destruct (dIdP t f) eqn:E'; [|discriminate]. cbn [bind].
  intros H. injection H as <-. apply dIdP_inv in E'. destruct E' as [E1 [E2 [E3 ->]]]. auto.
Qed.

Lemma itot_bounds t f s : physical t -> s_itot t f = Ok s ->
  exists a b c, s_iload t f = Ok a /\ s_ites t f = Ok b /\ s_itfn t f = Ok c /\
  s = a + b + c + s_isquid t f /\ 0 <= a <= s /\ 0 <= b <= s /\ 0 <= c <= s /\ 0 <= s_isquid t f <= s.
Proof.
  intros Hp E. destruct (itot_parts _ _ _ E) as [a [b [c [E1 [E2 [E3 ->]]]]]]. exists a, b, c.
  do 3 (split; [assumption|]). split; [reflexivity|].
  assert (0 <= a). { apply iload_inv in E1. destruct E1 as [_ ->]. apply Rmult_le_pos; [now apply s_vload_nonneg|apply pow2_ge_0]. }
  assert (0 <= b). { apply ites_inv in E2. destruct E2 as [_ [_ [_ ->]]]. apply Rmult_le_pos; [now apply s_vtes_nonneg|apply pow2_ge_0]. }
  assert (0 <= c). { apply itfn_inv in E3. subst c. apply Rmult_le_pos; [now apply s_ptfn_nonneg|apply pow2_ge_0]. }
  assert (K := s_isquid_nonneg t f). lra.
Qed.

Lemma itot_ok t f : t_loopgain t <> 1 -> t_loopgain t <> 0 -> t_i0 t <> 0 -> exists s, s_itot t f = Ok s.
Proof.
  intros H1 H2 H3. unfold s_itot, s_iload, s_ites, s_itfn. rewrite !(dIdV_ok t f H1), !(dIdP_ok t f H1 H2 H3). cbn [bind]. eauto.
Qed.

(** The responsivity does not vanish. *)
Lemma Cinv_nz (z : C) : z <> RtoC 0 -> (/ z)%C <> RtoC 0.
Proof. intros H E. assert (K := Cinv_r z H). rewrite E, Cmult_0_r in K. apply (f_equal fst) in K. cbn in K. lra. Qed.
Lemma RtoC_nz r : r <> 0 -> RtoC r <> 0%C.
Proof. intros H E. apply H. apply (f_equal fst) in E. exact E. Qed.
Lemma Cmod_nz (z : C) : z <> RtoC 0 -> Cmod z <> 0.
Proof. intros H E. apply H. now apply Cmod_eq_0. Qed.
Lemma gain_nz l i0 : l <> 1 -> l <> 0 -> i0 <> 0 -> 1 / i0 / (1 - 1 / l) = - (l / (i0 * (1 - l))).
Proof. intros. field. repeat split; lra. Qed.

Lemma Pt_eq t f : t_loopgain t <> 1 -> t_loopgain t <> 0 -> t_i0 t <> 0 ->
  Pt t f = (- (RtoC (t_loopgain t / (t_i0 t * (1 - t_loopgain t))) / thermal t f * (1 / Zt t f)))%C.
Proof.
  intros H1 H2 H3. unfold Pt. rewrite gain_nz by assumption. rewrite RtoC_opp. unfold Cdiv. ring.
Qed.
Lemma Pt_nz t f : t_loopgain t <> 1 -> t_loopgain t <> 0 -> t_i0 t <> 0 -> Zt t f <> 0%C -> Pt t f <> 0%C.
Proof.
  intros H1 H2 H3 Hz. unfold Pt, Cdiv. repeat apply Cmult_neq_0.
  - apply RtoC_nz. rewrite gain_nz by assumption. apply Ropp_neq_0_compat.
    apply Rmult_integral_contrapositive_currified; [assumption|]. apply Rinv_neq_0_compat.
    apply Rmult_integral_contrapositive_currified; lra.
  - apply Cinv_nz. now apply thermal_nz.
  - apply RtoC_nz. lra.
  - now apply Cinv_nz.
Qed.

Lemma power_times t f p : dIdP t f = Ok p -> Zt t f <> 0%C -> Cmod p ^ 2 <> 0.
Proof.
  intros E Hz. apply dIdP_inv in E. destruct E as [H1 [H2 [H3 ->]]]. apply pow_nonzero, Cmod_nz. now apply Pt_nz.
Qed.

Lemma power_noise t f p si : dIdP t f = Ok p -> Zt t f <> 0%C -> s_itot t f = Ok si ->
  exists a b q sp ia ib ic, s_pload t f = Ok a /\ s_ptes t f = Ok b /\ s_psquid t f = Ok q /\ s_ptot t f = Ok sp /\
    s_iload t f = Ok ia /\ s_ites t f = Ok ib /\ s_itfn t f = Ok ic /\
    a * Cmod p ^ 2 = ia /\ b * Cmod p ^ 2 = ib /\ s_ptfn t * Cmod p ^ 2 = ic /\ q * Cmod p ^ 2 = s_isquid t f /\
    sp * Cmod p ^ 2 = si /\ sp = a + b + s_ptfn t + q.
Proof.
  intros Ep Hz Es. assert (Hn := power_times _ _ _ Ep Hz).
  destruct (itot_parts _ _ _ Es) as [ia [ib [ic [E1 [E2 [E3 ->]]]]]].
  exists (ia / Cmod p ^ 2), (ib / Cmod p ^ 2), (s_isquid t f / Cmod p ^ 2), ((ia + ib + ic + s_isquid t f) / Cmod p ^ 2), ia, ib, ic.
  unfold s_pload, s_ptes, s_psquid, s_ptot. rewrite E1, E2, E3, Ep, Es. cbn [bind].
  assert (Hc : ic = s_ptfn t * Cmod p ^ 2).
  { unfold s_itfn in E3. rewrite Ep in E3. cbn [bind] in E3. injection E3 as <-. reflexivity. }
  repeat (split; [reflexivity|]). set (m := Cmod p ^ 2) in *. clearbody m.
  split; [field; assumption|]. split; [field; assumption|]. split; [now symmetry|]. split; [field; assumption|].
  split; [field; assumption|]. rewrite Hc. field. assumption.
Qed.

Lemma Zt_C t f : t_loopgain t <> 1 ->
  Zt t f = (RtoC (t_rload t) + RtoC (t_r0 t) * (1 + RtoC (t_beta t)) + Ci * RtoC (2 * PI * f) * RtoC (t_inductance t)
   + RtoC (t_r0 t) * RtoC (t_loopgain t) / (1 - RtoC (t_loopgain t)) * (2 + RtoC (t_beta t)) / thermal t f)%C.
Proof.
  intros H. unfold Zt, jomega. repeat f_equal.
  - rewrite RtoC_plus, RtoC_mult, RtoC_plus. reflexivity.
  - rewrite RtoC_mult, RtoC_div, RtoC_mult, RtoC_minus, RtoC_plus by lra. reflexivity.
Qed.
Lemma gain_C l i0 : l <> 1 -> i0 <> 0 -> RtoC (l / (i0 * (1 - l))) = (RtoC l / (RtoC i0 * (1 - RtoC l)))%C.
Proof. intros. rewrite RtoC_div by (apply Rmult_integral_contrapositive_currified; lra). now rewrite RtoC_mult, RtoC_minus. Qed.

(** The responses solve the linearised equations, and nothing else does. *)
Lemma tes_solution t f G dI dT dV dP y p :
  dIdV t f = Ok y -> dIdP t f = Ok p -> Zt t f <> 0%C -> G <> 0 ->
  tes_linear (t_rload t) (t_r0 t) (t_beta t) (t_loopgain t) (t_inductance t) (t_tau0 t) G (t_i0 t) (2 * PI * f) dI dT dV dP ->
  dI = (y * dV + p * dP)%C.
Proof.
  intros Ey Ep Hz HG [HE HT]. apply dIdV_inv in Ey. destruct Ey as [H1 ->].
  apply dIdP_inv in Ep. destruct Ep as [_ [H2 [H3 ->]]]. rewrite Pt_eq by assumption.
  assert (Ht := thermal_nz t f H1).
  set (th := thermal t f) in *. set (l := t_loopgain t) in *. set (i0 := t_i0 t) in *.
  assert (N1 : (1 - RtoC l)%C <> 0%C). { intros E. apply (f_equal fst) in E. cbn in E. lra. }
  assert (N2 : RtoC i0 <> 0%C) by now apply RtoC_nz.
  assert (N3 : RtoC G <> 0%C) by now apply RtoC_nz.
  (* the temperature *)
  assert (Th : ((1 - RtoC l) * th = 1 - RtoC l + Ci * RtoC (2 * PI * f) * RtoC (t_tau0 t))%C).
  { unfold th, thermal, jomega. fold l. rewrite RtoC_minus. field. exact N1. }
  assert (HdT : dT = ((dP + RtoC i0 * RtoC (t_r0 t) * (2 + RtoC (t_beta t)) * dI) / (RtoC G * ((1 - RtoC l) * th)))%C).
  { rewrite Th. assert (N4 : (1 - RtoC l + Ci * RtoC (2 * PI * f) * RtoC (t_tau0 t))%C <> 0%C).
    { rewrite <- Th. now apply Cmult_neq_0. }
    replace (dP + RtoC i0 * RtoC (t_r0 t) * (2 + RtoC (t_beta t)) * dI)%C
      with (Ci * RtoC (2 * PI * f) * (RtoC (t_tau0 t) * RtoC G) * dT + (1 - RtoC l) * RtoC G * dT)%C by (rewrite HT; ring).
    field. split; assumption. }
  assert (HV : dV = (dI * Zt t f + RtoC (l / (i0 * (1 - l))) / th * dP)%C).
  { rewrite HE, HdT. rewrite (Zt_C t f H1), gain_C by assumption. fold th l.
    field. repeat split; assumption. }
  rewrite HV. field. split; assumption.
Qed.

Lemma tes_solution_exists t f G dV dP y p :
  dIdV t f = Ok y -> dIdP t f = Ok p -> Zt t f <> 0%C -> G <> 0 ->
  exists dT, tes_linear (t_rload t) (t_r0 t) (t_beta t) (t_loopgain t) (t_inductance t) (t_tau0 t) G (t_i0 t) (2 * PI * f)
    (y * dV + p * dP)%C dT dV dP.
Proof.
  intros Ey Ep Hz HG. apply dIdV_inv in Ey. destruct Ey as [H1 ->].
  apply dIdP_inv in Ep. destruct Ep as [_ [H2 [H3 ->]]]. rewrite Pt_eq by assumption.
  assert (Ht := thermal_nz t f H1).
  set (th := thermal t f) in *. set (l := t_loopgain t) in *. set (i0 := t_i0 t) in *.
  assert (N1 : (1 - RtoC l)%C <> 0%C). { intros E. apply (f_equal fst) in E. cbn in E. lra. }
  assert (N2 : RtoC i0 <> 0%C) by now apply RtoC_nz.
  assert (N3 : RtoC G <> 0%C) by now apply RtoC_nz.
  assert (Th : ((1 - RtoC l) * th = 1 - RtoC l + Ci * RtoC (2 * PI * f) * RtoC (t_tau0 t))%C).
  { unfold th, thermal, jomega. fold l. rewrite RtoC_minus. field. exact N1. }
  set (dI := (1 / Zt t f * dV + - (RtoC (l / (i0 * (1 - l))) / th * (1 / Zt t f)) * dP)%C).
  exists ((dP + RtoC i0 * RtoC (t_r0 t) * (2 + RtoC (t_beta t)) * dI) / (RtoC G * ((1 - RtoC l) * th)))%C.
  assert (HV : dV = (dI * Zt t f + RtoC (l / (i0 * (1 - l))) / th * dP)%C).
  { unfold dI. field. split; assumption. }
  split.
  - rewrite HV at 1. rewrite (Zt_C t f H1), gain_C by assumption. fold th l.
    clearbody dI. field. repeat split; assumption.
  - clearbody dI. rewrite Th. assert (N4 : (1 - RtoC l + Ci * RtoC (2 * PI * f) * RtoC (t_tau0 t))%C <> 0%C).
    { rewrite <- Th. now apply Cmult_neq_0. }
    field. split; assumption.
Qed.
