(** * Properties of qetpy/sim *)
From Coq Require Import Reals Lra.
From Verif Require Import Base ListLemmas Dft UtilsModel DidvModel DidvSpec DidvProps SimModel SimSpec SimProofs1 SimProofs2.
From Coquelicot Require Import Coquelicot.
Local Open Scope R_scope.

(** ** C52: TES noise components *)

(** The admittance of the noise model is that of the didv module. *)
Theorem C52_dIdV : forall t f rsh rp, rsh + rp = t_rload t -> t_loopgain t <> 1 -> rsh + rp + t_r0 t * (1 + t_beta t) <> 0 ->
  exists y, dIdV t f = Ok y /\
  complexadmittance f (mkArgs (Some rsh) (Some rp) (Some (t_r0 t)) (Some (t_beta t)) (Some (t_loopgain t)) (Some (t_inductance t))
    (Some (t_tau0 t)) None None) = Ok y.
Proof. exact dIdV_admittance. Qed.
Print Assumptions C52_dIdV.

(** Transition: the total is the sum of its four parts, each part is non-negative and at most the
    total.  Temperatures, resistances, conductance and the thermal factor are non-negative. *)
Theorem C52_total : forall t f,
  0 <= t_tload t -> 0 <= t_rload t -> 0 <= t_tc t -> 0 <= t_r0 t -> 0 <= t_G t -> 0 <= t_ftfn t ->
  t_loopgain t <> 1 -> t_loopgain t <> 0 -> t_i0 t <> 0 ->
  exists s a b c, s_itot t f = Ok s /\ s_iload t f = Ok a /\ s_ites t f = Ok b /\ s_itfn t f = Ok c /\
    s = a + b + c + s_isquid t f /\ 0 <= a <= s /\ 0 <= b <= s /\ 0 <= c <= s /\ 0 <= s_isquid t f <= s.
Proof.
  intros t f H1 H2 H3 H4 H5 H6 H7 H8 H9. destruct (itot_ok t f H7 H8 H9) as [s E].
  assert (P : physical t) by now repeat split.
  destruct (itot_bounds t f s P E) as [a [b [c H]]]. exists s, a, b, c. split; [exact E|exact H].
Qed.
Print Assumptions C52_total.

(** The same for the normal and the superconducting totals *)
Theorem C52_total_normal_sc : forall t f,
  0 <= t_tload t -> 0 <= t_rload t -> 0 <= t_tc t -> 0 <= t_r0 t ->
  (s_itotnormal t f = s_iloadnormal t f + s_itesnormal t f + s_isquid t f /\
   0 <= s_iloadnormal t f /\ 0 <= s_itesnormal t f /\ 0 <= s_isquid t f) /\
  (s_itotsc t f = s_iloadsc t f + s_isquid t f /\ 0 <= s_iloadsc t f).
Proof.
  intros t f H1 H2 H3 H4. assert (K := const_k_pos).
  assert (V : 0 <= s_vload t). { unfold s_vload. repeat (apply Rmult_le_pos; try lra). }
  assert (V' : 0 <= s_vtesnormal t). { unfold s_vtesnormal. repeat (apply Rmult_le_pos; try lra). }
  repeat split; try apply s_isquid_nonneg; apply Rmult_le_pos; try assumption; apply pow2_ge_0.
Qed.
Print Assumptions C52_total_normal_sc.

(** Power noise times |dI/dP|^2 is current noise, for the parts and the total, and the total power
    noise is the sum of its parts.  [z <> 0]: no pole of the admittance at this frequency. *)
Theorem C52_power : forall t f z p si, dVdI t f = Ok z -> z <> RtoC 0 -> dIdP t f = Ok p -> s_itot t f = Ok si ->
  exists a b q sp ia ib ic, s_pload t f = Ok a /\ s_ptes t f = Ok b /\ s_psquid t f = Ok q /\ s_ptot t f = Ok sp /\
    s_iload t f = Ok ia /\ s_ites t f = Ok ib /\ s_itfn t f = Ok ic /\
    a * Cmod p ^ 2 = ia /\ b * Cmod p ^ 2 = ib /\ s_ptfn t * Cmod p ^ 2 = ic /\ q * Cmod p ^ 2 = s_isquid t f /\
    sp * Cmod p ^ 2 = si /\ sp = a + b + s_ptfn t + q.
Proof.
  intros t f z p si Ez Hz Ep Es. apply dVdI_inv in Ez. destruct Ez as [_ ->]. exact (power_noise t f p si Ep Hz Es).
Qed.
Print Assumptions C52_power.

(** Superconducting: [r0 = 0]; normal: no loop gain, no current sensitivity. *)
Theorem C52_limits : forall t f y, dIdV t f = Ok y ->
  (t_r0 t = 0 -> y = dIdVsc t f) /\ (t_loopgain t = 0 -> t_beta t = 0 -> y = dIdVnormal t f).
Proof. intros t f y E. split; intros; [now apply dIdV_sc|now apply dIdV_normal]. Qed.
Print Assumptions C52_limits.

(** The noise suppression factor of both limits lies in (0, 1]. *)
Theorem C52_tfn : forall tb tc n lgcb, 0 <= tb < tc -> 0 < n -> exists v, f_tfn tb tc n lgcb = Ok v /\ 0 < v <= 1.
Proof.
  intros tb tc n [|] Hb Hn; [|now apply diffusive_range].
  destruct (ballistic_range tb tc n) as [v [E H]]; [lra|lra|lra|]. exists v. split; [exact E|lra].
Qed.
Print Assumptions C52_tfn.

(** A sensor with load 1, resistance 1, loop gain 2 *)
Definition ex_tes : tes := mkTes 1 1 1 0 2 1 1 2 1 1 1 1 (/ 2) 5 true 1 0 1 1.
Example C52_ex : tes_init 1 1 1 0 2 1 1 1 2 1 1 (/ 2) 5 true 1 0 1 =
    Ok (mkTes 1 1 1 0 2 1 1 2 (2 * 1 / (1 + 1)) 1 1 1 (/ 2) 5 true 1 0 1 ((Rpower (/ 2 / 1) (5 + 1) + 1) / 2)) /\
  (exists s, s_itot ex_tes 0 = Ok s) /\ dVdI ex_tes 0 = Ok (RtoC (-2)).
Proof.
  split; [|split].
  - unfold tes_init, f_tfn. rewrite !fdiv_ok by lra. cbn [bind]. unfold fpow. destruct (Rltb_spec 0 (/ 2 / 1)); [reflexivity|lra].
  - apply itot_ok; cbn; lra.
  - rewrite dVdI_ok by (cbn; lra). f_equal. unfold Zt. rewrite thermal_re by (cbn; lra). unfold jomega. cbn.
    unfold Cdiv, Cinv, Cplus, Cmult, RtoC, Ci. cbn [fst snd]. apply injective_projections; cbn [fst snd]; field; lra.
Qed.

(** ** C81: dIdV and dIdP solve the linearised sensor equations *)

(** For every heat conductance [G <> 0], applied voltage and power: [dI = dIdV dV + dIdP dP] is the
    only current that satisfies the equations with some temperature. *)
Theorem C81_response : forall t f G z y p, dVdI t f = Ok z -> z <> RtoC 0 -> dIdV t f = Ok y -> dIdP t f = Ok p -> G <> 0 ->
  forall dI dV dP,
   (exists dT, tes_linear (t_rload t) (t_r0 t) (t_beta t) (t_loopgain t) (t_inductance t) (t_tau0 t) G (t_i0 t) (2 * PI * f) dI dT dV dP)
   <-> dI = (y * dV + p * dP)%C.
Proof.
  intros t f G z y p Ez Hz Ey Ep HG dI dV dP. apply dVdI_inv in Ez. destruct Ez as [_ ->]. split.
  - intros [dT H]. exact (tes_solution t f G dI dT dV dP y p Ey Ep Hz HG H).
  - intros ->. exact (tes_solution_exists t f G dV dP y p Ey Ep Hz HG).
Qed.
Print Assumptions C81_response.

(** The Johnson noise of the sensor: a noise voltage [v] in the loop that also takes the power
    [i0 v] out of the sensor gives a current whose square is [s_ites] per [s_vtes]. *)
Theorem C81_johnson : forall t f G z s, dVdI t f = Ok z -> z <> RtoC 0 -> G <> 0 -> s_ites t f = Ok s ->
  forall dI dT v, v <> RtoC 0 ->
   tes_linear (t_rload t) (t_r0 t) (t_beta t) (t_loopgain t) (t_inductance t) (t_tau0 t) G (t_i0 t) (2 * PI * f) dI dT v (- (RtoC (t_i0 t) * v))%C ->
   s * Cmod v ^ 2 = s_vtes t * Cmod dI ^ 2.
Proof.
  intros t f G z s Ez Hz HG Es dI dT v Hv H. apply dVdI_inv in Ez. destruct Ez as [Hl ->].
  destruct (ites_inv t f s Es) as [_ [H2 [H3 ->]]].
  rewrite (tes_solution t f G dI dT v _ _ _ (dIdV_ok t f Hl) (dIdP_ok t f Hl H2 H3) Hz HG H).
  rewrite Rmult_assoc, <- Rpow_mult_distr, <- Cmod_mult. do 3 f_equal. ring.
Qed.
Print Assumptions C81_johnson.

Example C81_ex : exists y p, dIdV ex_tes 0 = Ok y /\ dIdP ex_tes 0 = Ok p /\ exists s, s_ites ex_tes 0 = Ok s.
Proof.
  exists (1 / Zt ex_tes 0)%C, (Pt ex_tes 0). rewrite dIdV_ok, dIdP_ok by (cbn; lra). split; [reflexivity|]. split; [reflexivity|].
  unfold s_ites. rewrite dIdV_ok, dIdP_ok by (cbn; lra). cbn [bind]. eexists. reflexivity.
Qed.

(** ** C53: loadfromdidv *)

(** The dictionary used: small-signal parameters of DIDV, parameters of DIDVPriors. *)
Definition has_fit (obj : didvobj) (poles : nat) (ss : list R) : Prop :=
  match obj with
  | ObjDidv o => exists r, fitresult poles o = Some r /\ r_ss r = ss
  | ObjPriors r1 r2 r3 => match poles with 1%nat => r1 = Some ss | 2%nat => r2 = Some ss | _ => r3 = Some ss end
  end.

Lemma has_fit_dict obj poles ss : has_fit obj poles ss -> didv_dict obj poles = Ok (ss_args ss).
Proof.
  destruct obj as [o|r1 r2 r3]; cbn.
  - intros [r [-> <-]]. reflexivity.
  - intros H. destruct poles as [|[|[|p]]]; now rewrite H.
Qed.

Theorem C53_transition_partial : forall obj rsh rp r0 beta l L tau0 dt G qetbias tc tload tbath squiddc squidpole squidn rnormal,
  has_fit obj 2 [rsh; rp; r0; beta; l; L; tau0; dt] -> r0 + (rsh + rp) <> 0 -> 0 <= tbath < tc ->
  exists t, loadfromdidv obj G qetbias tc tload tbath squiddc squidpole squidn rnormal (mkStr NTransition true) = Ok t /\
    t_rload t = rsh + rp /\ t_r0 t = r0 /\ t_rshunt t = rsh /\ t_beta t = beta /\ t_loopgain t = l /\ t_inductance t = L /\
    t_tau0 t = tau0 /\ t_G t = G /\ t_qetbias t = qetbias /\ t_tc t = tc /\ t_tload t = tload /\ t_tbath t = tbath /\
    t_squiddc t = squiddc /\ t_squidpole t = squidpole /\ t_squidn t = squidn /\
    t_i0 t = qetbias * rsh / (r0 + (rsh + rp)) /\ 0 < t_ftfn t <= 1 /\
    (* its admittance is that of the fit *)
    (l <> 1 -> rsh + rp + r0 * (1 + beta) <> 0 ->
     forall f, exists y, dIdV t f = Ok y /\ complexadmittance f (ss_args [rsh; rp; r0; beta; l; L; tau0; dt]) = Ok y).
Proof.
  intros obj rsh rp r0 beta l L tau0 dt G qetbias tc tload tbath squiddc squidpole squidn rnormal Hf Hr Ht.
  unfold loadfromdidv. cbn [is_lit ntype_eqb text interned andb]. rewrite (has_fit_dict _ _ _ Hf). cbn.
  unfold tes_init. rewrite fdiv_ok by assumption. cbn [bind].
  destruct (ballistic_range tbath tc 5) as [v [-> Hv]]; [lra|lra|lra|]. cbn [bind]. eexists. split; [reflexivity|].
  cbn. do 16 (split; [reflexivity|]). split; [lra|]. intros Hl HA f.
  exact (dIdV_admittance (mkTes (rsh + rp) r0 rsh beta l L tau0 qetbias (qetbias * rsh / (r0 + (rsh + rp))) tc tload G tbath 5 true
           squiddc squidpole squidn v) f rsh rp eq_refl Hl HA).
Qed.
Print Assumptions C53_transition_partial.

Theorem C53_superconducting_partial : forall obj rsh rp L dt G qetbias tc tload tbath squiddc squidpole squidn rnormal,
  has_fit obj 1 [rsh; rp; L; dt] -> rsh + rp <> 0 -> 0 <= tbath < tc ->
  exists t, loadfromdidv obj G qetbias tc tload tbath squiddc squidpole squidn rnormal (mkStr NSuperconducting true) = Ok t /\
    t_rload t = rsh + rp /\ t_r0 t = 0 /\ t_rshunt t = rsh /\ t_beta t = 0 /\ t_loopgain t = 0 /\ t_inductance t = L /\
    t_tload t = tload /\ t_squiddc t = squiddc /\ t_squidpole t = squidpole /\ t_squidn t = squidn /\
    (forall f, complexadmittance f (ss_args [rsh; rp; L; dt]) = Ok (dIdVsc t f)).
Proof.
  intros obj rsh rp L dt G qetbias tc tload tbath squiddc squidpole squidn rnormal Hf Hr Ht.
  assert (A : forall f, complexadmittance f (ss_args [rsh; rp; L; dt]) = Ok (1 / doc_onepole (iomega f) rsh rp L)%C).
  { intros f. unfold complexadmittance, ss_args. rewrite C45_onepole; [reflexivity|exact Hr|left; reflexivity]. }
  unfold loadfromdidv. cbn [is_lit ntype_eqb text interned andb]. rewrite (has_fit_dict _ _ _ Hf). cbn.
  unfold tes_init. rewrite fdiv_ok by lra. cbn [bind].
  destruct (ballistic_range tbath tc 5) as [v [-> Hv]]; [lra|lra|lra|]. cbn [bind]. eexists. split; [reflexivity|].
  do 10 (split; [reflexivity|]). intros f. refine (eq_trans (A f) _). f_equal. unfold dIdVsc, doc_onepole, iomega, jomega. cbn [t_rload t_inductance]. now rewrite RtoC_plus.
Qed.
Print Assumptions C53_superconducting_partial.

(** Any other text raises ValueError; a fit that was not run raises KeyError. *)
Theorem C53_errors : forall obj G qetbias tc tload tbath squiddc squidpole squidn rnormal b,
  loadfromdidv obj G qetbias tc tload tbath squiddc squidpole squidn rnormal (mkStr NOther b) = Err ValueError /\
  (didv_dict obj 2 = Err KeyError ->
   loadfromdidv obj G qetbias tc tload tbath squiddc squidpole squidn rnormal (mkStr NTransition true) = Err KeyError) /\
  (didv_dict obj 1 = Err KeyError ->
   loadfromdidv obj G qetbias tc tload tbath squiddc squidpole squidn rnormal (mkStr NSuperconducting true) = Err KeyError).
Proof.
  intros. split; [reflexivity|]. unfold loadfromdidv. cbn [is_lit ntype_eqb text interned andb].
  split; intros H; rewrite H; reflexivity.
Qed.
Print Assumptions C53_errors.

(** 'normal' raises ValueError whatever [rnormal] is. *)
Theorem C53_normal_refuted : forall obj G qetbias tc tload tbath squiddc squidpole squidn rnormal b,
  loadfromdidv obj G qetbias tc tload tbath squiddc squidpole squidn rnormal (mkStr NNormal b) = Err ValueError.
Proof. intros. destruct b; reflexivity. Qed.
Print Assumptions C53_normal_refuted.

(** Strings are compared by identity: a computed 'transition' is not recognised. *)
Theorem C53_identity_refuted : forall obj G qetbias tc tload tbath squiddc squidpole squidn rnormal t,
  loadfromdidv obj G qetbias tc tload tbath squiddc squidpole squidn rnormal (mkStr t false) = Err ValueError.
Proof. intros. destruct t; reflexivity. Qed.
Print Assumptions C53_identity_refuted.

Example C53_ex : has_fit (ObjPriors None (Some [1; 1; 1; 0; 2; 1; 1; 0]) None) 2 [1; 1; 1; 0; 2; 1; 1; 0] /\
  has_fit (ObjPriors (Some [1; 1; 1; 0]) None None) 1 [1; 1; 1; 0] /\ didv_dict (ObjPriors None None None) 2 = Err KeyError.
Proof. repeat split. Qed.

(** ** C82: methods of a superconducting object *)

(** The superconducting totals are computed; the transition methods divide by the zero loop gain. *)
Theorem C82_superconducting_methods_refuted : forall obj G qetbias tc tload tbath squiddc squidpole squidn rnormal t f,
  loadfromdidv obj G qetbias tc tload tbath squiddc squidpole squidn rnormal (mkStr NSuperconducting true) = Ok t ->
  dIdP t f = Err ZeroDivisionError /\ s_ites t f = Err ZeroDivisionError /\ s_itfn t f = Err ZeroDivisionError /\
  s_itot t f = Err ZeroDivisionError /\ s_ptot t f = Err ZeroDivisionError /\ dIdV t f = Ok (dIdVsc t f).
Proof.
  intros obj G qetbias tc tload tbath squiddc squidpole squidn rnormal t f E.
  assert (H : t_loopgain t = 0 /\ t_r0 t = 0).
  { unfold loadfromdidv in E. cbn [is_lit ntype_eqb text interned andb] in E. destruct (didv_dict obj 1) as [d|]; [|discriminate].
    cbn [bind] in E. destruct (key (a_rsh d)); [|discriminate]. destruct (key (a_rp d)); [|discriminate].
    destruct (key (a_L d)); [|discriminate]. cbn [bind] in E. unfold tes_init in E. destruct (fdiv _ _); [|discriminate].
    cbn [bind] in E. destruct (f_tfn _ _ _ _); [|discriminate]. cbn [bind] in E.
    split; [exact (f_equal (fun r => match r with Ok a => t_loopgain a | Err _ => 0 end) (eq_sym E))|
            exact (f_equal (fun r => match r with Ok a => t_r0 a | Err _ => 0 end) (eq_sym E))]. }
  destruct H as [H H0]. assert (P := dIdP_zero_gain t f H). assert (Y := dIdV_ok t f ltac:(lra)).
  split; [exact P|]. unfold s_ptot, s_itot, s_ites, s_itfn, s_iload. rewrite P, Y. cbn [bind].
  do 4 (split; [reflexivity|]). f_equal. exact (dIdV_sc t f _ H0 Y).
Qed.
Print Assumptions C82_superconducting_methods_refuted.

Example C82_ex : exists t, loadfromdidv (ObjPriors (Some [1; 1; 1; 0]) None None) 1 1 2 1 1 1 0 1 None (mkStr NSuperconducting true) = Ok t.
Proof.
  destruct (C53_superconducting_partial (ObjPriors (Some [1; 1; 1; 0]) None None) 1 1 1 0 1 1 2 1 1 1 0 1 None eq_refl) as [t [E _]]; [lra|lra|].
  exists t. exact E.
Qed.

(** ** C83: energy resolution *)

(** Positive; inversely proportional to the collection efficiency; proportional to the square root of the noise
    power; no better for a longer collection time. *)
Theorem C83_laws : forall freqs tau Sp eff, length Sp = length freqs -> (2 <= length freqs)%nat -> increasing freqs ->
  (forall s, In s Sp -> 0 < s) -> eff <> 0 ->
  exists e, energy_res_estimate freqs tau Sp eff = Ok e /\ 0 < e /\
    (forall c, 0 < c -> energy_res_estimate freqs tau Sp (c * eff) = Ok (e / c)) /\
    (forall c, 0 < c -> energy_res_estimate freqs tau (map (Rmult c) Sp) eff = Ok (sqrt c * e)) /\
    (forall tau', Rabs tau <= Rabs tau' -> exists e', energy_res_estimate freqs tau' Sp eff = Ok e' /\ e <= e').
Proof.
  intros freqs tau Sp eff L L2 Hi Hs He. assert (P := eint_pos freqs tau Sp eff L L2 Hi Hs He). assert (Ke := const_e_pos).
  exists (sqrt (1 / eint freqs tau Sp eff) / const_e). split; [now apply eres_ok|].
  split; [|split; [|split]].
  - apply Rdiv_lt_0_compat; [|exact Ke]. apply sqrt_lt_R0. apply Rdiv_lt_0_compat; lra.
  - intros c Hc. rewrite eres_ok by assumption. fold (eint freqs tau Sp (c * eff)). rewrite eint_scale_eff. f_equal.
    rewrite eres_scale by (try assumption; apply pow_lt; assumption). rewrite sqrt_pow2 by lra. unfold Rdiv. ring.
  - intros c Hc. rewrite eres_ok by (rewrite map_length; assumption). fold (eint freqs tau (map (Rmult c) Sp) eff).
    rewrite eint_scale_psd; [|lra|intros s Hin; specialize (Hs s Hin); lra]. f_equal.
    rewrite eres_scale by (try assumption; now apply Rinv_0_lt_compat). rewrite <- inv_sqrt by assumption. rewrite Rinv_involutive; [reflexivity|].
    apply Rgt_not_eq. now apply sqrt_lt_R0.
  - intros tau' Ht. eexists. split; [now apply eres_ok|]. fold (eint freqs tau' Sp eff).
    assert (P' := eint_pos freqs tau' Sp eff L L2 Hi Hs He). assert (M := eint_tau freqs tau tau' Sp eff Ht L Hi Hs).
    apply Rmult_le_compat_r; [left; now apply Rinv_0_lt_compat|]. apply sqrt_le_1_alt. unfold Rdiv. rewrite !Rmult_1_l.
    now apply Rinv_le_contravar.
Qed.
Print Assumptions C83_laws.

Example C83_ex : exists e, energy_res_estimate [0; 1; 2] 1 [1; 2; 3] 1 = Ok e /\ 0 < e.
Proof.
  destruct (C83_laws [0; 1; 2] 1 [1; 2; 3] 1) as [e [E [P _]]]; try reflexivity; try (simpl; lia); try (simpl; lra); [|exists e; auto].
  intros s [<-|[<-|[<-|[]]]]; lra.
Qed.

(** ** C84: one-sided and two-sided PSD *)

(** A one-sided PSD [s0, Ss] on the frequencies [0, fs] and the same noise as two-sided PSD (half the
    values at positive and negative frequencies) give results that differ by a factor 2. *)
Theorem C84_two_sided_refuted : forall fs tau s0 Ss eff, length Ss = length fs -> fs <> [] -> increasing (0 :: fs) ->
  0 < s0 -> (forall s, In s Ss -> 0 < s) -> eff <> 0 ->
  exists e, energy_res_estimate (0 :: fs) tau (s0 :: Ss) eff = Ok e /\ 0 < e /\
    energy_res_estimate (mirror_freqs fs) tau (map (Rmult (/ 2)) (mirror_vals s0 Ss)) eff = Ok (e / 2).
Proof.
  intros fs tau s0 Ss eff L Hn Hi H0 Hs He.
  assert (L1 : length (s0 :: Ss) = length (0 :: fs)) by (simpl; now f_equal).
  assert (HS : forall s, In s (s0 :: Ss) -> 0 < s) by (intros s [<-|H]; auto).
  assert (P := eint_pos (0 :: fs) tau (s0 :: Ss) eff L1 ltac:(destruct fs; [contradiction|simpl; lia]) Hi HS He).
  assert (Ke := const_e_pos). exists (sqrt (1 / eint (0 :: fs) tau (s0 :: Ss) eff) / const_e). split; [now apply eres_ok|].
  split.
  - apply Rdiv_lt_0_compat; [|exact Ke]. apply sqrt_lt_R0. apply Rdiv_lt_0_compat; lra.
  - rewrite eres_ok.
    + fold (eint (mirror_freqs fs) tau (map (Rmult (/ 2)) (mirror_vals s0 Ss)) eff).
      rewrite eint_scale_psd, eint_mirror; [|exact L|lra|].
      * rewrite Rinv_involutive by lra. rewrite <- Rmult_assoc. replace (2 * 2) with (2 ^ 2) by ring. f_equal.
        rewrite eres_scale by (try assumption; lra). rewrite sqrt_pow2 by lra. unfold Rdiv. ring.
      * intros s Hin. unfold mirror_vals in Hin. apply in_app_or in Hin. apply Rgt_not_eq. apply HS.
        destruct Hin as [Hin|Hin]; [right; now apply in_rev|exact Hin].
    + unfold mirror_vals, mirror_freqs. rewrite map_length, !app_length, !rev_length, map_length. simpl. lia.
Qed.
Print Assumptions C84_two_sided_refuted.

Example C84_ex : mirror_freqs [1; 2] = [- (2); - (1); 0; 1; 2] /\ increasing [0; 1; 2] /\ mirror_vals 5 [6; 7] = [7; 6; 5; 6; 7].
Proof. repeat split; simpl; lra. Qed.
