(** * Optimum filters: concrete witnesses *)
From Verif Require Import Base UtilsModel Dft WindowModel WindowSpec WindowProofs OFModel OFSpec
  OFProofs1 OFProofs2 OFProofs3 OFProofs6 OFProofs7 OFProofs8.
Local Open Scope R_scope.

(** Traces of one and two bins *)
Lemma F1 x k : F 1 x k = RtoC (x 0%nat).
Proof.
  unfold F, dft, csum; cbn [csum rsum].
  assert (E : tw 1 (- (Z.of_nat 0 * Z.of_nat k)) = RtoC 1) by (rewrite Z.mul_0_l; apply tw_0).
  simpl Z.of_nat in *. simpl Z.mul in *. simpl Z.opp in *. rewrite tw_0. ring_simplify. try reflexivity.
Qed.

Lemma tw_half : tw 2 (-1) = RtoC (-1).
Proof.
  unfold tw, cis. replace (2 * PI * -1 / INR 2) with (- PI) by (simpl; field).
  rewrite cos_neg, sin_neg, cos_PI, sin_PI. ceq.
Qed.

Lemma F2_0 x : F 2 x 0 = RtoC (x 0%nat + x 1%nat).
Proof. rewrite F_zero_bin. cbn [rsum]. f_equal. ring. Qed.

Lemma F2_1 x : F 2 x 1 = RtoC (x 0%nat - x 1%nat).
Proof.
  unfold F, dft. cbn [csum]. simpl Z.of_nat. simpl Z.mul. simpl Z.opp. rewrite tw_0, tw_half.
  rewrite RtoC_minus. replace (RtoC (-1)) with (- RtoC 1)%C by (rewrite <- RtoC_opp; f_equal; ring). ring.
Qed.

Definition osc (i : nat) : R := if (i =? 0)%nat then 1 else -1.
Definition unit_psd (_ : nat) : R := 1.

Lemma osc_visible ac : visible 2 ac osc.
Proof.
  exists 1%nat. split; [lia|]. split; [destruct ac; reflexivity|].
  change (F 2 osc 1 <> RtoC 0). rewrite F2_1. apply RtoC_neq. unfold osc. simpl. lra.
Qed.

Lemma osc_problem ac : fit_problem 2 osc unit_psd 1 ac false.
Proof.
  split; [lia|]. split; [lra|]. split; [intros k _; unfold unit_psd; lra|].
  split; [apply osc_visible|]. discriminate.
Qed.

Lemma osc_roll_m1 i : (i < 2)%nat -> roll 2 (-1) osc i = - osc i.
Proof. intros Hi. unfold roll, osc. destruct i as [|[|i]]; [| |lia]; simpl; lra. Qed.

Lemma osc_N x ac : norm (of_init 2 x osc unit_psd 1 ac false) = 2.
Proof.
  rewrite norm_wip by apply osc_problem. unfold wip. cbn [rsum]. rewrite F2_0, F2_1.
  unfold bin_weight, unit_psd, osc, used_template. destruct ac; simpl; field.
Qed.

Lemma osc_filt0 ac : filt 2 osc osc unit_psd 1 ac false 0 = 1.
Proof.
  apply (pulse_filt 2 osc osc unit_psd 1 ac false (osc_problem ac) 1 0). intros i Hi.
  unfold used_template. rewrite (roll_0 2 osc unit_psd 1 ac false (osc_problem ac)) by exact Hi. ring.
Qed.

Lemma osc_filt1 ac : filt 2 osc osc unit_psd 1 ac false (-1) = -1.
Proof.
  apply (pulse_filt 2 osc osc unit_psd 1 ac false (osc_problem ac) (-1) (-1)). intros i Hi.
  unfold used_template. rewrite osc_roll_m1 by exact Hi. ring.
Qed.

Lemma osc_X0 ac : wchi2 2 1 unit_psd ac osc = 2.
Proof.
  rewrite <- (osc_N osc ac), norm_wip by apply osc_problem. apply wchi2_wip.
Qed.

(** The unconstrained scan of the pulse itself returns the amplitude -1. *)
Lemma osc_scan ac :
  snd (ofamp_withdelay (mkArgs None false 0 0 false) (of_init 2 osc osc unit_psd 1 ac false)) = Ok (-1, -1, 0).
Proof.
  assert (Hv : valid_args 2 None 0 0).
  { split; [lia|]. split; [apply center_0; lia|discriminate]. }
  destruct (withdelay_fresh 2 osc osc unit_psd 1 ac false (osc_problem ac) (mkArgs None false 0 0 false) eq_refl Hv)
    as [[_ Hc]|(j & [Hj Hmin] & E)]; cbn [nconstrain outside direction wcenter] in *.
  - exfalso. apply (Hc 0%Z). split; [lia|]. split; [exact I|now left].
  - rewrite E. assert (Hj' : (0 <= j < 2)%Z) by apply Hj.
    assert (EX : forall i, (0 <= i < 2)%Z -> scan_chi 2 osc osc unit_psd 1 ac false i = 0).
    { intros i Hi. unfold scan_chi, scan_amp. rewrite osc_N, osc_X0. change (Z.of_nat 2 / 2)%Z with 1%Z.
      assert (i = 0 \/ i = 1)%Z as [-> | ->] by lia; cbn [Z.sub Z.add Z.opp Z.pos_sub].
      - change (0 - 1)%Z with (-1)%Z. rewrite osc_filt1. ring.
      - change (1 - 1)%Z with 0%Z. rewrite osc_filt0. ring. }
    assert (j = 0%Z) as ->.
    { assert (j = 0 \/ j = 1)%Z as [->|Ej] by lia; [reflexivity|].
      destruct (Hmin 0%Z) as [_ K]. { split; [lia|]. split; [exact I|now left]. }
      rewrite !EX in K by lia. exfalso. specialize (K ltac:(lia)). lra. }
    rewrite EX by lia. unfold scan_amp. change (Z.of_nat 2 / 2)%Z with 1%Z. change (0 - 1)%Z with (-1)%Z.
    rewrite osc_filt1. repeat f_equal. lra.
Qed.

(** ** First pulse between two samples: negative chi-square *)
Lemma cis_PI2 : cis (PI / 2) = (0, 1).
Proof. unfold cis. now rewrite cos_PI2, sin_PI2. Qed.

Lemma offgrid_ttd x j : (j < 2)%nat ->
  template_td 2 (df (of_init 2 x osc unit_psd 1 true false)) (phi (of_init 2 x osc unit_psd 1 true false))
    (s (of_init 2 x osc unit_psd 1 true false)) (fftfreq 2 1) (/ 2) j = 0.
Proof.
  intros Hj. unfold template_td, ifft_td, idft. cbn [csum].
  assert (E0 : phi (of_init 2 x osc unit_psd 1 true false) 0 = RtoC 0) by reflexivity.
  rewrite E0.
  assert (Es : s (of_init 2 x osc unit_psd 1 true false) 1 = RtoC 2).
  { rewrite s_F by apply osc_problem. unfold used_template. rewrite F2_1. unfold osc. simpl. ceq; field. }
  assert (Ep : phi (of_init 2 x osc unit_psd 1 true false) 1 = RtoC 2).
  { rewrite phi_F by (try apply osc_problem; lia). rewrite Es. unfold unit_psd. simpl. ceq; field. }
  rewrite Es, Ep.
  replace (-2 * PI * fftfreq 2 1 1 * / 2) with (PI / 2).
  2:{ unfold fftfreq, freqnum. simpl. field. }
  rewrite cis_PI2.
  assert (Et : exists r, tw 2 (Z.of_nat 1 * Z.of_nat j) = RtoC r).
  { destruct j as [|[|j]]; [| |lia].
    - exists 1. simpl Z.mul. apply tw_0.
    - exists (-1). simpl Z.mul. rewrite <- tw_half. apply (tw_eqm 2 1 (-1)); [lia|reflexivity]. }
  destruct Et as [r Et]. rewrite Et.
  set (t0 := tw 2 _). clearbody t0. simpl. ring.
Qed.

Lemma iterative_expr n signal template p fs0 ac inorm a1 t1 a :
  let o := of_init n signal template p fs0 ac inorm in
  let sf := ifft_td n (df o) (signalfilt o) in
  let c0 := fst (cdot n (fun k => cdivp (Cconj (v o k)) (psd o k)) (v o)) * df o in
  let ttd := template_td n (df o) (phi o) (s o) (fftfreq n fs0) t1 in
  let a2s := fun j => sf j - a1 * ttd j / norm o in
  snd (pileup_iterative a1 t1 a o) =
  (do sf1 <- pyindex (mk n sf) (t1_index n fs0 t1);
   let chit := a1 ^ 2 * norm o - 2 * a1 * sf1 * norm o in
   let chil := fun j => a2s j ^ 2 * norm o + 2 * a1 * a2s j * ttd j - 2 * a2s j * sf j * norm o in
   let chi := fun j => c0 + chit + chil j in
   let h := (Z.of_nat n / 2)%Z in
   let a2r := mk n (roll n h a2s) in
   let chir := mk n (roll n h chi) in
   do mask <- direction_mask a2r (direction a);
   do b <- argmin_chi2 chir (nconstrain a) (outside a) mask (wcenter a);
   select_best a2r chir b fs0 (fun b => IZR (- (Z.of_nat n / 2) + Z.of_nat (Z.to_nat b)) / fs0) (c0 + chit) (interp_t0 a)).
Proof. reflexivity. Qed.

Lemma offgrid_negative :
  exists a2 t2 c,
  snd (pileup_iterative 1 (/ 2) (mkArgs None false 0 0 false) (of_init 2 osc osc unit_psd 1 true false)) = Ok (a2, t2, c) /\
  c < 0.
Proof.
  pose (P := osc_problem true).
  rewrite iterative_expr. set (ob := of_init 2 osc osc unit_psd 1 true false). cbn zeta.
  cbn [direction nconstrain outside wcenter interp_t0].
  set (sf := ifft_td 2 (df ob) (signalfilt ob)).
  assert (Esf : forall j, sf j = filt 2 osc osc unit_psd 1 true false (Z.of_nat j)) by (intros; apply sftd_wip; exact P).
  assert (Esf0 : sf 0%nat = 1) by (rewrite Esf; apply osc_filt0).
  assert (Esf1 : sf 1%nat = -1).
  { rewrite Esf, <- filt_mod by exact P. change (Z.of_nat 1 mod Z.of_nat 2)%Z with (-1 mod Z.of_nat 2)%Z.
    rewrite filt_mod by exact P. apply osc_filt1. }
  set (c0 := fst (cdot 2 (fun k => cdivp (Cconj (v ob k)) (psd ob k)) (v ob)) * df ob).
  assert (Ec : c0 = 2). { transitivity (wchi2 2 1 unit_psd true osc); [apply chi0_wip; exact P|apply osc_X0]. }
  assert (EN : norm ob = 2) by apply osc_N.
  set (ttd := template_td 2 (df ob) (phi ob) (s ob) (fftfreq 2 1) (/ 2)).
  assert (Et : forall j, (j < 2)%nat -> ttd j = 0) by (intros; now apply offgrid_ttd).
  assert (Ei : t1_index 2 1 (/ 2) = 0%Z).
  { unfold t1_index, int_trunc. destruct (Rltb_spec (/ 2) 0); [lra|].
    destruct (Rltb_spec (/ 2 * 1) 0); [lra|]. destruct (base_Int_part (/ 2 * 1)) as [B1 B2].
    assert (-1 < Int_part (/ 2 * 1))%Z by (apply lt_IZR; lra).
    assert (Int_part (/ 2 * 1) < 1)%Z by (apply lt_IZR; lra). lia. }
  rewrite Ei. change (pyindex (mk 2 sf) 0) with (Ok (sf 0%nat)). cbn [bind].
  change (direction_mask (mk 2 (roll 2 (Z.of_nat 2 / 2) (fun j => sf j - 1 * ttd j / norm ob))) 0) with (@Ok (option (list bool)) None).
  cbn [bind].
  match goal with |- context[argmin_chi2 ?c None] => set (chi := c) end.
  assert (Echi : chi = [-2; -2]).
  { unfold chi, mk. cbn [seq map roll]. unfold roll.
    change (Z.to_nat ((Z.of_nat 0 - Z.of_nat 2 / 2) mod Z.of_nat 2)) with 1%nat.
    change (Z.to_nat ((Z.of_nat 1 - Z.of_nat 2 / 2) mod Z.of_nat 2)) with 0%nat.
    rewrite Esf0, Esf1, !Et, Ec, EN by lia. f_equal; [field|]. f_equal. field. }
  rewrite Echi. unfold argmin_chi2. cbn [length].
  change (negb _) with false. cbn iota. unfold argmin. cbn [argmin_from].
  destruct (Rltb_spec (-2) (-2)); [lra|]. cbn [bind select_best]. 
  change (pyindex [-2; -2] (Z.of_nat 0)) with (Ok (-2)).
  change (pyindex (mk 2 (roll 2 (Z.of_nat 2 / 2) (fun j => sf j - 1 * ttd j / norm ob))) (Z.of_nat 0))
    with (Ok (roll 2 (Z.of_nat 2 / 2) (fun j => sf j - 1 * ttd j / norm ob) 0)).
  cbn [bind]. do 3 eexists. split; [reflexivity|]. lra.
Qed.

(** ** Stationary fit at zero delay *)
Section Stationary.
  Variables (n : nat) (signal template p : nat -> R) (fs0 : R) (ac inorm : bool).
  Hypothesis Hfit : fit_problem n template p fs0 ac inorm.
  Let o := of_init n signal template p fs0 ac inorm.
  Let Hn : (0 < n)%nat. Proof. apply Hfit. Qed.

  Lemma stationary_zero : exists a A c c1,
    snd (pileup_stationary (Some 1%Z) false 0 o) = Ok (a, a, 0, c) /\
    snd (ofamp_nodelay 0 o) = Ok (A, c1) /\
    a + a = A * energy_resolution o ^ 2.
  Proof.
    assert (Hc := center_0 n Hn).
    destruct (stationary_fresh n signal template p fs0 ac inorm Hfit (Some 1%Z) false 0 Hc) as [[_ K]|(j & [Hj _] & E)].
    { intros k [= <-]. lia. }
    { exfalso. apply (K (Z.of_nat n / 2 + 0)%Z). apply (window_one n template p fs0 ac inorm Hfit 0 _ Hc). reflexivity. }
    apply (window_one n template p fs0 ac inorm Hfit 0 j Hc) in Hj.
    subst o. rewrite E, nodelay_fresh by exact Hfit. subst j.
    replace (Z.of_nat n / 2 + 0 - Z.of_nat n / 2)%Z with 0%Z by lia.
    unfold st_amp at 1 2. rewrite Zmod_0_l. cbn [Z.eqb fst snd].
    do 4 eexists. split; [f_equal; f_equal; f_equal; unfold Rdiv; ring|]. split; [reflexivity|].
    assert (HN := norm_pos n signal template p fs0 ac inorm Hfit).
    unfold energy_resolution. set (o := of_init _ _ _ _ _ _ _) in *.
    set (Nn := norm o) in *. clearbody Nn.
    assert (Q := sqrt_lt_R0 Nn HN).
    replace ((1 / sqrt Nn) ^ 2) with (/ Nn) by (rewrite <- (sqrt_sqrt Nn) at 1 by lra; field; lra).
    field. lra.
  Qed.

  Lemma stationary_all_outside k : (Z.of_nat n <= k)%Z ->
    snd (pileup_stationary (Some k) true 0 o) = Err IndexError.
  Proof.
    intros Hk. assert (Hc := center_0 n Hn).
    destruct (stationary_fresh n signal template p fs0 ac inorm Hfit (Some k) true 0 Hc) as [[E _]|(j & [Hj _] & E)].
    - intros k' [= <-]. lia.
    - exact E.
    - exfalso. destruct Hj as (H1 & H2 & _). apply H2. unfold in_window. rewrite Z.min_r by lia. lia.
  Qed.

  Lemma withdelay_all_outside k : (Z.of_nat n <= k)%Z ->
    snd (ofamp_withdelay (mkArgs (Some k) true 0 0 false) o) = Ok (0, 0, wchi2 n fs0 p ac signal).
  Proof.
    intros Hk. assert (Hc := center_0 n Hn).
    destruct (withdelay_fresh n signal template p fs0 ac inorm Hfit (mkArgs (Some k) true 0 0 false) eq_refl) as [[E _]|(j & [Hj _] & E)];
      cbn [nconstrain outside direction wcenter] in *.
    - split; [lia|]. split; [exact Hc|]. intros k' [= <-]. lia.
    - exact E.
    - exfalso. destruct Hj as (H1 & H2 & _). apply H2. unfold in_window. rewrite Z.min_r by lia. lia.
  Qed.
End Stationary.
