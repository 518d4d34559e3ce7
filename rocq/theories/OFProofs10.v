(** * Optimum filters: baseline fit consequences *)
From Verif Require Import Base UtilsModel Dft WindowModel WindowSpec WindowProofs OFModel OFSpec
  OFProofs1 OFProofs2 OFProofs3 OFProofs4 OFProofs6 OFProofs7 OFProofs8 OFProofs9.
Local Open Scope R_scope.

Lemma wchi2_flat n fs0 c r : (0 < n)%nat -> fs0 <> 0 -> c <> 0 ->
  wchi2 n fs0 (fun _ => c) false r = rsum n (fun i => r i ^ 2) / (c * fs0).
Proof.
  intros Hn Hf Hc. assert (INR n <> 0) by now apply INR_neq0.
  unfold wchi2. rewrite (rsum_ext n _ (fun k => / (c * INR n * fs0) * cn2 (dft n (fun j => RtoC (r j)) (Z.of_nat k))))
    by (intros; reflexivity).
  rewrite rsum_scal_l, parseval by exact Hn.
  rewrite (rsum_ext n (fun j => cn2 (RtoC (r j))) (fun i => r i ^ 2)) by (intros; unfold cn2; simpl; ring).
  field. auto.
Qed.

Section Base.
  Variables (n : nat) (signal template p : nat -> R) (fs0 : R) (ac inorm : bool).
  Hypothesis Hfit : fit_problem n template p fs0 ac inorm.
  Hypothesis Hvis : visible n true template.
  Let T := used_template n fs0 template inorm.
  Let o := of_init n signal template p fs0 ac inorm.

  Lemma minus_base a d b i :
    minus_pulse n (fun i => signal i - b) T a d i = minus_pulse_base n signal T a d b i.
  Proof. unfold minus_pulse, minus_pulse_base. ring. Qed.

  Lemma baseline_spec a : interp_t0 a = false ->
    valid_args n (nconstrain a) (direction a) (wcenter a) ->
    exists b,
      (exists A d, forall A' d' b', wchi2 n fs0 p false (minus_pulse_base n signal T A d b)
                                    <= wchi2 n fs0 p false (minus_pulse_base n signal T A' d' b')) /\
      scan_outcome n fs0 p false (fun i => signal i - b) T (nconstrain a) (outside a) (direction a) (wcenter a)
        (snd (ofamp_baseline a o)).
  Proof.
    intros Hi Hv. exists (used_baseline n signal template p fs0 ac inorm). split.
    - destruct (used_baseline_joint n signal template p fs0 ac inorm Hfit Hvis) as (A & d & _ & H).
      exists A, d. exact H.
    - subst o. rewrite baseline_is_scan by assumption.
      apply withdelay_spec; [apply (fit_dc n template p fs0 ac inorm Hfit)|exact Hi|exact Hv].
  Qed.

  Lemma baseline_global out : exists a j b,
    (0 <= j < Z.of_nat n)%Z /\
    snd (ofamp_baseline (mkArgs None out 0 0 false) o) =
      Ok (a, IZR (delay n j) / fs0, wchi2 n fs0 p false (minus_pulse_base n signal T a (delay n j) b)) /\
    forall a' d' b', wchi2 n fs0 p false (minus_pulse_base n signal T a (delay n j) b)
                  <= wchi2 n fs0 p false (minus_pulse_base n signal T a' d' b').
  Proof.
    set (b := used_baseline n signal template p fs0 ac inorm).
    destruct (scan_global n (fun i => signal i - b) template p fs0 false inorm
      (fit_dc n template p fs0 ac inorm Hfit) out) as (a & j & Hj & E & Hmin).
    exists a, j, b. split; [exact Hj|]. split.
    - subst o. rewrite baseline_is_scan by assumption. fold b. rewrite E. f_equal. f_equal.
      apply wchi2_ext. intros i _. apply minus_base.
    - intros a' d' b'.
      destruct (used_baseline_joint n signal template p fs0 ac inorm Hfit Hvis) as (A & d & _ & H).
      fold b T in H. apply Rle_trans with (2 := H a' d' b').
      rewrite <- (wchi2_ext n fs0 p false _ _ (fun i _ => minus_base a (delay n j) b i)).
      rewrite <- (wchi2_ext n fs0 p false _ _ (fun i _ => minus_base A d b i)). apply Hmin.
  Qed.
End Base.

(** ** A constrained window: the baseline is not the optimal one at the selected delay *)
Definition spike (i0 i : nat) : R := if (i =? i0)%nat then 1 else 0.

Lemma spike_visible ac : visible 3 ac (spike 0).
Proof.
  exists 1%nat. split; [lia|]. split; [destruct ac; reflexivity|].
  change (F 3 (spike 0) 1 <> RtoC 0). unfold F, dft. cbn [csum]. unfold spike. cbn [Nat.eqb].
  simpl Z.of_nat. simpl Z.mul. simpl Z.opp. rewrite tw_0.
  intros H. apply (f_equal fst) in H. revert H. generalize (tw 3 (-1)) (tw 3 (-2)). intros u w. simpl. lra.
Qed.

Lemma spike_problem ac : fit_problem 3 (spike 0) unit_psd 1 ac false.
Proof.
  split; [lia|]. split; [lra|]. split; [intros k _; unfold unit_psd; lra|].
  split; [apply spike_visible|]. discriminate.
Qed.

Lemma wchi2_unit r : wchi2 3 1 unit_psd false r = r 0%nat ^ 2 + r 1%nat ^ 2 + r 2%nat ^ 2.
Proof.
  unfold unit_psd. rewrite wchi2_flat by (try lia; lra). cbn [rsum]. field.
Qed.

Lemma roll3 d i0 i : (i < 3)%nat -> (i0 < 3)%nat ->
  roll 3 d (spike i0) i = spike (Z.to_nat ((Z.of_nat i0 + d) mod 3)) i.
Proof.
  intros Hi H0. unfold roll, spike. change (Z.of_nat 3) with 3%Z.
  assert (H1 := Z.mod_pos_bound (Z.of_nat i - d) 3 ltac:(lia)).
  assert (H2 := Z.mod_pos_bound (Z.of_nat i0 + d) 3 ltac:(lia)).
  assert (D1 := Z.div_mod (Z.of_nat i - d) 3 ltac:(lia)).
  assert (D2 := Z.div_mod (Z.of_nat i0 + d) 3 ltac:(lia)).
  destruct (Nat.eqb_spec (Z.to_nat ((Z.of_nat i - d) mod 3)) i0) as [E|E],
    (Nat.eqb_spec i (Z.to_nat ((Z.of_nat i0 + d) mod 3))) as [E'|E']; try reflexivity; exfalso; lia.
Qed.

Lemma spike_baseline : used_baseline 3 (spike 1) (spike 0) unit_psd 1 false false = 0.
Proof.
  set (b := used_baseline _ _ _ _ _ _ _).
  destruct (used_baseline_joint 3 (spike 1) (spike 0) unit_psd 1 false false (spike_problem false) (spike_visible true))
    as (a & d & Hd & H). fold b in H.
  specialize (H 1 1%Z 0). rewrite !wchi2_unit in H. unfold minus_pulse_base, used_template in H.
  rewrite !roll3 in H by lia.
  change (Z.to_nat ((Z.of_nat 0 + 1) mod 3)) with 1%nat in H.
  assert (d = 0 \/ d = 1 \/ d = 2)%Z as [-> | [-> | ->]] by lia.
  - change (Z.to_nat ((Z.of_nat 0 + 0) mod 3)) with 0%nat in H. unfold spike in H. cbn [Nat.eqb] in H. exfalso.
    assert (K1 := pow2_ge_0 (0 - a * 1 - b)). nra.
  - change (Z.to_nat ((Z.of_nat 0 + 1) mod 3)) with 1%nat in H. unfold spike in H. cbn [Nat.eqb] in H.
    assert (K1 := pow2_ge_0 (1 - a * 1 - b)). destruct (Req_dec b 0) as [Hb|Hb]; [exact Hb|]. exfalso.
    assert (0 < b ^ 2) by nra. nra.
  - change (Z.to_nat ((Z.of_nat 0 + 2) mod 3)) with 2%nat in H. unfold spike in H. cbn [Nat.eqb] in H. exfalso.
    assert (K1 := pow2_ge_0 (0 - a * 1 - b)). nra.
Qed.

Lemma spike_constrained :
  snd (ofamp_baseline (mkArgs (Some 1%Z) false 0 0 false) (of_init 3 (spike 1) (spike 0) unit_psd 1 false false)) = Ok (0, 0, 1).
Proof.
  rewrite baseline_is_scan by (apply spike_problem || apply spike_visible). rewrite spike_baseline.
  destruct (scan_single 3 (fun i => spike 1 i - 0) (spike 0) unit_psd 1 false false (spike_problem false) 0) as (a & c & E1 & E2).
  { apply center_0. lia. }
  rewrite E2. clear E2.
  destruct (nodelay_spec 3 (fun i => spike 1 i - 0) (spike 0) unit_psd 1 false false (spike_problem false) 0) as (a' & E & Ho).
  rewrite E in E1. injection E1 as Ea Ec. subst a'.
  assert (a = 0) as ->.
  { destruct (Req_dec 0 a) as [H|H]; [now symmetry|]. specialize (Ho 0 H). exfalso. revert Ho.
    rewrite !wchi2_unit. unfold minus_pulse, used_template. rewrite !roll3 by lia.
    change (Z.to_nat ((Z.of_nat 0 + 0) mod 3)) with 0%nat. unfold spike. cbn [Nat.eqb]. nra. }
  f_equal. f_equal; [f_equal; lra|]. rewrite <- Ec, wchi2_unit. unfold minus_pulse, used_template. rewrite !roll3 by lia.
  change (Z.to_nat ((Z.of_nat 0 + 0) mod 3)) with 0%nat. unfold spike. cbn [Nat.eqb]. ring.
Qed.

Lemma spike_better : wchi2 3 1 unit_psd false (minus_pulse_base 3 (spike 1) (spike 0) (-1/2) 0 (1/2)) = 1 / 2.
Proof.
  rewrite wchi2_unit. unfold minus_pulse_base. rewrite !roll3 by lia.
  change (Z.to_nat ((Z.of_nat 0 + 0) mod 3)) with 0%nat. unfold spike. cbn [Nat.eqb]. field.
Qed.

Lemma tw_half3 : tw 3 (-1) = (-1 / 2, - (sqrt 3 / 2)).
Proof.
  unfold tw, cis. replace (2 * PI * -1 / INR 3) with (- (2 * (PI / 3))) by (simpl; field).
  rewrite cos_neg, sin_neg, cos_2PI3, sin_2PI3. reflexivity.
Qed.
