(** * The fits behind the pileup and chi2 cuts *)
From Coq Require Import String.
From Verif Require Import Base ListLemmas UtilsModel Dft WindowModel WindowSpec WindowProofs OFModel OFFreeModel OFSpec
  OFProofs1 OFProofs6 OFProofs8 OFProofs10.
From Verif Require Import CutModel CutSpec CutProofs1 CutProofs4.
Local Open Scope R_scope.

(** ** chi-square of an AC-coupled trace with white noise *)
Lemma dft_0 n (r : nat -> R) : dft n (fun j => RtoC (r j)) 0 = RtoC (rsum n r).
Proof.
  unfold dft. rewrite (csum_ext n _ (fun k => RtoC (r k))).
  - apply csum_RtoC.
  - intros k _. rewrite Z.mul_0_r || idtac. change (- 0)%Z with 0%Z. rewrite tw_0. now rewrite Cmult_1_r.
Qed.

Lemma wchi2_spread n fs r : (0 < n)%nat -> fs <> 0 -> wchi2 n fs (fun _ => 1) true r = spread n fs r.
Proof.
  intros Hn Hf. assert (Hn' : INR n <> 0) by now apply INR_neq0.
  assert (E := wchi2_flat n fs 1 r Hn Hf R1_neq_R0).
  assert (D : wchi2 n fs (fun _ => 1) false r = wchi2 n fs (fun _ => 1) true r + / (1 * INR n * fs) * cn2 (dft n (fun j => RtoC (r j)) 0)).
  { unfold wchi2. destruct n as [|n]; [lia|]. rewrite !rsum_S_first.
    change (bin_weight (S n) fs (fun _ => 1) true 0) with 0.
    change (bin_weight (S n) fs (fun _ => 1) false 0) with (/ (1 * INR (S n) * fs)).
    change (Z.of_nat 0) with 0%Z.
    change (rsum n (fun k => bin_weight (S n) fs (fun _ => 1) true (S k) * cn2 (dft (S n) (fun j => RtoC (r j)) (Z.of_nat (S k)))))
      with (rsum n (fun k => bin_weight (S n) fs (fun _ => 1) false (S k) * cn2 (dft (S n) (fun j => RtoC (r j)) (Z.of_nat (S k))))).
    ring. }
  rewrite E, dft_0 in D. unfold spread.
  set (S1 := rsum n r) in *. 
  rewrite (rsum_ext n (fun i => (r i - S1 / INR n) ^ 2) (fun i => r i ^ 2 - (2 * (S1 / INR n)) * r i + (S1 / INR n) ^ 2)) by (intros; ring).
  rewrite rsum_plus, rsum_minus, rsum_scal_l, rsum_const. fold S1. unfold cn2 in D. cbn [fst snd RtoC] in D.
  apply (Rplus_eq_reg_r (/ (1 * INR n * fs) * (S1 * S1 + 0 * 0))). rewrite <- D. field. auto.
Qed.

Lemma spread_shift n fs r c : (0 < n)%nat -> spread n fs (fun i => r i - c) = spread n fs r.
Proof.
  intros Hn. assert (Hn' : INR n <> 0) by now apply INR_neq0. unfold spread. f_equal. apply rsum_ext. intros i _.
  rewrite rsum_minus, rsum_const. f_equal. field. exact Hn'.
Qed.

Lemma spread_ext n fs r r' : (forall i, (i < n)%nat -> r i = r' i) -> spread n fs r = spread n fs r'.
Proof. intros H. unfold spread. rewrite (rsum_ext n r r' H). f_equal. apply rsum_ext. intros i Hi. now rewrite H. Qed.

(** ** the template *)
Lemma round_half n : (2 <= n)%nat -> let t := round_div (Z.of_nat n) 2 in
  (1 <= t < Z.of_nat n)%Z /\ (2 * t = Z.of_nat n \/ (Z.abs (2 * t - Z.of_nat n) = 1 /\ Z.even t = true))%Z.
Proof.
  intros Hn t. unfold t, round_div.
  pose proof (Z.div_mod (Z.of_nat n) 2 ltac:(lia)) as D. pose proof (Z.mod_pos_bound (Z.of_nat n) 2 ltac:(lia)) as B.
  set (q := (Z.of_nat n / 2)%Z) in *. set (r := (Z.of_nat n mod 2)%Z) in *.
  destruct (Z.ltb_spec (2 * r) 2); [split; [lia|left; lia]|].
  destruct (Z.ltb_spec 2 (2 * r)); [lia|].
  destruct (Z.even q) eqn:Eq.
  - split; [|right; split; [lia|exact Eq]]. split; [|lia]. destruct (Z.eq_dec q 0) as [Z0|]; [|lia]. lia.
  - split; [split; [lia|]|right; split; [lia|]].
    + destruct (Z.eq_dec q 1) as [Z1|]; lia.
    + rewrite Z.add_1_r, Z.even_succ, <- Z.negb_even, Eq. reflexivity.
Qed.

Lemma dummy_pulse_shape n fs j : fs <> 0 ->
  dummy_pulse n fs j = pulse_shape ((INR (j + 1) - IZR (round_div (Z.of_nat n) 2)) / fs).
Proof.
  intros Hf. unfold dummy_pulse, pulse_shape, dummy_time.
  replace (1 / fs * (INR (j + 1) - IZR (round_div (Z.of_nat n) 2))) with ((INR (j + 1) - IZR (round_div (Z.of_nat n) 2)) / fs) by (field; exact Hf).
  cbv zeta. unfold Rltb. destruct (Rlt_dec _ 0); reflexivity.
Qed.

Lemma pulse_shape_pos t : 0 < t -> 0 < pulse_shape t.
Proof.
  intros H. unfold pulse_shape. destruct (Rlt_dec t 0); [lra|]. apply Rmult_lt_0_compat; [|apply exp_pos].
  assert (exp (- t / (1 / 100000)) < exp 0); [|rewrite exp_0 in *; lra]. apply exp_increasing. lra.
Qed.
Lemma pulse_shape_0 : pulse_shape 0 = 0.
Proof. unfold pulse_shape. destruct (Rlt_dec 0 0); [lra|]. replace (- 0 / (1 / 100000)) with 0 by field. rewrite exp_0. ring. Qed.

Lemma dummy_max n fs : (2 <= n)%nat -> 0 < fs -> 0 < listmax (mk n (dummy_pulse n fs)).
Proof.
  intros Hn Hf. destruct (round_half n Hn) as [[B1 B2] _]. set (t := round_div (Z.of_nat n) 2) in *.
  assert (Hne : mk n (dummy_pulse n fs) <> []).
  { intros E. apply (f_equal (@List.length R)) in E. rewrite mk_length in E. simpl in E. lia. }
  destruct (listmax_spec _ Hne) as [_ H].
  apply Rlt_le_trans with (dummy_pulse n fs (Z.to_nat t)).
  - rewrite dummy_pulse_shape by lra. fold t. apply pulse_shape_pos. rewrite plus_INR, INR_IZR_INZ, Z2Nat.id by lia. simpl.
    apply Rdiv_lt_0_compat; [lra|exact Hf].
  - apply H. unfold mk. apply in_map. apply in_seq. lia.
Qed.

Lemma template_pulse n fs : (2 <= n)%nat -> 0 < fs -> unit_pulse n fs (dummy_template n fs).
Proof.
  intros Hn Hf. destruct (round_half n Hn) as [B T]. assert (Hm := dummy_max n fs Hn Hf).
  set (mx := listmax (mk n (dummy_pulse n fs))) in *.
  assert (Hne : mk n (dummy_pulse n fs) <> []).
  { intros E. apply (f_equal (@List.length R)) in E. rewrite mk_length in E. simpl in E. lia. }
  destruct (listmax_spec _ Hne) as [H1 H2]. fold mx in H1, H2.
  exists (/ mx), (round_div (Z.of_nat n) 2). split; [now apply Rinv_0_lt_compat|]. split; [exact T|]. split; [|split].
  - intros j _. unfold dummy_template. fold mx. rewrite dummy_pulse_shape by lra. field. lra.
  - intros j Hj. unfold dummy_template. fold mx. apply Rmult_le_reg_r with mx; [exact Hm|].
    replace (dummy_pulse n fs j / mx * mx) with (dummy_pulse n fs j) by (field; lra). rewrite Rmult_1_l.
    apply H2. unfold mk. apply in_map. apply in_seq. lia.
  - apply in_map_iff in H1. destruct H1 as (j & Ej & Hj). apply in_seq in Hj. exists j. split; [lia|].
    unfold dummy_template. fold mx. rewrite Ej. field. lra.
Qed.

Lemma rsum_neq_0 n f : rsum n f <> 0 -> exists k, (k < n)%nat /\ f k <> 0.
Proof.
  induction n as [|n IH]; cbn [rsum]; intros H; [lra|]. destruct (Req_EM_T (f n) 0) as [E|E].
  - destruct IH as (k & Hk & G); [intros G; apply H; rewrite G, E; ring|]. exists k. split; [lia|exact G].
  - exists n. split; [lia|exact E].
Qed.

(** A template that is not constant is visible. *)
Lemma visible_varies n t i j : (i < n)%nat -> (j < n)%nat -> t i <> t j -> visible n true t.
Proof.
  intros Hi Hj Hne. assert (Hn : (0 < n)%nat) by lia.
  assert (Hn' : INR n <> 0) by now apply INR_neq0.
  assert (G : wchi2 n 1 (fun _ => 1) true t <> 0).
  { rewrite wchi2_spread by (try exact Hn; lra). unfold spread. intros Z0.
    assert (Z1 : rsum n (fun i => (t i - rsum n t / INR n) ^ 2) = 0) by lra.
    assert (Hz : forall k, (k < n)%nat -> (t k - rsum n t / INR n) ^ 2 = 0).
    { apply rsum_nonneg_zero; [intros; apply pow2_ge_0|exact Z1]. }
    assert (G : forall k, (k < n)%nat -> t k = rsum n t / INR n).
    { intros k Hk. specialize (Hz k Hk). nra. }
    apply Hne. rewrite (G i Hi), (G j Hj). reflexivity. }
  apply rsum_neq_0 in G. destruct G as (k & Hk & G). exists k. split; [exact Hk|]. unfold bin_weight in G.
  destruct (true && (k =? 0)%nat)%bool; [exfalso; apply G; ring|]. split; [reflexivity|].
  intros E. apply G. rewrite E. unfold cn2. simpl. ring.
Qed.

Lemma dummy_problem n fs : (2 <= n)%nat -> 0 < fs -> fit_problem n (dummy_template n fs) (fun _ => 1) fs true false.
Proof.
  intros Hn Hf. split; [lia|]. split; [exact Hf|]. split; [intros k _; lra|]. split; [|discriminate].
  destruct (round_half n Hn) as [[B1 B2] _]. set (t := round_div (Z.of_nat n) 2) in *.
  assert (Hm := dummy_max n fs Hn Hf).
  apply (visible_varies n _ (Z.to_nat (t - 1)) (Z.to_nat t)); [lia|lia|].
  unfold dummy_template. rewrite !dummy_pulse_shape by lra. fold t.
  replace (INR (Z.to_nat (t - 1) + 1) - IZR t) with 0.
  2:{ rewrite plus_INR, INR_IZR_INZ, Z2Nat.id by lia. rewrite minus_IZR. simpl. ring. }
  replace (INR (Z.to_nat t + 1) - IZR t) with 1.
  2:{ rewrite plus_INR, INR_IZR_INZ, Z2Nat.id by lia. simpl. ring. }
  replace (0 / fs) with 0 by (field; lra). rewrite pulse_shape_0.
  assert (0 < pulse_shape (1 / fs)) by (apply pulse_shape_pos, Rdiv_lt_0_compat; lra).
  intros E. assert (pulse_shape (1 / fs) / listmax (mk n (dummy_pulse n fs)) > 0) by (apply Rdiv_lt_0_compat; assumption). unfold Rdiv in *. lra.
Qed.

(** ** the fit of one trace *)
Section Fit.
Variables (n : nat) (fs : R).
Hypothesis Hn : (2 <= n)%nat.
Hypothesis Hf : 0 < fs.
Let T := dummy_template n fs.
Let one : nat -> R := fun _ => 1.
Let fit (x : nat -> R) := snd (ofamp_withdelay (OFModel.mkArgs None false 0 0 false) (of_init n x T one fs true false)).

Lemma trace_of_fit t : trace_of n fs t = fit (fun j => nth j t 0).
Proof.
  unfold trace_of. rewrite (free_ofamp_withdelay n (dummy_template n fs) (fun _ => 1) fs true false (dummy_problem n fs Hn Hf)).
  - cbn [map sequence]. fold T one. unfold fit. destruct (snd _) as [r|e]; reflexivity.
  - discriminate.
  - exists 0%Z. split; [lia|]. split; [exact I|]. exact I.
Qed.

Lemma fit_best x : exists a t0 c, fit x = Ok (a, t0, c) /\ best_pulse n fs T x a c.
Proof.
  destruct (scan_global n x T one fs true false (dummy_problem n fs Hn Hf) false) as (a & j & Hj & E & H).
  cbn zeta in H. unfold used_template in E, H. do 3 eexists. split; [exact E|].
  exists (delay n j). unfold one in *. rewrite wchi2_spread by (lia || lra). split; [reflexivity|].
  intros a' d'. specialize (H a' d'). rewrite !wchi2_spread in H by (lia || lra). exact H.
Qed.

Lemma fit_shift x y c : (forall i, (i < n)%nat -> y i = x i + c) -> fit y = fit x.
Proof.
  intros Hy.
  assert (Hv : valid_args n None 0 0).
  { split; [lia|]. split; [|discriminate]. apply center_0. lia. }
  assert (EW : forall a d, wchi2 n fs one true (minus_pulse n y T a d) = wchi2 n fs one true (minus_pulse n x T a d)).
  { intros a d. unfold one. rewrite !wchi2_spread by (lia || lra). rewrite <- (spread_shift n fs (minus_pulse n y T a d) c) by lia.
    apply spread_ext. intros i Hi. unfold minus_pulse. rewrite Hy by exact Hi. ring. }
  destruct (withdelay_spec n x T one fs true false (dummy_problem n fs Hn Hf) (OFModel.mkArgs None false 0 0 false) eq_refl Hv) as (f1 & O1 & R1).
  destruct (withdelay_spec n y T one fs true false (dummy_problem n fs Hn Hf) (OFModel.mkArgs None false 0 0 false) eq_refl Hv) as (f2 & O2 & R2).
  cbn [nconstrain outside direction wcenter] in R1, R2. unfold used_template in *. cbn zeta in R1, R2.
  assert (EA : forall d, f2 d = f1 d).
  { intros d. destruct (Req_dec (f2 d) (f1 d)) as [E|E]; [exact E|]. exfalso.
    assert (K1 := O1 d (f2 d) E). assert (K2 := O2 d (f1 d) (fun G => E (eq_sym G))). rewrite !EW in K2. lra. }
  assert (EX : forall d, wchi2 n fs one true (minus_pulse n y T (f2 d) d) = wchi2 n fs one true (minus_pulse n x T (f1 d) d)).
  { intros d. rewrite EW, EA. reflexivity. }
  assert (Hc : forall f, candidate n None false 0 0 f 0%Z).
  { intros f. split; [lia|]. split; [exact I|]. now left. }
  destruct R1 as [[N1 _]|(j1 & M1 & E1)]; [exfalso; exact (N1 0%Z (Hc _))|].
  destruct R2 as [[N2 _]|(j2 & M2 & E2)]; [exfalso; exact (N2 0%Z (Hc _))|].
  assert (Ej : j2 = j1).
  { eapply first_minimum_unique; [|exact M1]. destruct M2 as [K1 K2]. split.
    - unfold candidate, allowed, direction_ok in *. intuition.
    - intros i Hi. rewrite <- !EX. apply K2. unfold candidate, allowed, direction_ok in *. intuition. }
  subst j2. unfold fit. rewrite E1, E2, EX, EA. reflexivity.
Qed.

Lemma fit_scale x a : a <> 0 -> exists am t0 c, fit x = Ok (am, t0, c) /\ fit (fun i => a * x i) = Ok (a * am, t0, a ^ 2 * c).
Proof.
  intros Ha. apply (withdelay_scal n T one fs true false (dummy_problem n fs Hn Hf) x a (OFModel.mkArgs None false 0 0 false) eq_refl).
  - split; [cbn; lia|]. split; [|discriminate]. apply center_0. lia.
  - right. split; [exact Ha|reflexivity].
Qed.
End Fit.
