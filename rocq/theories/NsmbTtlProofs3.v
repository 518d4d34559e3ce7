(** * Rounding of the TTL count and shifts *)
From Coq Require Import Reals ZArith List Bool Lia Lra Psatz.
From Flocq Require Import Core.
From Verif Require Import Base FloatModel FloatBridge NsmbTtlModel.
Import ListNotations.
Local Open Scope R_scope.

Definition u : R := / IZR (2 ^ 53).
Lemma u_val : u * IZR (2 ^ 53) = 1.
Proof. unfold u. rewrite Rinv_l; [reflexivity|]. apply IZR_neq. lia. Qed.
Lemma u_pos : 0 < u. Proof. apply Rinv_0_lt_compat, IZR_lt. lia. Qed.
Lemma u_small : u <= / 1024.
Proof. unfold u. apply Rinv_le_contravar; [lra|]. apply IZR_le. lia. Qed.

(** Numbers that neither overflow nor underflow in a few operations. *)
Definition mid (x : R) : Prop := / IZR (2 ^ 100) <= x <= IZR (2 ^ 100).

Lemma mid_pos x : mid x -> 0 < x.
Proof. intros [H _]. apply Rlt_le_trans with (2 := H). apply Rinv_0_lt_compat, IZR_lt. lia. Qed.
Lemma mid_big x : mid x -> Rabs x <= bpow radix2 1023 /\ bpow radix2 (-1022) <= Rabs x.
Proof.
  intros H. pose proof (mid_pos x H) as P. destruct H as [H1 H2]. rewrite Rabs_pos_eq by lra. split.
  - apply Rle_trans with (1 := H2). change (IZR (2 ^ 100)) with (IZR (Zpower radix2 100)).
    rewrite IZR_Zpower by lia. apply bpow_le. lia.
  - apply Rle_trans with (2 := H1). change (IZR (2 ^ 100)) with (IZR (Zpower radix2 100)).
    rewrite IZR_Zpower, <- bpow_opp by lia. apply bpow_le. lia.
Qed.

Lemma mul_step x y : ffin x -> ffin y -> mid (fval x * fval y) ->
  ffin (fmul x y) /\ exists d, Rabs d <= u /\ fval (fmul x y) = fval x * fval y * (1 + d).
Proof.
  intros Hx Hy H. destruct (mid_big _ H) as [B1 B2]. destruct (fmul_correct x y Hx Hy B1) as [F V].
  split; [exact F|]. destruct (rnd_rel _ B2) as [d [D E]]. exists d. split; [exact D|]. now rewrite V.
Qed.
Lemma div_step x y : ffin x -> ffin y -> 0 < fval y -> mid (fval x / fval y) ->
  ffin (fdiv x y) /\ exists d, Rabs d <= u /\ fval (fdiv x y) = fval x / fval y * (1 + d).
Proof.
  intros Hx Hy Hp H. destruct (mid_big _ H) as [B1 B2]. destruct (fdiv_correct x y Hx Hy ltac:(lra) B1) as [F V].
  split; [exact F|]. destruct (rnd_rel _ B2) as [d [D E]]. exists d. split; [exact D|]. now rewrite V.
Qed.

Lemma frint_val x : ffin x -> exists z, frint x = Some z /\ Rabs (IZR z - fval x) <= / 2.
Proof.
  intros [_ H]. destruct x as [s|s| |s m e]; try discriminate H.
  - exists 0%Z. split; [reflexivity|]. unfold fval. cbn. rewrite Rminus_0_r, Rabs_R0. lra.
  - cbn [frint]. eexists. split; [reflexivity|]. rewrite fval_finite.
    destruct (Z.leb_spec 0 e) as [L|L].
    + rewrite pos_bpow_pos by exact L. destruct s; rewrite ?opp_IZR;
        match goal with |- Rabs ?y <= _ => replace y with 0 by ring end; rewrite Rabs_R0; lra.
    + rewrite pos_bpow_neg by exact L.
      set (d := (2 ^ (- e))%Z). assert (P : (0 < d)%Z) by (apply Z.pow_pos_nonneg; lia).
      set (a := (if 2 * (Z.pos m mod d) <? d then Z.pos m / d
                 else if d <? 2 * (Z.pos m mod d) then Z.pos m / d + 1
                 else if Z.even (Z.pos m / d) then Z.pos m / d else Z.pos m / d + 1)%Z).
      assert (A : (2 * Z.abs (a * d - Z.pos m) <= d)%Z).
      { pose proof (Z.div_mod (Z.pos m) d ltac:(lia)). pose proof (Z.mod_pos_bound (Z.pos m) d P).
        unfold a. destruct (Z.ltb_spec (2 * (Z.pos m mod d)) d); [nia|].
        destruct (Z.ltb_spec d (2 * (Z.pos m mod d))); [nia|]. destruct (Z.even _); nia. }
      assert (B : Rabs (IZR a - IZR (Z.pos m) / IZR d) <= / 2).
      { assert (Pd : 0 < IZR d) by (apply IZR_lt; exact P).
        replace (IZR a - IZR (Z.pos m) / IZR d) with (IZR (a * d - Z.pos m) * / IZR d)
          by (rewrite minus_IZR, mult_IZR; field; lra).
        rewrite Rabs_mult, <- abs_IZR, (Rabs_pos_eq (/ IZR d)) by (apply Rlt_le, Rinv_0_lt_compat; exact Pd).
        apply (Rmult_le_reg_r (IZR d)); [exact Pd|]. rewrite Rmult_assoc, Rinv_l, Rmult_1_r by lra.
        apply IZR_le in A. rewrite mult_IZR in A. lra. }
      destruct s; [|now rewrite Rmult_1_l].
      rewrite opp_IZR. replace (- IZR a - -1 * (IZR (Z.pos m) / IZR d)) with (- (IZR a - IZR (Z.pos m) / IZR d)) by ring.
      now rewrite Rabs_Ropp.
Qed.

Section Nums.
Variables fs rate : Z.
Hypothesis Hfs : (1 <= fs <= 2 ^ 24)%Z.
Hypothesis Hrate : (1 <= rate <= 2 ^ 24)%Z.

Let b24 : IZR (2 ^ 24) * IZR (2 ^ 24) * IZR (2 ^ 24) * 1024 <= IZR (2 ^ 100).
Proof. rewrite <- !mult_IZR. apply IZR_le. vm_compute. discriminate. Qed.

Lemma r_fs : 1 <= IZR fs <= IZR (2 ^ 24). Proof. split; apply IZR_le; lia. Qed.
Lemma r_rate : 1 <= IZR rate <= IZR (2 ^ 24). Proof. split; apply IZR_le; lia. Qed.
Lemma big24 : 1024 <= IZR (2 ^ 24). Proof. apply IZR_le. lia. Qed.

Lemma mid_of lo x : 0 < lo -> lo <= IZR (2 ^ 100) -> / lo <= x <= lo -> mid x.
Proof.
  intros H0 H1 [H2 H3]. split; [|lra]. apply Rle_trans with (2 := H2). apply Rinv_le_contravar; lra.
Qed.
Let P24 := IZR (2 ^ 24).
Lemma bnd24 : 4 <= P24 * P24 * P24 * 1024 /\ P24 * P24 * P24 * 1024 <= IZR (2 ^ 100).
Proof. split; [|exact b24]. pose proof big24. fold P24 in H. nra. Qed.

Lemma inv_rate : ffin (fdiv (fl 1) (fl rate)) /\ exists d, Rabs d <= u /\ fval (fdiv (fl 1) (fl rate)) = / IZR rate * (1 + d).
Proof.
  destruct (fl_correct 1 ltac:(lia)) as [F1 V1]. destruct (fl_correct rate ltac:(lia)) as [Fr Vr].
  pose proof r_rate as R. pose proof big24 as B. fold P24 in R, B.
  destruct (div_step (fl 1) (fl rate) F1 Fr) as [F [d [D E]]].
  - rewrite Vr. lra.
  - rewrite V1, Vr. unfold Rdiv. rewrite Rmult_1_l. apply (mid_of P24); [lra|pose proof bnd24; nra|]. split.
    + apply Rinv_le_contravar; lra.
    + apply Rle_trans with (/ 1); [apply Rinv_le_contravar; lra|lra].
  - split; [exact F|]. exists d. split; [exact D|]. rewrite E, V1, Vr. unfold Rdiv. ring.
Qed.

Lemma between_val : ffin (ttl_between (fl fs) (fl rate)) /\ exists d1 d2, Rabs d1 <= u /\ Rabs d2 <= u /\
  fval (ttl_between (fl fs) (fl rate)) = IZR fs / IZR rate * ((1 + d1) * (1 + d2)).
Proof.
  destruct inv_rate as [Fi [d1 [D1 E1]]]. destruct (fl_correct fs ltac:(lia)) as [Ff Vf].
  pose proof r_rate as R. pose proof r_fs as RF. pose proof big24 as B. fold P24 in R, RF, B.
  pose proof u_small as Us. apply Rabs_le_inv in D1 as D1'.
  assert (I : / P24 <= / IZR rate <= 1).
  { split; [apply Rinv_le_contravar; lra|]. apply Rle_trans with (/ 1); [apply Rinv_le_contravar; lra|lra]. }
  assert (IP : 0 < / P24) by (apply Rinv_0_lt_compat; lra).
  destruct (mul_step _ _ Fi Ff) as [F [d2 [D2 E2]]].
  - rewrite E1, Vf. apply (mid_of (P24 * 2)); [lra|pose proof bnd24; nra|]. split.
    + rewrite Rinv_mult. apply Rle_trans with (/ P24 * (1 + d1)); [apply Rmult_le_compat_l; lra|].
      apply Rle_trans with (/ IZR rate * (1 + d1)); [apply Rmult_le_compat_r; lra|].
      rewrite <- (Rmult_1_r (_ * (1 + d1))) at 1. apply Rmult_le_compat_l; [apply Rmult_le_pos; lra|lra].
    + apply Rle_trans with (2 * IZR fs); [apply Rmult_le_compat_r; [lra|nra]|nra].
  - split; [exact F|]. exists d1, d2. split; [exact D1|]. split; [exact D2|]. unfold ttl_between. rewrite E2, E1, Vf.
    unfold Rdiv. ring.
Qed.

(** Three roundings change a quotient by less than 4u. *)
Lemma three d1 d2 d3 : Rabs d1 <= u -> Rabs d2 <= u -> Rabs d3 <= u ->
  Rabs ((1 + d1) * (1 + d2) * (1 + d3) - 1) <= 4 * u.
Proof.
  intros H1 H2 H3. apply Rabs_le_inv in H1, H2, H3. pose proof u_small. pose proof u_pos. apply Rabs_le.
  assert (A : - (u * (2 + / 1024)) <= d1 + d2 + d1 * d2 <= u * (2 + / 1024)).
  { assert (- (u * / 1024) <= d1 * d2 <= u * / 1024) by nra. lra. }
  set (s := d1 + d2 + d1 * d2) in *. replace ((1 + d1) * (1 + d2) * (1 + d3) - 1) with (s + d3 + s * d3) by (unfold s; ring).
  assert (- (u * / 2) <= s * d3 <= u * / 2) by nra. lra.
Qed.

Lemma shift_nearest i : (Z.of_nat i <= 2 ^ 24)%Z ->
  exists z, ttl_shift (fl fs) (fl rate) i = Some z /\ (2 * Z.abs (rate * z - Z.of_nat i * fs) <= rate)%Z.
Proof.
  intros Hi. destruct between_val as [Fb [d1 [d2 [D1 [D2 E]]]]].
  pose proof r_rate as R. pose proof r_fs as RF. pose proof big24 as B. fold P24 in R, RF, B.
  destruct i as [|i].
  - assert (Z0 : ffin (fmul (ttl_between (fl fs) (fl rate)) (fl 0)) /\ fval (fmul (ttl_between (fl fs) (fl rate)) (fl 0)) = 0).
    { destruct (fl_correct 0 ltac:(lia)) as [F0 V0]. 
      destruct (fmul_correct (ttl_between (fl fs) (fl rate)) (fl 0) Fb F0) as [F V].
      - rewrite V0, Rmult_0_r, Rabs_R0. apply bpow_ge_0.
      - split; [exact F|]. rewrite V, V0, Rmult_0_r. apply (rnd_int 0). lia. }
    destruct Z0 as [F V]. unfold ttl_shift. change (Z.of_nat 0) with 0%Z. destruct (frint_val _ F) as [z [Ez Bz]].
    exists z. split; [exact Ez|]. rewrite V, Rminus_0_r, <- abs_IZR in Bz.
    assert (IZR (Z.abs z) < 1) by lra. apply lt_IZR in H. assert (z = 0)%Z by lia. subst z. lia.
  - set (k := Z.of_nat (S i)) in *. assert (K1 : (1 <= k)%Z) by (unfold k; lia).
    destruct (fl_correct k ltac:(lia)) as [Fk Vk].
    assert (RK : 1 <= IZR k <= P24) by (split; apply IZR_le; lia).
    pose proof u_small as Us. pose proof u_pos as Up.
    apply Rabs_le_inv in D1 as D1'. apply Rabs_le_inv in D2 as D2'.
    assert (IP : 0 < / P24) by (apply Rinv_0_lt_compat; lra).
    assert (I : / P24 <= / IZR rate <= 1).
    { split; [apply Rinv_le_contravar; lra|]. apply Rle_trans with (/ 1); [apply Rinv_le_contravar; lra|lra]. }
    assert (Q : / P24 <= IZR fs / IZR rate <= P24).
    { unfold Rdiv. split; [|nra]. rewrite <- (Rmult_1_l (/ P24)). apply Rmult_le_compat; lra. }
    assert (DD : / 2 <= (1 + d1) * (1 + d2) <= 2) by nra.
    destruct (mul_step _ _ Fb Fk) as [F [d3 [D3 E3]]].
    + rewrite E, Vk. apply (mid_of (P24 * 2 * P24)); [nra|pose proof bnd24; nra|]. split.
      * apply Rle_trans with (/ P24 * / 2 * 1); [|apply Rmult_le_compat; [nra|lra| |lra]; apply Rmult_le_compat; lra].
        rewrite Rmult_1_r, <- Rinv_mult. apply Rinv_le_contravar; nra.
      * apply Rmult_le_compat; [|lra| |lra]; [apply Rmult_le_pos; lra|apply Rmult_le_compat; lra].
    + unfold ttl_shift. fold k. destruct (frint_val _ F) as [z [Ez Bz]]. exists z. split; [exact Ez|].
      rewrite E3, E, Vk in Bz.
      pose proof (three d1 d2 d3 D1 D2 D3) as T. set (w := (1 + d1) * (1 + d2) * (1 + d3) - 1) in *.
      assert (X : IZR fs / IZR rate * ((1 + d1) * (1 + d2)) * IZR k * (1 + d3) = IZR k * IZR fs / IZR rate * (1 + w)).
      { unfold w. field. lra. }
      rewrite X in Bz.
      assert (KF : IZR k * IZR fs * (4 * u) <= / 8).
      { apply Rle_trans with (P24 * P24 * (4 * u)); [apply Rmult_le_compat_r; [lra|nra]|].
        pose proof u_val as U. replace (IZR (2 ^ 53)) with (P24 * P24 * 32) in U by (unfold P24; rewrite <- !mult_IZR; reflexivity). lra. }
      assert (G : Rabs (IZR rate * IZR z - IZR k * IZR fs) <= IZR rate / 2 + / 8).
      { replace (IZR rate * IZR z - IZR k * IZR fs)
          with (IZR rate * (IZR z - IZR k * IZR fs / IZR rate * (1 + w)) + IZR k * IZR fs * w) by (field; lra).
        apply Rle_trans with (1 := Rabs_triang _ _). apply Rplus_le_compat.
        - rewrite Rabs_mult, (Rabs_pos_eq (IZR rate)) by lra. unfold Rdiv. apply Rmult_le_compat_l; lra.
        - rewrite Rabs_mult, (Rabs_pos_eq (IZR k * IZR fs)) by nra. apply Rle_trans with (2 := KF).
          apply Rmult_le_compat_l; [nra|exact T]. }
      rewrite <- !mult_IZR, <- minus_IZR, <- abs_IZR in G.
      assert (G2 : IZR (2 * Z.abs (rate * z - k * fs)) < IZR (rate + 1)).
      { rewrite mult_IZR, plus_IZR. lra. }
      apply lt_IZR in G2. lia.
Qed.

Lemma count_bound n : (1 <= n <= 2 ^ 24)%Z ->
  exists c, ttl_count n (fl fs) (fl rate) = Some c /\
    (c = n * rate / fs \/ ((n * rate) mod fs = 0 /\ c = n * rate / fs - 1))%Z.
Proof.
  intros Hn. destruct inv_rate as [Fi [d1 [D1 E1]]]. destruct (fl_correct fs ltac:(lia)) as [Ff Vf].
  destruct (fl_correct n ltac:(lia)) as [Fn Vn].
  pose proof r_rate as R. pose proof r_fs as RF. pose proof big24 as B. fold P24 in R, RF, B.
  assert (RN : 1 <= IZR n <= P24) by (split; apply IZR_le; lia).
  pose proof u_small as Us. pose proof u_pos as Up. apply Rabs_le_inv in D1 as D1'.
  assert (IP : 0 < / P24) by (apply Rinv_0_lt_compat; lra).
  assert (I : / P24 <= / IZR fs <= 1).
  { split; [apply Rinv_le_contravar; lra|]. apply Rle_trans with (/ 1); [apply Rinv_le_contravar; lra|lra]. }
  assert (I2 : / P24 <= / IZR rate <= 1).
  { split; [apply Rinv_le_contravar; lra|]. apply Rle_trans with (/ 1); [apply Rinv_le_contravar; lra|lra]. }
  assert (Q : / P24 <= IZR n / IZR fs <= P24).
  { unfold Rdiv. split; [|nra]. rewrite <- (Rmult_1_l (/ P24)). apply Rmult_le_compat; lra. }
  destruct (div_step _ _ Fn Ff) as [Fq [d2 [D2 E2]]].
  { rewrite Vf. lra. } { rewrite Vn, Vf. apply (mid_of P24); [lra|pose proof bnd24; nra|exact Q]. }
  rewrite Vn, Vf in E2. apply Rabs_le_inv in D2 as D2'.
  assert (V0 : 0 < fval (fdiv (fl 1) (fl rate))) by (rewrite E1; apply Rmult_lt_0_compat; lra).
  assert (XQ : fval (fdiv (fl n) (fl fs)) / fval (fdiv (fl 1) (fl rate)) = IZR n * IZR rate / IZR fs * ((1 + d2) / (1 + d1))).
  { rewrite E1, E2. field. repeat split; lra. }
  assert (DQ : / 2 <= (1 + d2) / (1 + d1) <= 2).
  { split; apply (Rmult_le_reg_r (1 + d1)); try lra; unfold Rdiv; rewrite Rmult_assoc, Rinv_l by lra; lra. }
  assert (NQ : / P24 <= IZR n * IZR rate / IZR fs <= P24 * P24).
  { unfold Rdiv. split.
    - rewrite <- (Rmult_1_l (/ P24)). apply Rmult_le_compat; try lra. nra.
    - rewrite <- (Rmult_1_r (P24 * P24)). apply Rmult_le_compat; try lra; nra. }
  destruct (div_step _ _ Fq Fi V0) as [F [d3 [D3 E3]]].
  { rewrite XQ. apply (mid_of (P24 * P24 * 2)); [nra|pose proof bnd24; nra|]. split.
    - apply Rle_trans with (/ P24 * / 2); [|apply Rmult_le_compat; lra].
      rewrite <- Rinv_mult. apply Rinv_le_contravar; nra.
    - apply Rmult_le_compat; lra. }
  rewrite XQ in E3. apply Rabs_le_inv in D3 as D3'.
  unfold ttl_count. rewrite (ftrunc_val _ F). eexists. split; [reflexivity|].
  set (x := fval (fdiv (fdiv (fl n) (fl fs)) (fdiv (fl 1) (fl rate)))) in *.
  set (w := (1 + d2) / (1 + d1) * (1 + d3) - 1).
  assert (Ex : x = IZR n * IZR rate / IZR fs * (1 + w)) by (rewrite E3; unfold w; ring).
  assert (W : Rabs w <= 4 * u).
  { assert (Iw : w * (1 + d1) = (1 + d2) * (1 + d3) - (1 + d1)) by (unfold w; field; lra).
    assert (Y : - (u * (3 + / 1024)) <= w * (1 + d1) <= u * (3 + / 1024)).
    { rewrite Iw. assert (- (u * / 1024) <= d2 * d3 <= u * / 1024) by nra. lra. }
    apply Rabs_le. split; nra. }
  assert (Kw : IZR n * IZR rate * Rabs w <= / 8).
  { apply Rle_trans with (P24 * P24 * (4 * u)).
    - apply Rmult_le_compat; [nra|apply Rabs_pos|nra|exact W].
    - pose proof u_val as U. replace (IZR (2 ^ 53)) with (P24 * P24 * 32) in U by (unfold P24; rewrite <- !mult_IZR; reflexivity). lra. }
  assert (G : Rabs (x * IZR fs - IZR (n * rate)) <= / 8).
  { rewrite Ex, mult_IZR. replace (IZR n * IZR rate / IZR fs * (1 + w) * IZR fs - IZR n * IZR rate) with (IZR n * IZR rate * w) by (field; lra).
    rewrite Rabs_mult, (Rabs_pos_eq (IZR n * IZR rate)) by nra. exact Kw. }
  apply Rabs_le_inv in G.
  assert (X0 : 0 <= x).
  { rewrite Ex. apply Rabs_le_inv in W. apply Rmult_le_pos; [lra|lra]. }
  rewrite Ztrunc_floor by exact X0.
  pose proof (Zfloor_lb x) as L1. pose proof (Zfloor_ub x) as L2. set (c := Zfloor x) in *.
  assert (C1 : (c * fs <= n * rate)%Z).
  { assert (IZR (c * fs) < IZR (n * rate + 1)) by (rewrite mult_IZR, plus_IZR; nra). apply lt_IZR in H. lia. }
  assert (C2 : (n * rate <= (c + 1) * fs)%Z).
  { assert (IZR (n * rate) < IZR ((c + 1) * fs + 1)) by (rewrite plus_IZR, (mult_IZR (c + 1) fs), (plus_IZR c 1); nra). apply lt_IZR in H. lia. }
  destruct (Z.eq_dec (n * rate) ((c + 1) * fs)) as [Eq|Ne].
  - right. rewrite Eq. split; [apply Z.mod_mul; lia|]. rewrite Z.div_mul by lia. lia.
  - left. apply (Z.div_unique _ _ _ (n * rate - c * fs)); [left|]; lia.
Qed.

(** The roll is half the length of all triggers, rounded towards zero. *)
Lemma roll_bound c : (0 <= c <= 2 ^ 24)%Z ->
  exists k, ttl_roll c (fl fs) (fl rate) = Some k /\ (k <= 0)%Z /\
    (2 * rate * - k <= c * fs <= 2 * rate * (- k + 1))%Z.
Proof.
  intros Hc. destruct between_val as [Fb [d1 [d2 [D1 [D2 E]]]]].
  pose proof r_rate as R. pose proof r_fs as RF. pose proof big24 as B. fold P24 in R, RF, B.
  destruct (fl_correct (- c) ltac:(lia)) as [Fc Vc]. destruct (fl_correct 2 ltac:(lia)) as [F2 V2].
  rewrite opp_IZR in Vc.
  destruct (Z.eq_dec c 0) as [->|Nc].
  - destruct (fdiv_correct (fl (- 0)) (fl 2) Fc F2) as [Fd Vd].
    { rewrite V2. lra. } { rewrite Vc. unfold Rdiv. rewrite Ropp_0, Rmult_0_l, Rabs_R0. apply bpow_ge_0. }
    rewrite Vc, Ropp_0 in Vd. replace (0 / fval (fl 2)) with 0 in Vd by (unfold Rdiv; ring).
    rewrite (rnd_int 0) in Vd by lia.
    destruct (fmul_correct _ _ Fd Fb) as [Fm Vm].
    { rewrite Vd, Rmult_0_l, Rabs_R0. apply bpow_ge_0. }
    rewrite Vd, Rmult_0_l, (rnd_int 0) in Vm by lia.
    exists 0%Z. unfold ttl_roll. rewrite (ftrunc_val _ Fm), Vm, Ztrunc_IZR. split; [reflexivity|]. lia.
  - assert (RC : 1 <= IZR c <= P24) by (split; apply IZR_le; lia).
    pose proof u_small as Us. pose proof u_pos as Up.
    apply Rabs_le_inv in D1 as D1'. apply Rabs_le_inv in D2 as D2'.
    assert (IP : 0 < / P24) by (apply Rinv_0_lt_compat; lra).
    assert (I : / P24 <= / IZR rate <= 1).
    { split; [apply Rinv_le_contravar; lra|]. apply Rle_trans with (/ 1); [apply Rinv_le_contravar; lra|lra]. }
    assert (Q : / P24 <= IZR fs / IZR rate <= P24).
    { unfold Rdiv. split; [|nra]. rewrite <- (Rmult_1_l (/ P24)). apply Rmult_le_compat; lra. }
    assert (DD : / 2 <= (1 + d1) * (1 + d2) <= 2) by nra.
    assert (AV : Rabs (fval (fl (- c)) / fval (fl 2)) = IZR c / 2).
    { rewrite Vc, V2. unfold Rdiv. rewrite Ropp_mult_distr_l_reverse, Rabs_Ropp. apply Rabs_pos_eq. lra. }
    assert (M1 : mid (IZR c / 2)).
    { apply (mid_of (P24 * 2)); [lra|pose proof bnd24; nra|]. split; [|nra]. rewrite Rinv_mult.
      apply Rle_trans with (1 * / 2); [apply Rmult_le_compat_r; [lra|]|lra]. apply Rle_trans with (/ 1); [apply Rinv_le_contravar; lra|lra]. }
    destruct (mid_big _ M1) as [B1 B2]. rewrite (Rabs_pos_eq (IZR c / 2)) in B1, B2 by lra. rewrite <- AV in B1, B2.
    destruct (fdiv_correct _ _ Fc F2 ltac:(rewrite V2; lra) B1) as [Fd Vd].
    destruct (rnd_rel _ B2) as [d3 [D3 E3]]. rewrite E3, Vc, V2 in Vd. apply Rabs_le_inv in D3 as D3'.
    assert (AW : Rabs (fval (fdiv (fl (- c)) (fl 2)) * fval (ttl_between (fl fs) (fl rate))) = IZR c / 2 * (1 + d3) * (IZR fs / IZR rate * ((1 + d1) * (1 + d2)))).
    { rewrite Vd, E. replace (- IZR c / 2 * (1 + d3)) with (- (IZR c / 2 * (1 + d3))) by (unfold Rdiv; ring).
      rewrite Ropp_mult_distr_l_reverse, Rabs_Ropp. apply Rabs_pos_eq. apply Rmult_le_pos; apply Rmult_le_pos; lra. }
    assert (CD : / 4 <= IZR c / 2 * (1 + d3) <= P24) by (split; nra).
    assert (M2 : mid (IZR c / 2 * (1 + d3) * (IZR fs / IZR rate * ((1 + d1) * (1 + d2))))).
    { apply (mid_of (P24 * (P24 * 8))); [nra|pose proof bnd24; nra|]. split.
      - apply Rle_trans with (/ 4 * (/ P24 * / 2)).
        + replace (/ 4 * (/ P24 * / 2)) with (/ (P24 * 8)) by (field; lra). apply Rinv_le_contravar; nra.
        + apply Rmult_le_compat; [lra|nra|lra|]. apply Rmult_le_compat; lra.
      - apply Rmult_le_compat; [lra|apply Rmult_le_pos; lra|lra|]. apply Rmult_le_compat; lra. }
    destruct (mid_big _ M2) as [C1 C2]. rewrite (Rabs_pos_eq (IZR c / 2 * (1 + d3) * _)) in C1, C2 by (apply Rlt_le, mid_pos, M2). rewrite <- AW in C1, C2.
    destruct (fmul_correct _ _ Fd Fb C1) as [Fm Vm]. destruct (rnd_rel _ C2) as [d4 [D4 E4]]. rewrite E4, Vd, E in Vm. apply Rabs_le_inv in D4 as D4'.
    unfold ttl_roll. rewrite (ftrunc_val _ Fm). eexists. split; [reflexivity|].
    set (x := fval (fmul _ _)) in *. set (w := (1 + d1) * (1 + d2) * (1 + d3) * (1 + d4) - 1).
    assert (Ex : - x = IZR c * IZR fs / (2 * IZR rate) * (1 + w)) by (rewrite Vm; unfold w; field; lra).
    assert (W : Rabs w <= 6 * u).
    { pose proof (three d1 d2 d3 D1 D2 D3) as T. set (v := (1 + d1) * (1 + d2) * (1 + d3) - 1) in *.
      replace w with (v + d4 + v * d4) by (unfold w, v; ring). apply Rabs_le_inv in T.
      assert (- (u * / 2) <= v * d4 <= u * / 2) by nra. change (- u <= d4 <= u) in D4'. apply Rabs_le. lra. }
    assert (Kw : IZR c * IZR fs * Rabs w <= / 4).
    { apply Rle_trans with (P24 * P24 * (6 * u)).
      - apply Rmult_le_compat; [nra|apply Rabs_pos|nra|exact W].
      - pose proof u_val as U. replace (IZR (2 ^ 53)) with (P24 * P24 * 32) in U by (unfold P24; rewrite <- !mult_IZR; reflexivity). lra. }
    assert (G : Rabs (- x * (2 * IZR rate) - IZR (c * fs)) <= / 4).
    { rewrite Ex, mult_IZR. replace (IZR c * IZR fs / (2 * IZR rate) * (1 + w) * (2 * IZR rate) - IZR c * IZR fs) with (IZR c * IZR fs * w) by (field; lra).
      rewrite Rabs_mult, (Rabs_pos_eq (IZR c * IZR fs)) by nra. exact Kw. }
    apply Rabs_le_inv in G.
    assert (X0 : 0 <= - x).
    { rewrite Ex. apply Rabs_le_inv in W. apply Rmult_le_pos; [|lra]. apply Rlt_le, Rdiv_lt_0_compat; nra. }
    replace (Ztrunc x) with (- Zfloor (- x))%Z by (rewrite <- Ztrunc_floor by exact X0; rewrite Ztrunc_opp; lia).
    pose proof (Zfloor_lb (- x)) as L1. pose proof (Zfloor_ub (- x)) as L2.
    assert (0 <= Zfloor (- x))%Z by (apply Zfloor_lub; exact X0). set (k := Zfloor (- x)) in *. split; [lia|]. rewrite Z.opp_involutive. split.
    + assert (IZR (2 * rate * k) < IZR (c * fs + 1)) as Q1 by (rewrite !mult_IZR, plus_IZR; rewrite mult_IZR in *; nra). apply lt_IZR in Q1. lia.
    + assert (IZR (c * fs) < IZR (2 * rate * (k + 1) + 1)) as Q1.
      { rewrite (plus_IZR (2 * rate * (k + 1)) 1), (mult_IZR (2 * rate) (k + 1)), (mult_IZR 2 rate), (plus_IZR k 1). nra. }
      apply lt_IZR in Q1. lia.
Qed.
End Nums.
