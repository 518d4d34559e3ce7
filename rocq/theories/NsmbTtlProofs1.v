(** * Proofs about the background-template helpers: lengths *)
From Coq Require Import Reals ZArith List Bool Lia Lra Psatz.
From Flocq Require Import Core.
From Verif Require Import Base ListLemmas WindowModel WindowProofs FloatModel FloatBridge NsmbTtlModel.
Import ListNotations.
Local Open Scope R_scope.

(** In binary64, [np.arange(0,1,1/n)] has [n] or [n+1] entries. *)
Lemma arange01_two n : (1 <= n <= 2 ^ 51)%Z -> arange01_len n = Some n \/ arange01_len n = Some (n + 1)%Z.
Proof.
  intros [Hn Hm]. set (u := / IZR (2 ^ 53)).
  assert (Hu : 0 < u) by (apply Rinv_0_lt_compat, IZR_lt; lia).
  assert (Hu1 : u * 4 * IZR (2 ^ 51) = 1).
  { unfold u. change (2 ^ 53)%Z with (4 * 2 ^ 51)%Z. rewrite mult_IZR. field. apply IZR_neq; lia. }
  assert (N1 : 1 <= IZR n) by (apply IZR_le; lia).
  assert (N2 : IZR n <= IZR (2 ^ 51)) by (apply IZR_le; lia).
  assert (Big : IZR (2 ^ 60) <= bpow radix2 1023).
  { change (IZR (2 ^ 60)) with (IZR (Zpower radix2 60)). rewrite IZR_Zpower by lia. apply bpow_le. lia. }
  assert (Small : bpow radix2 (-1022) <= / IZR (2 ^ 60)).
  { change (IZR (2 ^ 60)) with (IZR (Zpower radix2 60)). rewrite IZR_Zpower, <- bpow_opp by lia. apply bpow_le. lia. }
  assert (L60 : IZR (2 ^ 51) * 512 = IZR (2 ^ 60)).
  { change (2 ^ 60)%Z with (2 ^ 51 * 512)%Z. now rewrite mult_IZR. }
  assert (P51 : 1 <= IZR (2 ^ 51)) by (apply IZR_le; lia).
  destruct (fl_correct 1 ltac:(lia)) as [F1 V1]. destruct (fl_correct n ltac:(lia)) as [Fn Vn].
  destruct (fdiv_correct (fl 1) (fl n) F1 Fn) as [Fa Va].
  { rewrite Vn. lra. }
  { rewrite V1, Vn. rewrite Rabs_pos_eq by (apply Rlt_le, Rdiv_lt_0_compat; lra).
    apply Rle_trans with 1; [|lra]. apply (Rmult_le_reg_r (IZR n)); [lra|]. unfold Rdiv.
    rewrite Rmult_assoc, Rinv_l; lra. }
  rewrite V1, Vn in Va.
  assert (S1 : / IZR (2 ^ 60) <= 1 / IZR n).
  { unfold Rdiv. rewrite Rmult_1_l. apply Rinv_le_contravar; lra. }
  destruct (rnd_rel (1 / IZR n)) as [d1 [D1 E1]].
  { rewrite Rabs_pos_eq; [lra|]. apply Rlt_le, Rdiv_lt_0_compat; lra. }
  fold u in D1. rewrite E1 in Va.
  assert (U1 : u <= / 4) by (apply (Rmult_le_reg_r (4 * IZR (2 ^ 51))); [lra|]; rewrite <- Rmult_assoc, Hu1; lra).
  apply Rabs_le_inv in D1.
  assert (A0 : 0 < fval (fdiv (fl 1) (fl n))).
  { rewrite Va. apply Rmult_lt_0_compat; [apply Rdiv_lt_0_compat|]; lra. }
  assert (Q : 1 / fval (fdiv (fl 1) (fl n)) = IZR n / (1 + d1)).
  { rewrite Va. field. lra. }
  assert (Q1 : 1 / 2 <= IZR n / (1 + d1) <= IZR n * 2).
  { split; apply (Rmult_le_reg_r (1 + d1)); try lra; unfold Rdiv; rewrite ?(Rmult_assoc (IZR n)), ?Rinv_l by lra; nra. }
  destruct (fdiv_correct (fl 1) (fdiv (fl 1) (fl n)) F1 Fa) as [Fb Vb].
  { lra. }
  { rewrite V1, Q. rewrite Rabs_pos_eq by lra. lra. }
  rewrite V1, Q in Vb.
  destruct (rnd_rel (IZR n / (1 + d1))) as [d2 [D2 E2]].
  { rewrite Rabs_pos_eq by lra. apply Rle_trans with (/ IZR (2 ^ 60)); [exact Small|].
    apply Rle_trans with (/ 2); [apply Rinv_le_contravar; lra|lra]. }
  fold u in D2. apply Rabs_le_inv in D2. rewrite E2 in Vb.
  assert (Nu : IZR n * u <= / 4).
  { apply Rle_trans with (IZR (2 ^ 51) * u); [apply Rmult_le_compat_r; lra|lra]. }
  assert (Eb : IZR n / (1 + d1) * (1 + d2) * (1 + d1) = IZR n * (1 + d2)) by (field; lra).
  set (b := fval (fdiv (fl 1) (fdiv (fl 1) (fl n)))) in *.
  assert (B1 : IZR n - 1 < b) by (rewrite Vb; apply (Rmult_lt_reg_r (1 + d1)); [lra|rewrite Eb; nra]).
  assert (B2 : b < IZR n + 1) by (rewrite Vb; apply (Rmult_lt_reg_r (1 + d1)); [lra|rewrite Eb; nra]).
  unfold arange01_len. rewrite fceil_val by exact Fb. fold b.
  assert (C1 : (n - 1 < Zceil b)%Z).
  { apply lt_IZR. rewrite minus_IZR. apply Rlt_le_trans with b; [exact B1|apply Zceil_ub]. }
  assert (C2 : (Zceil b <= n + 1)%Z).
  { apply Zceil_glb. rewrite plus_IZR. lra. }
  destruct (Z.eq_dec (Zceil b) n) as [->|]; [now left|right]. f_equal. lia.
Qed.

Lemma slope_column_spec n :
  (1 <= n <= 2 ^ 51)%Z ->
  (arange01_len n = Some n /\ slope_column n = Ok (map (fun t => INR t * (1 / IZR n)) (seq 0 (Z.to_nat n)))) \/
  (arange01_len n = Some (n + 1)%Z /\ slope_column n = Err ValueError).
Proof.
  intros H. unfold slope_column. replace (n =? 0)%Z with false by (symmetry; apply Z.eqb_neq; lia).
  destruct (arange01_two n H) as [->| ->]; [left|right]; (split; [reflexivity|]); unfold assign_column;
    rewrite map_length, seq_length.
  - now rewrite Nat.eqb_refl.
  - replace (Z.to_nat (n + 1) =? Z.to_nat n)%nat with false by (symmetry; apply Nat.eqb_neq; lia).
    replace (Z.to_nat (n + 1)) with (S (S (Z.to_nat (n - 1)))) by lia. reflexivity.
Qed.

Lemma assign_length n x y : assign_column n x = Ok y -> length y = n.
Proof.
  unfold assign_column. destruct (length x =? n)%nat eqn:E.
  - intros H. apply (f_equal (fun r => match r with Ok a => a | _ => x end)) in H. subst. now apply Nat.eqb_eq.
  - destruct x as [|v [|]]; intros H; inversion H. apply repeat_length.
Qed.

Lemma slope_length n y : slope_column n = Ok y -> length y = Z.to_nat n.
Proof.
  unfold slope_column. destruct (n =? 0)%Z; [discriminate|]. destruct (arange01_len n); [|discriminate].
  apply assign_length.
Qed.

Lemma slope_column_value n y : (1 <= n <= 2 ^ 51)%Z -> slope_column n = Ok y ->
  forall t, (t < Z.to_nat n)%nat -> nth t y 0 = INR t / IZR n.
Proof.
  intros Hn H t Ht. destruct (slope_column_spec n Hn) as [[_ E]|[_ E]]; rewrite E in H; [|discriminate].
  apply (f_equal (fun r => match r with Ok a => a | _ => nil end)) in H. cbv beta iota in H. subst y.
  rewrite (nth_indep _ 0 (INR 0 * (1 / IZR n))) by (rewrite map_length, seq_length; lia).
  rewrite (map_nth (fun t => INR t * (1 / IZR n))), seq_nth by lia. unfold Rdiv. rewrite Nat.add_0_l. ring.
Qed.

(** Powers of two are exact. *)
Definition pow2_ok : bool := forallb (fun k => match arange01_len (2 ^ Z.of_nat k) with
                                               | Some l => (l =? 2 ^ Z.of_nat k)%Z | None => false end) (seq 0 52).
Lemma arange01_pow2 k : (k <= 51)%nat -> arange01_len (2 ^ Z.of_nat k) = Some (2 ^ Z.of_nat k)%Z.
Proof.
  intros H. assert (T : pow2_ok = true) by (vm_compute; reflexivity).
  unfold pow2_ok in T. rewrite forallb_forall in T. specialize (T k ltac:(apply in_seq; lia)).
  destruct (arange01_len (2 ^ Z.of_nat k)) as [l|]; [|discriminate]. apply Z.eqb_eq in T. now subst.
Qed.

(** 49 and its products with powers of two are not. *)
Definition mul49_bad : bool := forallb (fun k => match arange01_len (49 * 2 ^ Z.of_nat k) with
                                               | Some l => (l =? 49 * 2 ^ Z.of_nat k + 1)%Z | None => false end) (seq 0 46).
Lemma arange01_49 k : (k <= 45)%nat -> arange01_len (49 * 2 ^ Z.of_nat k) = Some (49 * 2 ^ Z.of_nat k + 1)%Z.
Proof.
  intros H. assert (T : mul49_bad = true) by (vm_compute; reflexivity).
  unfold mul49_bad in T. rewrite forallb_forall in T. specialize (T k ltac:(apply in_seq; lia)).
  destruct (arange01_len (49 * 2 ^ Z.of_nat k)) as [l|]; [|discriminate]. apply Z.eqb_eq in T. now subst.
Qed.

(** Every length up to 48 fits. *)
Lemma arange01_small n : (1 <= n <= 48)%Z -> arange01_len n = Some n.
Proof.
  intros H. assert (T : forallb (fun k => match arange01_len (Z.of_nat k) with
      | Some l => (l =? Z.of_nat k)%Z | None => false end) (seq 1 48) = true) by (vm_compute; reflexivity).
  rewrite forallb_forall in T. specialize (T (Z.to_nat n) ltac:(apply in_seq; lia)).
  rewrite Z2Nat.id in T by lia. destruct (arange01_len n) as [l|]; [|discriminate]. apply Z.eqb_eq in T. now subst.
Qed.
