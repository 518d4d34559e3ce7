(** * Proofs about iterstat *)
From Verif Require Import Base ListLemmas UtilsModel CutModel CutSpec.
Local Open Scope R_scope.

(** ** sums over selections *)
Lemma ksum_ext n m f g : (forall i, (i < n)%nat -> keptb m i = true -> f i = g i) -> ksum n m f = ksum n m g.
Proof.
  intros H. unfold ksum. apply rsum_ext. intros k Hk. destruct (keptb m k) eqn:E; auto.
Qed.

Lemma ksum_plus n m f g : ksum n m (fun i => f i + g i) = ksum n m f + ksum n m g.
Proof. unfold ksum. rewrite <- rsum_plus. apply rsum_ext. intros k _. destruct (keptb m k); ring. Qed.

Lemma ksum_minus n m f g : ksum n m (fun i => f i - g i) = ksum n m f - ksum n m g.
Proof. unfold ksum. rewrite <- rsum_minus. apply rsum_ext. intros k _. destruct (keptb m k); ring. Qed.

Lemma ksum_scal n m c f : ksum n m (fun i => c * f i) = c * ksum n m f.
Proof. unfold ksum. rewrite <- rsum_scal_l. apply rsum_ext. intros k _. destruct (keptb m k); ring. Qed.

Lemma ksum_const n m c : ksum n m (fun _ => c) = knum n m * c.
Proof. unfold ksum, knum. rewrite <- rsum_scal_r. apply rsum_ext. intros k _. destruct (keptb m k); ring. Qed.

Lemma ksum_nonneg n m f : (forall i, (i < n)%nat -> keptb m i = true -> 0 <= f i) -> 0 <= ksum n m f.
Proof.
  intros H. unfold ksum. apply rsum_nonneg. intros k Hk. destruct (keptb m k) eqn:E; [auto|lra].
Qed.

Lemma ksum_S b m n f : ksum (S n) (b :: m) f = (if b then f 0%nat else 0) + ksum n m (fun i => f (S i)).
Proof. unfold ksum. rewrite rsum_S_first. reflexivity. Qed.

Lemma knum_S b m n : knum (S n) (b :: m) = (if b then 1 else 0) + knum n m.
Proof. unfold knum. rewrite rsum_S_first. reflexivity. Qed.

Lemma lsum_select {A} (f : A -> R) (d : A) (data : list A) : forall m, length m = length data ->
  lsum (map f (mask_select m data)) = ksum (length data) m (fun i => f (nth i data d)).
Proof.
  induction data as [|x data IH]; intros m H; destruct m as [|b m]; try discriminate; [reflexivity|].
  simpl in H. injection H as H. cbn [length]. rewrite ksum_S. cbn [nth].
  destruct b; simpl; rewrite IH by assumption; unfold ksum; [reflexivity|ring].
Qed.

Lemma length_select {A} (data : list A) : forall m, length m = length data ->
  INR (length (mask_select m data)) = knum (length data) m.
Proof.
  induction data as [|x data IH]; intros m H; destruct m as [|b m]; try discriminate; [reflexivity|].
  simpl in H. injection H as H. cbn [length]. rewrite knum_S, <- (IH m H).
  destruct b; cbn [mask_select length]; [rewrite S_INR; ring|ring].
Qed.

Lemma count_select {A} (data : list A) : forall m, length m = length data ->
  length (mask_select m data) = count_true m.
Proof.
  unfold count_true. induction data as [|x data IH]; intros m H; destruct m as [|b m]; try discriminate; [reflexivity|].
  simpl in H. injection H as H. destruct b; simpl; now rewrite IH.
Qed.

Lemma knum_count {A} (data : list A) m : length m = length data -> knum (length data) m = INR (count_true m).
Proof. intros H. rewrite <- (count_select data m H). symmetry. now apply length_select. Qed.

Lemma lsum_id l : lsum (map (fun x => x) l) = lsum l.
Proof. now rewrite map_id. Qed.

Lemma select_stats data m : length m = length data -> (0 < count_true m)%nat ->
  stats_of data m (lmean (mask_select m data)) (lstd (mask_select m data)).
Proof.
  intros Hl Hc. set (sel := mask_select m data). set (n := length data).
  assert (Hn : INR (length sel) = knum n m) by now apply length_select.
  assert (Hp : 0 < knum n m). { unfold n. rewrite knum_count by assumption. now apply lt_0_INR. }
  unfold stats_of. fold n. split; [assumption|]. split; [assumption|]. repeat split.
  - unfold lmean. rewrite Hn, <- (lsum_id sel). unfold sel. rewrite (lsum_select _ 0) by assumption.
    fold n. field. lra.
  - apply sqrt_pos.
  - unfold lstd. rewrite <- Rsqr_pow2, Rsqr_sqrt.
    + unfold lvar. rewrite Hn. unfold sel. rewrite (lsum_select (fun v => (v - lmean (mask_select m data)) * (v - lmean (mask_select m data))) 0) by assumption. fold n.
      rewrite Rmult_comm. unfold Rdiv. rewrite Rmult_assoc, Rinv_l, Rmult_1_r by lra.
      apply ksum_ext. intros; ring.
    + unfold lvar. apply Rmult_le_pos.
      * unfold sel. rewrite (lsum_select (fun v => (v - lmean (mask_select m data)) * (v - lmean (mask_select m data))) 0) by assumption. apply ksum_nonneg. intros; apply sqr_nonneg.
      * rewrite Hn. left. now apply Rinv_0_lt_compat.
Qed.

Lemma all_true_count {A} (data : list A) : count_true (map (fun _ => true) data) = length data.
Proof. unfold count_true. induction data; simpl; auto. Qed.

Lemma all_true_select {A} (data : list A) : mask_select (map (fun _ => true) data) data = data.
Proof. induction data; simpl; congruence. Qed.

Lemma all_stats data : data <> [] -> stats_of data (map (fun _ => true) data) (lmean data) (lstd data).
Proof.
  intros H. assert (S := select_stats data (map (fun _ => true) data) (map_length _ _)).
  rewrite all_true_select in S. apply S. rewrite all_true_count. destruct data; [congruence|simpl; lia].
Qed.

Lemma is_mask_length data cut m s : length (is_mask data cut m s) = length data.
Proof. apply map_length. Qed.

Lemma is_mask_kept data cut m s i :
  kept (is_mask data cut m s) i <-> (i < length data)%nat /\ Rabs (nth i data 0 - m) < cut * s.
Proof.
  unfold kept, is_mask. rewrite nth_error_map. destruct (nth_error data i) as [x|] eqn:E; simpl.
  - assert (Hi := nth_error_Some_lt _ _ _ E). rewrite (nth_error_nth_eq _ _ 0 Hi) in E. injection E as ->.
    destruct (Rltb_spec (Rabs (x - m)) (cut * s)); split; try tauto; congruence.
  - apply nth_error_None in E. split; [discriminate|]. intros [H _]. lia.
Qed.

Lemma keptb_kept m i : keptb m i = true <-> kept m i.
Proof.
  unfold keptb, kept. destruct (nth_error m i) as [b|] eqn:E.
  - rewrite (nth_error_nth _ _ false E). split; congruence.
  - rewrite nth_overflow by (now apply nth_error_None). split; congruence.
Qed.

(** ** consistency of the result *)
Lemma loop_result fuel data cut cutoff : data <> [] ->
  forall ml sl ns fb m s mask pmask, stats_of data pmask ml sl ->
  iterstat_loop fuel data cut cutoff ml sl ns = Some (fb, m, s, mask) ->
  stats_of data mask m s /\
  (if fb then mask = map (fun _ => true) data /\ m = lmean data /\ s = lstd data
   else exists pmask pm ps, stats_of data pmask pm ps /\
          (forall i, kept mask i <-> (i < length data)%nat /\ Rabs (nth i data 0 - pm) < cut * ps) /\
          Rabs (m - pm) <= cutoff /\ Rabs (s - ps) <= cutoff /\ (1 < count_true mask)%nat).
Proof.
  intros Hd. induction fuel as [|fuel IH]; intros ml sl ns fb m s mask pmask Hp E; [discriminate|].
  cbn [iterstat_loop] in E. set (mk' := is_mask data cut ml sl) in *.
  destruct (Nat.leb_spec (count_true mk') 1) as [Hc|Hc].
  - injection E as <- <- <- <-. split; [now apply all_stats|]. auto.
  - assert (Hst : stats_of data mk' (lmean (mask_select mk' data)) (lstd (mask_select mk' data)))
      by (apply select_stats; [apply is_mask_length|lia]).
    destruct (Rltb_spec cutoff (Rabs (lmean (mask_select mk' data) - ml))) as [H1|H1]; cbn [orb] in E;
      [exact (IH _ _ _ _ _ _ _ _ Hst E)|].
    destruct (Rltb_spec cutoff (Rabs (lstd (mask_select mk' data) - sl))) as [H2|H2];
      [exact (IH _ _ _ _ _ _ _ _ Hst E)|].
    destruct (Nat.leb_spec 3 (S ns)) as [H3|H3]; [|exact (IH _ _ _ _ _ _ _ _ Hst E)].
    injection E as <- <- <- <-. split; [assumption|].
    exists pmask, ml, sl. split; [assumption|]. split; [intros i; apply is_mask_kept|].
    repeat split; try lra. assumption.
Qed.

Lemma loop_fuel fuel fuel' data cut cutoff ml sl ns r r' :
  iterstat_loop fuel data cut cutoff ml sl ns = Some r ->
  iterstat_loop fuel' data cut cutoff ml sl ns = Some r' -> r = r'.
Proof.
  revert fuel' ml sl ns. induction fuel as [|fuel IH]; intros fuel' ml sl ns E E'; [discriminate|].
  destruct fuel' as [|fuel']; [discriminate|]. cbn [iterstat_loop] in E, E'.
  destruct (count_true (is_mask data cut ml sl) <=? 1)%nat; [congruence|].
  match type of E with (if (3 <=? ?ns)%nat then _ else _) = _ => destruct (3 <=? ns)%nat end; [congruence|].
  eapply IH; eauto.
Qed.

(** ** termination *)

(** For a set with mean [mu] the second moment about any point. *)
Lemma stats_shift data m mu sd c : stats_of data m mu sd ->
  ksum (length data) m (fun i => (nth i data 0 - c) ^ 2) = knum (length data) m * (sd ^ 2 + (mu - c) ^ 2).
Proof.
  intros [_ [_ [Hm [_ Hs]]]]. cbv zeta in *.
  rewrite (ksum_ext _ _ _ (fun i => (nth i data 0 - mu) ^ 2 + (2 * (mu - c) * (nth i data 0 - mu) + (mu - c) ^ 2)))
    by (intros; ring).
  rewrite !ksum_plus, ksum_scal, ksum_minus, !ksum_const. rewrite <- Hm, <- Hs. ring.
Qed.

(** The mask of a round minimises the sum of [(x - mu)^2 - (cut * sd)^2]. *)
Lemma mask_optimal data cut mu sd m : 0 <= cut * sd -> length m = length data ->
  let f := fun i => (nth i data 0 - mu) ^ 2 - (cut * sd) ^ 2 in
  ksum (length data) (is_mask data cut mu sd) f <= ksum (length data) m f.
Proof.
  intros Hc Hl f. unfold ksum. apply rsum_le. intros k Hk.
  assert (Hb : keptb (is_mask data cut mu sd) k = true <-> Rabs (nth k data 0 - mu) < cut * sd).
  { rewrite keptb_kept, is_mask_kept. tauto. }
  assert (Hsq : Rabs (nth k data 0 - mu) ^ 2 = (nth k data 0 - mu) ^ 2) by (rewrite pow2_abs; reflexivity).
  assert (Hpos := Rabs_pos (nth k data 0 - mu)).
  destruct (keptb (is_mask data cut mu sd) k).
  - assert (Rabs (nth k data 0 - mu) < cut * sd) by tauto.
    assert (f k < 0) by (unfold f; nra). destruct (keptb m k); lra.
  - assert (~ Rabs (nth k data 0 - mu) < cut * sd) by (intros H; apply Hb in H; discriminate).
    assert (0 <= f k) by (unfold f; nra). destruct (keptb m k); lra.
Qed.

(** The potential: grows in every round that changes the statistics. *)
Definition potential (data : list R) (cut : R) (m : list bool) : R :=
  let s := lstd (mask_select m data) in
  if Rltb 1 cut then knum (length data) m * exp (- (1 / (cut ^ 2 - 1)) * ln (s ^ 2)) else - (s ^ 2).

Lemma ln_le_sub u : 0 < u -> ln u <= u - 1.
Proof.
  intros H. destruct (Req_dec u 1) as [->|Hne]; [rewrite ln_1; lra|].
  assert (Hx : 1 + ln u <= exp (ln u)).
  { destruct (Req_dec (ln u) 0) as [->|Hn]; [rewrite exp_0; lra|]. left. now apply exp_ineq1. }
  rewrite exp_ln in Hx by assumption. lra.
Qed.

Lemma ln_lt_sub u : 0 < u -> u <> 1 -> ln u < u - 1.
Proof.
  intros H Hne.
  assert (Hn : ln u <> 0). { intros E. apply Hne. rewrite <- (exp_ln u H), E. apply exp_0. }
  assert (Hx := exp_ineq1 (ln u) Hn). rewrite exp_ln in Hx by assumption. lra.
Qed.

Lemma exp_ge_1p y : 1 + y <= exp y.
Proof. destruct (Req_dec y 0) as [->|Hn]; [rewrite exp_0; lra|]. left. now apply exp_ineq1. Qed.

Lemma potential_step data cut m mu sd m' mu' sd' :
  0 < cut -> stats_of data m mu sd -> 0 < sd ->
  mu = lmean (mask_select m data) -> sd = lstd (mask_select m data) ->
  m' = is_mask data cut mu sd -> stats_of data m' mu' sd' -> 0 < sd' ->
  mu' = lmean (mask_select m' data) -> sd' = lstd (mask_select m' data) ->
  potential data cut m < potential data cut m' \/ (mu' = mu /\ sd' = sd).
Proof.
  intros Hcut Hst Hsd Emu Esd Em' Hst' Hsd' Emu' Esd'.
  assert (Hopt := mask_optimal data cut mu sd m ltac:(nra) (proj1 Hst)). cbv zeta in Hopt. rewrite <- Em' in Hopt.
  rewrite !ksum_minus, !ksum_const in Hopt. rewrite (stats_shift _ _ _ _ mu Hst), (stats_shift _ _ _ _ mu Hst') in Hopt.
  set (N := knum (length data) m) in *. set (N' := knum (length data) m') in *.
  assert (HN : 0 < N) by apply Hst. assert (HN' : 0 < N') by apply Hst'.
  assert (Hb : N' * (sd' ^ 2 + (mu' - mu) ^ 2) < N' * (cut * sd) ^ 2).
  { unfold N'. rewrite <- (stats_shift _ _ _ _ mu Hst'). rewrite <- ksum_const.
    apply Rminus_gt_0_lt. rewrite <- ksum_minus. apply Rlt_gt.
    assert (Hpos : forall k, (k < length data)%nat ->
      0 <= (if keptb m' k then (cut * sd) ^ 2 - (nth k data 0 - mu) ^ 2 else 0)).
    { intros k Hk. destruct (keptb m' k) eqn:E; [|lra]. apply keptb_kept in E. rewrite Em' in E.
      apply is_mask_kept in E. destruct E as [_ E].
      assert (Hpos := Rabs_pos (nth k data 0 - mu)). rewrite <- (pow2_abs (nth k data 0 - mu)). nra. }
    destruct (Rle_lt_or_eq_dec _ _ (rsum_nonneg _ _ Hpos)) as [H|H]; [exact H|exfalso].
    assert (Hz := rsum_nonneg_zero _ _ Hpos (eq_sym H)).
    assert (N' = 0); [|lra]. unfold N', knum.
    transitivity (rsum (length data) (fun _ => 0)); [|apply rsum_zero]. apply rsum_ext. intros k Hk.
    specialize (Hz k Hk). cbv beta in Hz. destruct (keptb m' k) eqn:E; [|reflexivity].
    exfalso. apply keptb_kept in E. rewrite Em' in E. apply is_mask_kept in E. destruct E as [_ E].
    assert (Hpos' := Rabs_pos (nth k data 0 - mu)). rewrite <- (pow2_abs (nth k data 0 - mu)) in Hz. nra. }
  unfold potential. rewrite <- Esd, <- Esd'. fold N N'. destruct (Rltb_spec 1 cut) as [Hc|Hc].
  - set (q := 1 / (cut ^ 2 - 1)). assert (Hq0 : 0 < cut ^ 2 - 1) by nra.
    assert (Hq : 0 < q) by (unfold q; apply Rdiv_lt_0_compat; lra).
    set (v := sd ^ 2) in *. set (v' := sd' ^ 2) in *. assert (Hv : 0 < v) by (apply pow_lt; assumption).
    assert (Hv' : 0 < v') by (apply pow_lt; assumption). set (d := (mu' - mu) ^ 2) in *. assert (Hd : 0 <= d) by apply pow2_ge_0.
    set (u := v' / v). assert (Hu : 0 < u) by (apply Rdiv_lt_0_compat; lra).
    assert (Eu : v' = u * v) by (unfold u; field; lra).
    assert (Hln : ln v' = ln u + ln v) by (rewrite Eu, ln_mult by lra; reflexivity).
    (* N' (1 + q (1 - u) - q d / v) >= N *)
    assert (Hmain : N <= N' * (1 + q * (1 - u) - q * (d / v))).
    { assert (N * (v * (cut ^ 2 - 1)) <= N' * (cut ^ 2 * v - v' - d)).
      { assert (Ec : (cut * sd) ^ 2 = cut ^ 2 * v) by (unfold v; ring). rewrite Ec in Hopt.
        assert (Ez : (mu - mu) ^ 2 = 0) by ring. rewrite Ez in Hopt. nra. }
      assert (E : N' * (1 + q * (1 - u) - q * (d / v)) = N' * (cut ^ 2 * v - v' - d) * (q / v)).
      { rewrite Eu. unfold q. field. split; lra. }
      rewrite E. assert (E2 : N = N * (v * (cut ^ 2 - 1)) * (q / v)) by (unfold q; field; split; lra).
      rewrite E2. apply Rmult_le_compat_r; [|assumption]. left. apply Rdiv_lt_0_compat; lra. }
    assert (Hexp : forall z, exp (- q * ln v') = exp (- q * ln u) * exp (- q * ln v) + (z - z)).
    { intros z. rewrite <- exp_plus. rewrite Hln. replace (- q * (ln u + ln v)) with (- q * ln u + - q * ln v) by ring. ring. }
    rewrite (Hexp 0). replace (0 - 0) with 0 by ring. rewrite Rplus_0_r.
    set (E0 := exp (- q * ln v)). assert (HE0 : 0 < E0) by apply exp_pos.
    assert (He := exp_ge_1p (- q * ln u)).
    destruct (Req_dec u 1) as [Hu1|Hu1]; [destruct (Req_dec d 0) as [Hd0|Hd0]|].
    + right. assert (Hm : mu' - mu = 0) by (unfold d in Hd0; rewrite <- Rsqr_pow2 in Hd0; now apply Rsqr_0_uniq). split; [lra|].
      rewrite Hu1 in Eu. unfold v, v' in Eu. apply Rsqr_inj; unfold Rsqr; lra.
    + left. assert (Hdv : 0 < d / v) by (apply Rdiv_lt_0_compat; lra).
      rewrite Hu1, ln_1 in *. replace (- q * 0) with 0 in * by ring. rewrite exp_0 in *.
      assert (Hx : 0 < N' * (q * (d / v))) by (apply Rmult_lt_0_compat; [|apply Rmult_lt_0_compat]; assumption).
      assert (N < N') by (clear -Hmain Hx; lra). rewrite Rmult_1_l. now apply Rmult_lt_compat_r.
    + left. assert (Hl := ln_lt_sub u Hu Hu1).
      assert (Hdv : 0 <= d / v) by (apply Rmult_le_pos; [lra|left; now apply Rinv_0_lt_compat]).
      assert (N < N' * exp (- q * ln u)).
      { eapply Rle_lt_trans; [exact Hmain|]. apply Rmult_lt_compat_l; [assumption|].
        eapply Rlt_le_trans; [|exact He].
        assert (Hy : 0 <= q * (d / v)) by (apply Rmult_le_pos; lra).
        assert (Hz : 0 < q * (u - 1 - ln u)) by (apply Rmult_lt_0_compat; lra).
        clear -Hy Hz. lra. }
      rewrite <- Rmult_assoc. now apply Rmult_lt_compat_r.
  - left. assert (Hlt : sd' ^ 2 + (mu' - mu) ^ 2 < (cut * sd) ^ 2) by (apply Rmult_lt_reg_l with N'; assumption).
    assert (Hle : (cut * sd) ^ 2 <= sd ^ 2) by (apply pow_incr; clear -Hcut Hc Hsd; nra).
    assert (Hp := pow2_ge_0 (mu' - mu)). lra.
Qed.

(** All masks of a length. *)
Fixpoint all_masks (n : nat) : list (list bool) :=
  match n with
  | O => [[]]
  | S n => map (cons true) (all_masks n) ++ map (cons false) (all_masks n)
  end.

Lemma all_masks_in n : forall m, length m = n -> In m (all_masks n).
Proof.
  induction n as [|n IH]; intros m H; destruct m as [|b m]; try discriminate; simpl; [now left|].
  apply in_or_app. injection H as H. destruct b; [left|right]; apply in_map; auto.
Qed.

Lemma all_masks_length n : length (all_masks n) = (2 ^ n)%nat.
Proof. induction n as [|n IH]; simpl; [reflexivity|]. rewrite app_length, !map_length, IH. lia. Qed.

Definition rank (data : list R) (cut : R) (m : list bool) : nat :=
  length (filter (fun m' => Rltb (potential data cut m) (potential data cut m')) (all_masks (length data))).

Lemma filter_le {A} (f g : A -> bool) l : (forall x, In x l -> f x = true -> g x = true) ->
  (length (filter f l) <= length (filter g l))%nat.
Proof.
  induction l as [|a l IH]; intros H; simpl; [lia|].
  assert (IH' := IH (fun x Hx => H x (or_intror Hx))). assert (Ha := H a (or_introl eq_refl)).
  destruct (f a); [rewrite Ha by reflexivity; simpl; lia|]. destruct (g a); simpl; lia.
Qed.

Lemma filter_lt {A} (f g : A -> bool) l x : (forall x, In x l -> f x = true -> g x = true) ->
  In x l -> f x = false -> g x = true -> (length (filter f l) < length (filter g l))%nat.
Proof.
  induction l as [|a l IH]; intros H Hx Hf Hg; [destruct Hx|]. simpl.
  assert (H' := fun x Hx => H x (or_intror Hx)). assert (Ha := H a (or_introl eq_refl)).
  destruct Hx as [->|Hx].
  - rewrite Hf, Hg. simpl. assert (L := filter_le f g l H'). lia.
  - assert (L := IH H' Hx Hf Hg). destruct (f a); [rewrite Ha by reflexivity; simpl; lia|]. destruct (g a); simpl; lia.
Qed.

Lemma rank_lt data cut m m' : length m' = length data ->
  potential data cut m < potential data cut m' -> (rank data cut m' < rank data cut m)%nat.
Proof.
  intros Hl Hp. apply (filter_lt _ _ _ m').
  - intros x _ Hx. destruct (Rltb_spec (potential data cut m') (potential data cut x)); [|discriminate].
    apply Rltb_true. lra.
  - now apply all_masks_in.
  - apply Rltb_false. lra.
  - now apply Rltb_true.
Qed.

Lemma rank_bound data cut m : (rank data cut m <= 2 ^ length data)%nat.
Proof.
  unfold rank. rewrite <- all_masks_length.
  induction (all_masks (length data)) as [|a l IH]; simpl; [lia|].
  match goal with |- context [if ?b then _ else _] => destruct b end; simpl; lia.
Qed.

Lemma stationary fuel data cut cutoff ml sl ns : 0 <= cutoff ->
  lmean (mask_select (is_mask data cut ml sl) data) = ml ->
  lstd (mask_select (is_mask data cut ml sl) data) = sl ->
  (3 <= fuel + ns)%nat -> (1 <= fuel)%nat ->
  iterstat_loop fuel data cut cutoff ml sl ns <> None.
Proof.
  intros Hc E1 E2. revert ns. induction fuel as [|fuel IH]; intros ns Hf H1; [lia|].
  cbn [iterstat_loop]. destruct (count_true (is_mask data cut ml sl) <=? 1)%nat; [congruence|].
  rewrite E1, E2. replace (ml - ml) with 0 by ring. replace (sl - sl) with 0 by ring. rewrite Rabs_R0.
  rewrite Rltb_false by lra. cbn [orb]. destruct (Nat.leb_spec 3 (S ns)) as [H|H]; [congruence|].
  apply IH; lia.
Qed.

Lemma flat_stops fuel data cut cutoff ml ns : (1 <= fuel)%nat ->
  iterstat_loop fuel data cut cutoff ml 0 ns <> None.
Proof.
  intros Hf. destruct fuel as [|fuel]; [lia|]. cbn [iterstat_loop].
  assert (E : count_true (is_mask data cut ml 0) = 0%nat).
  { unfold count_true, is_mask. induction data as [|x data IH]; simpl; [reflexivity|].
    rewrite Rltb_false by (rewrite Rmult_0_r; apply Rabs_pos). exact IH. }
  rewrite E. simpl. congruence.
Qed.

Lemma loop_terminates data cut cutoff : 0 < cut -> 0 <= cutoff ->
  forall r m fuel ns, (rank data cut m <= r)%nat -> length m = length data -> (0 < count_true m)%nat ->
  (r + 5 <= fuel)%nat ->
  iterstat_loop fuel data cut cutoff (lmean (mask_select m data)) (lstd (mask_select m data)) ns <> None.
Proof.
  intros Hcut Hc. induction r as [r IH] using lt_wf_ind. intros m fuel ns Hr Hl Hn Hf.
  assert (Hst := select_stats data m Hl Hn).
  set (mu := lmean (mask_select m data)) in *. set (sd := lstd (mask_select m data)) in *.
  destruct (Req_dec sd 0) as [->|Hsd0]; [apply flat_stops; lia|].
  assert (Hsd : 0 < sd) by (assert (0 <= sd) by apply sqrt_pos; lra).
  destruct fuel as [|fuel]; [lia|]. cbn [iterstat_loop]. set (m' := is_mask data cut mu sd).
  destruct (Nat.leb_spec (count_true m') 1) as [H1|H1]; [congruence|].
  assert (Hl' : length m' = length data) by apply is_mask_length.
  assert (Hst' := select_stats data m' Hl' ltac:(lia)).
  set (mu' := lmean (mask_select m' data)) in *. set (sd' := lstd (mask_select m' data)) in *.
  match goal with |- (if (3 <=? ?x)%nat then _ else _) <> None => set (ns' := x) end.
  destruct (3 <=? ns')%nat; [congruence|].
  destruct (Req_dec sd' 0) as [E|Hsd0']; [rewrite E; apply flat_stops; lia|].
  assert (Hsd' : 0 < sd') by (assert (0 <= sd') by apply sqrt_pos; lra).
  destruct (potential_step data cut m mu sd m' mu' sd' Hcut Hst Hsd eq_refl eq_refl eq_refl Hst' Hsd' eq_refl eq_refl)
    as [Hp|[Hmu Hs]].
  - apply (IH (rank data cut m')); try assumption; try lia.
    + assert (L := rank_lt data cut m m' Hl' Hp). lia.
    + assert (L := rank_lt data cut m m' Hl' Hp). lia.
  - rewrite Hmu, Hs. apply stationary; try assumption; lia.
Qed.

Lemma loop_no_cut data cut cutoff ml sl fuel ns : cut <= 0 -> 0 <= sl -> (1 <= fuel)%nat ->
  iterstat_loop fuel data cut cutoff ml sl ns <> None.
Proof.
  intros Hcut Hs Hf. destruct fuel as [|fuel]; [lia|]. cbn [iterstat_loop].
  assert (E : count_true (is_mask data cut ml sl) = 0%nat).
  { unfold count_true, is_mask. induction data as [|x data IH]; simpl; [reflexivity|].
    rewrite Rltb_false; [exact IH|]. assert (Hp := Rabs_pos (x - ml)). nra. }
  rewrite E. simpl. congruence.
Qed.

Lemma lstd_nonneg l : 0 <= lstd l.
Proof. apply sqrt_pos. Qed.

(** ** iterstat *)
Lemma iterstat_terminates fsolve data cut precision unb fuel : 0 < precision ->
  (2 ^ length data + 5 <= fuel)%nat ->
  exists r, iterstat fuel fsolve data cut precision unb = Some r.
Proof.
  intros Hp Hf. unfold iterstat. destruct data as [|x data]; [eauto|].
  set (l := x :: data) in *. assert (Hl : l <> []) by (unfold l; congruence).
  assert (Hloop : iterstat_loop fuel l cut (lstd l / precision) (lmean l) (lstd l) 0 <> None).
  { destruct (Rle_lt_dec cut 0) as [Hc|Hc]; [apply loop_no_cut; [assumption|apply lstd_nonneg|lia]|].
    rewrite <- (all_true_select l) at 3 4.
    apply (loop_terminates l cut (lstd l / precision) Hc) with (r := rank l cut (map (fun _ => true) l)).
    - apply Rmult_le_pos; [apply lstd_nonneg|]. left. now apply Rinv_0_lt_compat.
    - lia.
    - apply map_length.
    - rewrite all_true_count. unfold l. simpl. lia.
    - assert (B := rank_bound l cut (map (fun _ => true) l)). lia. }
  destruct (iterstat_loop fuel l cut (lstd l / precision) (lmean l) (lstd l) 0) as [[[[fb m] s] mask]|]; [|congruence].
  destruct fb, unb; eauto.
Qed.

Lemma iterstat_stats fuel fsolve data cut precision m s mask :
  iterstat fuel fsolve data cut precision false = Some (Some (m, s), mask) -> stats_of data mask m s.
Proof.
  unfold iterstat. destruct data as [|x data]; [discriminate|]. set (l := x :: data) in *.
  assert (Hl : l <> []) by (unfold l; congruence).
  destruct (iterstat_loop fuel l cut (lstd l / precision) (lmean l) (lstd l) 0) as [[[[fb m'] s'] mask']|] eqn:E; [|discriminate].
  destruct (loop_result fuel l cut _ Hl _ _ _ _ _ _ _ _ (all_stats l Hl) E) as [H _].
  destruct fb; intros E'; injection E' as <- <- <-; assumption.
Qed.

Lemma iterstat_selection fuel fsolve data cut precision m s mask :
  iterstat fuel fsolve data cut precision false = Some (Some (m, s), mask) ->
  (forall i, kept mask i <-> (i < length data)%nat) \/
  exists pmask pm ps, stats_of data pmask pm ps /\
    (forall i, kept mask i <-> (i < length data)%nat /\ Rabs (nth i data 0 - pm) < cut * ps) /\
    exists sd, stats_of data (map (fun _ => true) data) (lmean data) sd /\
      Rabs (m - pm) <= sd / precision /\ Rabs (s - ps) <= sd / precision.
Proof.
  unfold iterstat. destruct data as [|x data]; [discriminate|]. set (l := x :: data) in *.
  assert (Hl : l <> []) by (unfold l; congruence).
  destruct (iterstat_loop fuel l cut (lstd l / precision) (lmean l) (lstd l) 0) as [[[[fb m'] s'] mask']|] eqn:E; [|discriminate].
  destruct (loop_result fuel l cut _ Hl _ _ _ _ _ _ _ _ (all_stats l Hl) E) as [_ H].
  destruct fb; intros E'; injection E' as <- <- <-.
  - left. destruct H as [-> _]. intros i. unfold kept. rewrite nth_error_map_const.
    destruct (Nat.ltb_spec i (length l)); split; try congruence; lia.
  - right. destruct H as [pmask [pm [ps [H1 [H2 [H3 [H4 _]]]]]]]. exists pmask, pm, ps.
    split; [assumption|]. split; [assumption|]. exists (lstd l). split; [now apply all_stats|]. split; assumption.
Qed.

Lemma iterstat_mask_flag fuel fsolve fsolve' data cut precision r r' mask mask' unb unb' :
  iterstat fuel fsolve data cut precision unb = Some (r, mask) ->
  iterstat fuel fsolve' data cut precision unb' = Some (r', mask') -> mask = mask'.
Proof.
  unfold iterstat. destruct data as [|x data]; [congruence|]. set (l := x :: data) in *.
  destruct (iterstat_loop fuel l cut (lstd l / precision) (lmean l) (lstd l) 0) as [[[[fb m'] s'] mm]|]; [|discriminate].
  destruct fb, unb, unb'; congruence.
Qed.

Lemma iterstat_unbiased fuel fsolve data cut precision m s mask :
  iterstat fuel fsolve data cut precision true = Some (Some (m, s), mask) ->
  stats_of data mask m s \/
  exists bm bs, iterstat fuel fsolve data cut precision false = Some (Some (bm, bs), mask) /\
    exists xs, (m, s) = fsolve xs (bm - cut * bs) (bm + cut * bs) (lmean xs, lstd xs) /\
      forall v, In v xs <-> (exists i, kept mask i /\ nth_error data i = Some v) /\ bm - cut * bs <= v <= bm + cut * bs.
Proof.
  unfold iterstat. destruct data as [|x data]; [discriminate|]. set (l := x :: data) in *.
  assert (Hl : l <> []) by (unfold l; congruence).
  destruct (iterstat_loop fuel l cut (lstd l / precision) (lmean l) (lstd l) 0) as [[[[fb m'] s'] mask']|] eqn:E; [|discriminate].
  destruct (loop_result fuel l cut _ Hl _ _ _ _ _ _ _ _ (all_stats l Hl) E) as [Hst H].
  destruct fb; intros E'; injection E' as E1 <-.
  - left. subst. assumption.
  - right. exists m', s'. split; [reflexivity|].
    exists (filter (fun v => (Rleb (m' - cut * s') v && Rleb v (m' + cut * s'))%bool) (mask_select mask' l)).
    split; [symmetry; exact E1|]. intros v. rewrite filter_In.
    assert (Hin : In v (mask_select mask' l) <-> exists i, kept mask' i /\ nth_error l i = Some v).
    { assert (Hlen : length mask' = length l) by apply Hst. clear -Hlen. revert mask' Hlen.
      induction l as [|a l IH]; intros mask Hlen; destruct mask as [|b mask]; try discriminate.
      - simpl. split; [tauto|]. intros [i [_ Hi]]. destruct i; discriminate.
      - simpl in Hlen. injection Hlen as Hlen. specialize (IH mask Hlen).
        destruct b; cbn [mask_select In].
        + split.
          * intros [->|H]; [exists 0%nat; split; reflexivity|]. apply IH in H. destruct H as [i H]. exists (S i). exact H.
          * intros [[|i] [Hk Hi]]; [left; simpl in Hi; congruence|]. right. apply IH. exists i. split; assumption.
        + rewrite IH. split.
          * intros [i H]. exists (S i). exact H.
          * intros [[|i] [Hk Hi]]; [discriminate|]. exists i. split; assumption. }
    rewrite Hin. split.
    + intros [H1 H2]. apply andb_prop in H2. destruct H2 as [H2 H3].
      destruct (Rleb_spec (m' - cut * s') v); [|discriminate]. destruct (Rleb_spec v (m' + cut * s')); [|discriminate]. auto.
    + intros [H1 H2]. split; [assumption|]. rewrite !Rleb_true by lra. reflexivity.
Qed.

Lemma iterstat_fuel_irrelevant fuel fuel' fsolve data cut precision unb r r' :
  iterstat fuel fsolve data cut precision unb = Some r ->
  iterstat fuel' fsolve data cut precision unb = Some r' -> r = r'.
Proof.
  unfold iterstat. destruct data as [|x data]; [congruence|]. set (l := x :: data) in *.
  destruct (iterstat_loop fuel l cut (lstd l / precision) (lmean l) (lstd l) 0) as [a|] eqn:E; [|discriminate].
  destruct (iterstat_loop fuel' l cut (lstd l / precision) (lmean l) (lstd l) 0) as [b|] eqn:E'; [|discriminate].
  assert (a = b) by (eapply loop_fuel; eauto). subst b. intros H H'. rewrite H in H'. now injection H'.
Qed.

Lemma lstd_constant c n : lstd (repeat c (S n)) = 0.
Proof.
  assert (Hs : forall k, lsum (repeat c k) = INR k * c).
  { induction k as [|k IHk]; [simpl; ring|]. change (repeat c (S k)) with (c :: repeat c k).
    simpl lsum. rewrite IHk, S_INR. ring. }
  assert (Hm : lmean (repeat c (S n)) = c).
  { unfold lmean. rewrite repeat_length, Hs. field. apply not_0_INR. lia. }
  unfold lstd, lvar. rewrite Hm.
  assert (E : forall k, lsum (map (fun v => (v - c) * (v - c)) (repeat c k)) = 0).
  { induction k as [|k IHk]; simpl; [reflexivity|]. rewrite IHk. ring. }
  rewrite E. unfold Rdiv. rewrite Rmult_0_l. apply sqrt_0.
Qed.

Lemma lmean_constant c n : lmean (repeat c (S n)) = c.
Proof.
  assert (Hs : forall k, lsum (repeat c k) = INR k * c).
  { induction k as [|k IHk]; [simpl; ring|]. change (repeat c (S k)) with (c :: repeat c k).
    simpl lsum. rewrite IHk, S_INR. ring. }
  unfold lmean. rewrite repeat_length, Hs. field. apply not_0_INR. lia.
Qed.

Lemma iterstat_constant fuel fsolve c n cut precision unb : (1 <= fuel)%nat ->
  iterstat fuel fsolve (repeat c (S n)) cut precision unb = Some (Some (c, 0), repeat true (S n)).
Proof.
  intros Hf. unfold iterstat. change (repeat c (S n)) with (c :: repeat c n) at 1. cbv iota.
  rewrite lstd_constant. destruct fuel as [|fuel]; [lia|]. cbn [iterstat_loop].
  assert (E : count_true (is_mask (repeat c (S n)) cut (lmean (repeat c (S n))) 0) = 0%nat).
  { unfold count_true, is_mask. induction (repeat c (S n)) as [|x data IH]; simpl; [reflexivity|].
    rewrite Rltb_false by (rewrite Rmult_0_r; apply Rabs_pos).
    assert (G : forall m l, length (filter (fun b => b) (map (fun x => Rltb (Rabs (x - m)) (cut * 0)) l)) = 0%nat).
    { intros m l. induction l as [|y l IHl]; simpl; [reflexivity|].
      rewrite Rltb_false by (rewrite Rmult_0_r; apply Rabs_pos). exact IHl. }
    apply G. }
  rewrite E. cbn [Nat.leb]. rewrite lstd_constant, lmean_constant. repeat f_equal.
  generalize (S n) as k. induction k as [|k IHk]; simpl; congruence.
Qed.

(** With a negative precision the loop does not end. *)
Lemma negative_precision fsolve fuel unb :
  iterstat fuel fsolve [0; 1] 3 (-1) unb = None.
Proof.
  unfold iterstat.
  assert (Hm : lmean [0; 1] = 1 / 2) by (unfold lmean, lsum; simpl; lra).
  assert (Hs : lstd [0; 1] = 1 / 2).
  { unfold lstd, lvar. rewrite Hm. replace (lsum _ / _) with ((1/2) * (1/2)) by (unfold lsum; simpl; lra).
    apply sqrt_square. lra. }
  rewrite Hm, Hs.
  assert (L : forall fuel ns, iterstat_loop fuel [0; 1] 3 (1 / 2 / -1) (1 / 2) (1 / 2) ns = None).
  { clear fuel. induction fuel as [|fuel IH]; intros ns; [reflexivity|]. cbn [iterstat_loop].
    assert (Em : is_mask [0; 1] 3 (1 / 2) (1 / 2) = [true; true]).
    { unfold is_mask. cbn [map]. rewrite !Rltb_true by (apply Rabs_def1; lra). reflexivity. }
    rewrite Em. cbn [count_true filter length Nat.leb mask_select]. rewrite Hm, Hs.
    rewrite Rltb_true by (assert (P := Rabs_pos (1 / 2 - 1 / 2)); lra). cbn [orb Nat.leb]. apply IH. }
  rewrite L. reflexivity.
Qed.
