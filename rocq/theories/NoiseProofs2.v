(** * Proofs about smooth_psd and the class Noise *)
From Coq Require Import Reals Lra Lia.
From Coquelicot Require Import Complex.
From Verif Require Import Base Dft ListLemmas UtilsModel UtilsSpec UtilsProofs1 UtilsProofs2 UtilsProofs3 UtilsProofs4 NoiseModel NoiseSpec NoiseProofs1.
From Coq Require Import Reals Lra.
Local Open Scope R_scope.

(** ** smooth_psd *)
Lemma mk_app {A} m q (f : nat -> A) : mk (m + q) f = mk m f ++ mk q (fun k => f (m + k)%nat).
Proof.
  induction q as [|q IH].
  - rewrite Nat.add_0_r. cbn. now rewrite app_nil_r.
  - rewrite Nat.add_succ_r, !mk_S, IH, app_assoc. reflexivity.
Qed.
Lemma mk_const {A} m (a : A) : mk m (fun _ => a) = repeat a m.
Proof. induction m as [|m IH]; [reflexivity|]. rewrite mk_S, IH. cbn [repeat]. now rewrite <- repeat_cons. Qed.

Lemma f_inds_eq n : (0 < n)%nat ->
  mk n (fun k => nonnegb (fftfreq n 1 k) || ((n mod 2 =? 0)%nat && (k =? n / 2)%nat))
  = repeat true (n / 2 + 1) ++ repeat false (n - (n / 2 + 1)).
Proof.
  intros Hn. assert (Hl : (n / 2 < n)%nat) by (apply Nat.div_lt; lia).
  rewrite <- !mk_const.
  replace n with ((n / 2 + 1) + (n - (n / 2 + 1)))%nat at 1 by lia.
  rewrite mk_app.
  assert (Hp : forall k, (k < n)%nat ->
    (nonnegb (fftfreq n 1 k) || ((n mod 2 =? 0)%nat && (k =? n / 2)%nat)) = (k <? n / 2 + 1)%nat).
  { intros k Hk. unfold fftfreq, freqnum.
    assert (0 < INR n) by (apply lt_0_INR; lia).
    destruct (half_cases n) as [h [(E & E1 & E2 & _)|(E & E1 & E2 & _)]]; rewrite E1, E2;
      destruct (Z.ltb_spec (2 * Z.of_nat k) (Z.of_nat n)).
    - replace (nonnegb _) with true.
      + destruct (Nat.ltb_spec k (h + 1)); [reflexivity|lia].
      + symmetry. apply nonnegb_true. apply Rmult_le_pos; [|left; apply Rinv_0_lt_compat; assumption].
        rewrite Rmult_1_r. apply IZR_le. lia.
    - replace (nonnegb _) with false.
      + destruct (Nat.eqb_spec k h); destruct (Nat.ltb_spec k (h + 1)); try reflexivity; lia.
      + symmetry. destruct (nonnegb _) eqn:En; [|reflexivity]. apply nonnegb_true in En. exfalso.
        apply (Rmult_le_compat_r (INR n)) in En; [|lra]. unfold Rdiv in En.
        rewrite Rmult_assoc, Rinv_l, Rmult_0_l, !Rmult_1_r in En by lra. apply le_IZR in En. lia.
    - replace (nonnegb _) with true.
      + destruct (Nat.ltb_spec k (h + 1)); [reflexivity|lia].
      + symmetry. apply nonnegb_true. apply Rmult_le_pos; [|left; apply Rinv_0_lt_compat; assumption].
        rewrite Rmult_1_r. apply IZR_le. lia.
    - replace (nonnegb _) with false.
      + destruct (Nat.ltb_spec k (h + 1)); try reflexivity; lia.
      + symmetry. destruct (nonnegb _) eqn:En; [|reflexivity]. apply nonnegb_true in En. exfalso.
        apply (Rmult_le_compat_r (INR n)) in En; [|lra]. unfold Rdiv in En.
        rewrite Rmult_assoc, Rinv_l, Rmult_0_l, !Rmult_1_r in En by lra. apply le_IZR in En. lia. }
  f_equal; apply mk_ext; intros k Hk.
  - rewrite Hp by lia. apply Nat.ltb_lt. lia.
  - rewrite Hp by lia. apply Nat.ltb_ge. lia.
Qed.

Lemma mask_select_prefix {A} m q (l : list A) :
  length l = (m + q)%nat -> mask_select (repeat true m ++ repeat false q) l = firstn m l.
Proof.
  revert l. induction m as [|m IH]; intros l Hl.
  - cbn. clear Hl. revert l. induction q as [|q IHq]; intros [|x l]; try reflexivity. cbn. apply IHq.
  - destruct l as [|x l]; [cbn in Hl; lia|]. cbn. f_equal. apply IH. cbn in Hl. lia.
Qed.

Lemma mask_assign_prefix m q a b vals :
  length a = m -> length b = q -> length vals = m ->
  mask_assign (repeat true m ++ repeat false q) (a ++ b) vals = Ok (vals ++ b).
Proof.
  revert a vals. induction m as [|m IH]; intros a vals Ha Hb Hv.
  - destruct a; [|discriminate]. destruct vals; [|discriminate]. cbn [repeat app].
    clear Ha Hv. revert b Hb. induction q as [|q IHq]; intros [|x b] Hb; try discriminate; [reflexivity|].
    cbn. rewrite IHq by (cbn in Hb; lia). reflexivity.
  - destruct a as [|x a]; [discriminate|]. destruct vals as [|v vals]; [discriminate|]. cbn.
    rewrite IH by (cbn in *; lia). reflexivity.
Qed.

Lemma mask_assign_suffix m q a b vals :
  length a = m -> length b = q -> length vals = q ->
  mask_assign (repeat false m ++ repeat true q) (a ++ b) vals = Ok (a ++ vals).
Proof.
  revert a. induction m as [|m IH]; intros a Ha Hb Hv.
  - destruct a; [|discriminate]. cbn [repeat app]. revert b vals Hb Hv.
    induction q as [|q IHq]; intros [|x b] [|v vals] Hb Hv; try discriminate; [reflexivity|].
    cbn. rewrite IHq by (cbn in *; lia). reflexivity.
  - destruct a as [|x a]; [discriminate|]. cbn. rewrite IH by (cbn in *; lia). reflexivity.
Qed.

Lemma map_negb_mask m q : map negb (repeat true m ++ repeat false q) = repeat false m ++ repeat true q.
Proof.
  rewrite map_app. f_equal.
  - induction m as [|m IH]; [reflexivity|]. cbn. now rewrite IH.
  - induction q as [|q IH]; [reflexivity|]. cbn. now rewrite IH.
Qed.

Lemma nth_firstn_lt {A} i m (l : list A) d : (i < m)%nat -> nth i (firstn m l) d = nth i l d.
Proof.
  revert i l. induction m as [|m IH]; intros i l H; [lia|]. destruct l as [|x l]; [reflexivity|].
  destruct i as [|i]; [reflexivity|]. cbn. apply IH. lia.
Qed.
Lemma skipn_nth {A} i j (l : list A) d : nth i (skipn j l) d = nth (j + i) l d.
Proof.
  revert l. induction j as [|j IH]; intros l; [reflexivity|].
  destruct l as [|x l]; [now destruct i|]. cbn. apply IH.
Qed.

Lemma pyslice_rev_tail lo (out : list R) : (lo <= 1)%nat -> (lo < length out)%nat ->
  let v := pyslice (rev out) (Z.of_nat lo) (-1) in
  length v = (length out - 1 - lo)%nat /\
  forall i, (i < length out - 1 - lo)%nat -> nth i v 0 = nth (length out - 1 - lo - i)%nat out 0.
Proof.
  intros Hlo Hl v. unfold v, pyslice, slice_bound. rewrite rev_length.
  replace (Z.of_nat lo <? 0)%Z with false by (symmetry; apply Z.ltb_ge; lia).
  replace (-1 <? 0)%Z with true by reflexivity.
  replace (Z.to_nat (Z.max 0 (-1 + Z.of_nat (length out)) - Z.min (Z.of_nat lo) (Z.of_nat (length out))))
    with (length out - 1 - lo)%nat by lia.
  replace (Z.to_nat (Z.min (Z.of_nat lo) (Z.of_nat (length out)))) with lo by lia.
  split.
  - rewrite firstn_length, skipn_length, rev_length. lia.
  - intros i Hi. rewrite nth_firstn_lt by lia. rewrite skipn_nth, rev_nth by lia. f_equal. lia.
Qed.

Lemma arangeR_increasing m : strictly_increasing (arangeR m).
Proof.
  unfold strictly_increasing, arangeR. intros i j H. rewrite mk_length in H. rewrite !mk_nth by lia.
  apply lt_INR. lia.
Qed.

Lemma smooth_psd_spec psd :
  let n := length psd in let h := firstn (n / 2 + 1) psd in
  (0 < n)%nat -> (forall v, In v h -> v <> 0) -> two_minima h ->
  exists out, smooth_psd psd = Ok out /\ length out = n /\
    (forall k, (0 < k < n)%nat -> nth (n - k) out 0 = nth k out 0) /\
    (forall i j, (i < j <= n / 2)%nat -> nth j out 0 < nth i out 0) /\
    (forall i, (i <= n / 2)%nat -> new_minimum h i -> nth i out 0 = nth i psd 0) /\
    (forall i, (i <= n / 2)%nat -> nth i out 0 <= nth i psd 0).
Proof.
  intros n h Hn Hnz H2. set (m := (n / 2 + 1)%nat). fold m in h.
  assert (Hm : (m <= n)%nat) by (assert (n / 2 < n)%nat by (apply Nat.div_lt; lia); unfold m; lia).
  assert (Hh : length h = m) by (unfold h; rewrite firstn_length; fold n; lia).
  destruct (make_decreasing_correct (arangeR (length h)) h) as (o & E & L & D & K & B); try assumption.
  { unfold arangeR. apply mk_length. }
  { apply arangeR_increasing. }
  rewrite Hh in *.
  unfold smooth_psd. fold n. destruct (Nat.eqb_spec n 0) as [|_]; [lia|].
  rewrite f_inds_eq by exact Hn. fold m.
  rewrite mask_select_prefix by (fold n; lia). fold h. rewrite Hh, E. cbn [bind].
  replace (mk n (fun _ => 0)) with (mk m (fun _ => 0) ++ mk (n - m) (fun _ => 0)).
  2:{ rewrite <- mk_app. f_equal. lia. }
  rewrite mask_assign_prefix by (rewrite ?mk_length; lia). cbn [bind].
  rewrite map_negb_mask.
  assert (Hhalf : forall i, (i < m)%nat -> nth i h 0 = nth i psd 0) by (intros i Hi; unfold h; now apply nth_firstn_lt).
  assert (Hfin : forall v lo, (n = 2 * m - 1 - lo)%nat -> (lo <= 1)%nat -> (lo < m)%nat ->
     v = pyslice (rev o) (Z.of_nat lo) (-1) ->
     exists out, mask_assign (repeat false m ++ repeat true (n - m)) (o ++ mk (n - m) (fun _ => 0)) v = Ok out /\
       length out = n /\ (forall k, (0 < k < n)%nat -> nth (n - k) out 0 = nth k out 0) /\
    (forall i j, (i < j <= n / 2)%nat -> nth j out 0 < nth i out 0) /\
    (forall i, (i <= n / 2)%nat -> new_minimum h i -> nth i out 0 = nth i psd 0) /\
    (forall i, (i <= n / 2)%nat -> nth i out 0 <= nth i psd 0)).
  { intros v lo En Hlo Hlm ->.
    destruct (pyslice_rev_tail lo o Hlo ltac:(lia)) as [Lv Nv].
    set (v := pyslice (rev o) (Z.of_nat lo) (-1)) in *. rewrite L in *.
    exists (o ++ v). rewrite mask_assign_suffix by (rewrite ?mk_length; lia).
    split; [reflexivity|]. split; [rewrite app_length; lia|].
    assert (Hsym : forall k, (m <= k < n)%nat -> nth k (o ++ v) 0 = nth (n - k) (o ++ v) 0).
    { intros k Hk. rewrite (app_nth2 o v) by lia. rewrite Nv by lia. rewrite app_nth1 by lia. f_equal. lia. }
    split; [|split; [|split]].
    - intros k Hk. destruct (Nat.le_gt_cases m k).
      + symmetry. apply Hsym. lia.
      + destruct (Nat.le_gt_cases m (n - k)).
        * rewrite Hsym by lia. f_equal. lia.
        * f_equal. lia.
    - intros i j H. rewrite !app_nth1 by (unfold m in *; lia). apply D. unfold m; lia.
    - intros i Hi Hmin. rewrite app_nth1 by (unfold m in *; lia). rewrite K by exact Hmin. apply Hhalf. unfold m; lia.
    - intros i Hi. rewrite app_nth1 by (unfold m in *; lia). rewrite <- Hhalf by (unfold m; lia). apply B. unfold m; lia. }
  assert (Hm2 : (2 <= m)%nat).
  { destruct H2 as (i & Hi & Hi2). destruct Hi2 as [Hi2 _]. lia. }
  destruct (half_cases n) as [q [(E0 & E1 & E2 & _)|(E0 & E1 & E2 & _)]]; rewrite E2; cbn [Nat.eqb].
  - apply (Hfin _ 1%nat); try reflexivity; unfold m; lia.
  - apply (Hfin _ 0%nat); try reflexivity; unfold m; lia.
Qed.

(** No second minimum: the smoothing raises. *)
Lemma dec_loop_high a y : (forall v, In v y -> a <= v) -> dec_loop a y = repeat 0 (length y).
Proof.
  induction y as [|v y IH]; intros H; [reflexivity|]. cbn [dec_loop].
  unfold Rltb. destruct (Rlt_dec v a) as [Hl|_].
  - specialize (H v (or_introl eq_refl)). lra.
  - cbn [repeat length]. now rewrite IH by (intros; apply H; now right).
Qed.

Lemma map_repeat {A B} (f : A -> B) a q : map f (repeat a q) = repeat (f a) q.
Proof. induction q as [|q IH]; [reflexivity|]. cbn. now rewrite IH. Qed.

Lemma mask_select_false {A} q (l : list A) : mask_select (repeat false q) l = [].
Proof. revert l. induction q as [|q IH]; intros [|x l]; try reflexivity. cbn. apply IH. Qed.

Lemma make_decreasing_one_minimum x y0 y : (forall v, In v y -> y0 <= v) ->
  make_decreasing x (y0 :: y) = Err ValueError.
Proof.
  intros H. unfold make_decreasing.
  assert (E : y_dec (y0 :: y) = y0 :: repeat 0 (length y)).
  { unfold y_dec. rewrite dec_loop_high; [reflexivity|]. intros v [<-|Hv]; [lra|now apply H]. }
  rewrite E.
  assert (Em : map (fun v => negb (Reqb v 0)) (y0 :: repeat 0 (length y)) = negb (Reqb y0 0) :: repeat false (length y)).
  { cbn [map]. f_equal. rewrite map_repeat. f_equal. unfold Reqb. destruct (Req_EM_T 0 0); [reflexivity|contradiction]. }
  rewrite Em.
  match goal with |- context [(length ?l <? 2)%nat] => assert (Hl : (length l < 2)%nat) end.
  { rewrite combine_length. destruct x as [|x0 x].
    - cbn. lia.
    - cbn [mask_select]. destruct (negb (Reqb y0 0)); rewrite !mask_select_false; cbn; lia. }
  apply Nat.ltb_lt in Hl. now rewrite Hl.
Qed.

Lemma smooth_psd_error p0 r : (forall v, In v (firstn ((length r + 1) / 2) r) -> p0 <= v) ->
  smooth_psd (p0 :: r) = Err ValueError.
Proof.
  intros H. unfold smooth_psd. cbn [length]. cbn [Nat.eqb].
  rewrite f_inds_eq by lia.
  assert (Hl : (S (length r) / 2 < S (length r))%nat) by (apply Nat.div_lt; lia).
  rewrite mask_select_prefix by (cbn [length]; lia).
  replace (S (length r) / 2 + 1)%nat with (S ((length r + 1) / 2)) by (rewrite (Nat.add_comm (length r) 1); cbn [Nat.add]; lia).
  cbn [firstn]. rewrite make_decreasing_one_minimum by exact H. reflexivity.
Qed.
