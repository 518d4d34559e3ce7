(** * IV: array and loop lemmas *)
From Verif Require Import Base ListLemmas UtilsModel OFFreeModel IvModel IvSpec.
From Coquelicot Require Import Coquelicot.
Local Open Scope R_scope.

Lemma of3_at nt nc ni f t c i : (c < nc)%nat -> (i < ni)%nat -> at3 nc ni (of3 nt nc ni f) t c i = f t c i.
Proof.
  intros Hc Hi. unfold at3, of3. cbn [flat].
  assert (E1 : (((t * nc + c) * ni + i) / ni = t * nc + c)%nat).
  { rewrite Nat.add_comm, Nat.div_add by lia. rewrite Nat.div_small by lia. lia. }
  assert (E2 : (((t * nc + c) * ni + i) mod ni = i)%nat).
  { rewrite Nat.add_comm, Nat.mod_add by lia. now apply Nat.mod_small. }
  assert (E3 : ((t * nc + c) / nc = t)%nat).
  { rewrite Nat.add_comm, Nat.div_add by lia. rewrite Nat.div_small by lia. lia. }
  assert (E4 : ((t * nc + c) mod nc = c)%nat).
  { rewrite Nat.add_comm, Nat.mod_add by lia. now apply Nat.mod_small. }
  now rewrite E1, E2, E3, E4.
Qed.

Lemma shape_eqb_true s s' : shape_eqb s s' = true <-> s = s'.
Proof. unfold shape_eqb. destruct (list_eq_dec Nat.eq_dec s s'); split; congruence. Qed.

Lemma shape_eqb_refl s : shape_eqb s s = true.
Proof. now apply shape_eqb_true. Qed.

Lemma shape_eqb_false s s' : s <> s' -> shape_eqb s s' = false.
Proof. unfold shape_eqb. destruct (list_eq_dec Nat.eq_dec s s'); congruence. Qed.

Lemma sequence_mk_ok {A} n (f : nat -> res A) : (forall k, (k < n)%nat -> exists a, f k = Ok a) ->
  exists l, sequence (mk n f) = Ok l /\ length l = n.
Proof.
  intros H0. unfold mk.
  assert (G : forall s, (forall k, (s <= k < s + n)%nat -> exists a, f k = Ok a) ->
    exists l, sequence (map f (seq s n)) = Ok l /\ length l = n).
  { clear H0. induction n as [|n IH]; intros s H; [exists []; split; reflexivity|].
    cbn [seq map sequence]. destruct (H s ltac:(lia)) as [a Ea]. rewrite Ea. cbn [bind].
    destruct (IH (S s)) as [l [El Ll]]. { intros k Hk. apply H. lia. }
    rewrite El. cbn [bind]. exists (a :: l). split; [reflexivity|]. simpl. now rewrite Ll. }
  apply G. intros k Hk. apply H0. lia.
Qed.

Lemma sequence_nth {A} (rs : list (res A)) l : sequence rs = Ok l ->
  length l = length rs /\ forall k d, (k < length rs)%nat -> nth_error rs k = Some (Ok (nth k l d)).
Proof.
  revert l. induction rs as [|r rs IH]; intros l E.
  - injection E as <-. split; [reflexivity|]. intros k d Hk. simpl in Hk. lia.
  - cbn [sequence] in E. destruct r as [a|e]; [|discriminate]. cbn [bind] in E.
    destruct (sequence rs) as [r|e]; [|discriminate]. cbn [bind] in E. injection E as <-.
    destruct (IH r eq_refl) as [L H]. split; [simpl; now rewrite L|].
    intros [|k] d Hk; [reflexivity|]. simpl. apply H. simpl in Hk. lia.
Qed.

Lemma per_channel_ok {A} nt nc (f : nat -> nat -> res A) :
  (forall t c, (t < nt)%nat -> (c < nc)%nat -> exists a, f t c = Ok a) ->
  exists l, per_channel nt nc f = Ok l.
Proof.
  intros H. unfold per_channel.
  destruct (sequence_mk_ok nt (fun t => sequence (mk nc (fun c => f t c)))) as [l [E _]]; [|eauto].
  intros t Ht. destruct (sequence_mk_ok nc (fun c => f t c)) as [l [E _]]; [|eauto].
  intros c Hc. now apply H.
Qed.

Lemma per_channel_pick {A} nt nc (f : nat -> nat -> res A) l d : per_channel nt nc f = Ok l ->
  forall t c, (t < nt)%nat -> (c < nc)%nat -> f t c = Ok (pick d l t c).
Proof.
  intros E t c Ht Hc. unfold per_channel in E. apply sequence_nth in E. destruct E as [L H].
  rewrite mk_length in L, H. specialize (H t [] Ht). rewrite mk_nth_error in H.
  destruct (Nat.ltb_spec t nt) as [_|]; [|lia]. injection H as H.
  apply sequence_nth in H. destruct H as [L' H]. rewrite mk_length in L', H. specialize (H c d Hc).
  rewrite mk_nth_error in H. destruct (Nat.ltb_spec c nc) as [_|]; [|lia]. injection H as H. exact H.
Qed.

(** ** fit_row *)

Lemma fit_row_ok cf n x y s bad inds p : fit_row cf n x y s bad inds = Ok p ->
  (forall i, In i inds -> (i < n)%nat /\ bad i = false) /\ (2 <= length inds)%nat /\
  cf (points x y s inds) = Ok p.
Proof.
  unfold fit_row. destruct (forallb (fun i => (i <? n)%nat) inds) eqn:F; cbn [negb]; [|discriminate].
  destruct (length inds =? 0)%nat; [discriminate|].
  destruct (existsb bad inds) eqn:B; [discriminate|].
  destruct (Nat.ltb_spec (length inds) 2); [discriminate|]. intros E. split; [|split; assumption].
  intros i Hi. split.
  - rewrite forallb_forall in F. specialize (F i Hi). now apply Nat.ltb_lt.
  - destruct (bad i) eqn:Bi; [|reflexivity]. assert (existsb bad inds = true); [|congruence].
    apply existsb_exists. eauto.
Qed.

Lemma fit_row_intro cf n x y s bad inds :
  (forall i, In i inds -> (i < n)%nat /\ bad i = false) -> (2 <= length inds)%nat ->
  fit_row cf n x y s bad inds = cf (points x y s inds).
Proof.
  intros H L. unfold fit_row.
  assert (F : forallb (fun i => (i <? n)%nat) inds = true).
  { apply forallb_forall. intros i Hi. apply Nat.ltb_lt. now apply H. }
  rewrite F. cbn [negb]. destruct (Nat.eqb_spec (length inds) 0); [lia|].
  assert (B : existsb bad inds = false).
  { destruct (existsb bad inds) eqn:B; [|reflexivity]. apply existsb_exists in B. destruct B as [i [Hi Bi]].
    destruct (H i Hi). congruence. }
  rewrite B. destruct (Nat.ltb_spec (length inds) 2); [lia|]. reflexivity.
Qed.

Lemma red_chi2_eq x y s e b m :
  lsum (map (fun i => ((fitfunc (x i) b m - y i) / s i) ^ 2) (seq 0 e)) = line_chi2 (points x y s (seq 0 e)) b m.
Proof. unfold line_chi2, points. rewrite map_map. reflexivity. Qed.

(** ** The normal-branch search *)

Section Search.
Variables (cf : fitter) (n : nat) (x y s : nat -> R) (nanx bad : nat -> bool) (tol : R).

(** prefix [e] is fitted and is consistent *)
Definition prefix_good (e : nat) : Prop :=
  exists p, fit_row cf n x y s bad (seq 0 e) = Ok p /\ consistent x y s tol e (fb p) (fm p).
Definition prefix_bad (e : nat) : Prop :=
  exists p, fit_row cf n x y s bad (seq 0 e) = Ok p /\ ~ consistent x y s tol e (fb p) (fm p).

Lemma fni_loop_spec fuel e0 e : fni_loop fuel cf n x y s nanx bad tol e0 = Ok e -> (n <= e0 + fuel)%nat ->
  (e0 <= e <= Nat.max e0 n)%nat /\
  (forall j, (e0 < j < e)%nat -> prefix_good j) /\
  (forall j, (e0 <= j < e)%nat -> nanx j = false) /\
  ((e0 < e)%nat /\ prefix_bad e \/
   ((n <= e)%nat \/ nanx e = true) /\ ((e0 < e)%nat -> prefix_good e)).
Proof.
  revert e0. induction fuel as [|fuel IH]; intros e0 E Hf.
  - injection E as <-. split; [lia|]. split; [intros; lia|]. split; [intros; lia|]. right. split; [left; lia|lia].
  - cbn [fni_loop] in E.
    destruct (Nat.ltb_spec e0 n) as [Hn|Hn]; cbn [andb] in E;
      [|injection E as <-; split; [lia|]; split; [intros; lia|]; split; [intros; lia|]; right; split; [left; lia|lia]].
    destruct (nanx e0) eqn:Na; cbn [negb] in E;
      [injection E as <-; split; [lia|]; split; [intros; lia|]; split; [intros; lia|]; right; split; [right; exact Na|lia]|].
    destruct (fit_row cf n x y s bad (seq 0 (S e0))) as [p|] eqn:Ep; [|discriminate]. cbn [bind] in E.
    rewrite red_chi2_eq in E. destruct (Rltb_spec tol (line_chi2 (points x y s (seq 0 (S e0))) (fb p) (fm p) / (INR (S e0) - 2))) as [Hc|Hc].
    + injection E as <-. split; [lia|]. split; [intros; lia|].
      split; [intros j Hj; replace j with e0 by lia; exact Na|]. left. split; [lia|].
      exists p. split; [exact Ep|]. unfold consistent. lra.
    + assert (G : prefix_good (S e0)). { exists p. split; [exact Ep|]. unfold consistent. lra. }
      destruct (IH (S e0) E ltac:(lia)) as [B [P [Nn F]]]. split; [lia|]. split; [|split].
      * intros j Hj. destruct (Nat.eq_dec j (S e0)) as [->|]; [exact G|]. apply P. lia.
      * intros j Hj. destruct (Nat.eq_dec j e0) as [->|]; [exact Na|]. apply Nn. lia.
      * destruct F as [[Hl Hb]|[Hs Hg]]; [left; split; [lia|exact Hb]|right; split; [exact Hs|]].
        intros _. destruct (Nat.eq_dec e (S e0)) as [->|]; [exact G|]. apply Hg. lia.
Qed.

Lemma fni_loop_ok fuel e0 :
  (forall i, (i < e0)%nat -> bad i = false) -> (forall i, bad i = true -> nanx i = true) ->
  (1 <= e0)%nat -> (forall pts, (2 <= length pts)%nat -> exists p, cf pts = Ok p) ->
  exists e, fni_loop fuel cf n x y s nanx bad tol e0 = Ok e.
Proof.
  intros Hb Hbn He Hcf. revert e0 Hb He. induction fuel as [|fuel IH]; intros e0 Hb He; [eexists; reflexivity|].
  cbn [fni_loop]. destruct (Nat.ltb_spec e0 n) as [Hn|Hn]; cbn [andb]; [|eexists; reflexivity].
  destruct (nanx e0) eqn:Na; cbn [negb]; [eexists; reflexivity|].
  assert (Hb' : forall i, (i < S e0)%nat -> bad i = false).
  { intros i Hi. destruct (Nat.eq_dec i e0) as [->|]; [|apply Hb; lia].
    destruct (bad e0) eqn:B; [|reflexivity]. apply Hbn in B. congruence. }
  rewrite fit_row_intro.
  - destruct (Hcf (points x y s (seq 0 (S e0)))) as [p Ep].
    { unfold points. rewrite map_length, seq_length. lia. }
    rewrite Ep. cbn [bind]. destruct (Rltb _ _); [eexists; reflexivity|]. apply IH; [exact Hb'|lia].
  - intros i Hi. apply in_seq in Hi. split; [lia|apply Hb'; lia].
  - rewrite seq_length. lia.
Qed.
End Search.

Lemma findnormalinds_spec cf n x y s nanx bad tol l : findnormalinds cf n x y s nanx bad tol = Ok l ->
  exists e, l = seq 0 (e - 1) /\ (2 <= e <= Nat.max 2 n)%nat /\
    (forall j, (2 < j < e)%nat -> prefix_good cf n x y s bad tol j) /\
    (forall j, (2 <= j < e)%nat -> nanx j = false) /\
    ((2 < e)%nat /\ prefix_bad cf n x y s bad tol e \/
     ((n <= e)%nat \/ nanx e = true) /\ ((2 < e)%nat -> prefix_good cf n x y s bad tol e)).
Proof.
  unfold findnormalinds. destruct (fni_loop _ _ _ _ _ _ _ _ _ _) as [e|] eqn:E; [|discriminate]. cbn [bind].
  intros H. injection H as <-. exists e. split; [reflexivity|]. apply (fni_loop_spec _ _ _ _ _ _ _ _ _ _ _ E). lia.
Qed.

(** ** Exact data determine the fitted line *)

Lemma lsum_nonneg_zero (l : list R) : (forall v, In v l -> 0 <= v) -> lsum l <= 0 -> forall v, In v l -> v = 0.
Proof.
  induction l as [|a l IH]; intros H Hs v Hv; [destruct Hv|].
  assert (Ha : 0 <= a) by (apply H; left; reflexivity).
  assert (Hl : 0 <= lsum l).
  { clear -H. induction l as [|b l IH]; simpl; [lra|].
    assert (0 <= b) by (apply H; right; left; reflexivity).
    assert (0 <= lsum l). { apply IH. intros v [->|Hv]; apply H; [left; reflexivity|right; right; exact Hv]. } lra. }
  simpl in Hs. destruct Hv as [->|Hv]; [lra|]. apply IH; [intros w Hw; apply H; right; exact Hw|lra|exact Hv].
Qed.

Lemma best_line_exact pts b m b0 m0 : best_line pts b m -> on_line pts b0 m0 -> b = b0 /\ m = m0.
Proof.
  intros Hb [Hl [x [y [s [x' [y' [s' [H1 [H2 Hx]]]]]]]]].
  assert (Z : line_chi2 pts b0 m0 = 0).
  { unfold line_chi2. clear -Hl. induction pts as [|[[x y] s] l IH]; [reflexivity|].
    unfold lsum in *. cbn [map fold_right]. rewrite IH. - destruct (Hl x y s (or_introl eq_refl)) as [Hs ->]. field. exact Hs.
    - intros a b s' Hi. apply Hl. right. exact Hi. }
  assert (N : line_chi2 pts b m <= 0) by (rewrite <- Z; apply Hb).
  assert (P : forall x y s, In (x, y, s) pts -> m * x + b = m0 * x + b0).
  { intros a c e Hi. destruct (Hl a c e Hi) as [Hs Hy].
    assert (Q : ((m * a + b - c) / e) ^ 2 = 0).
    { unfold line_chi2 in N. eapply (lsum_nonneg_zero _ _ N).
      apply in_map_iff. exists (a, c, e). split; [reflexivity|exact Hi]. }
    assert (Q' : (m * a + b - c) / e = 0).
    { destruct (Req_dec ((m * a + b - c) / e) 0) as [E|E]; [exact E|]. exfalso. apply (pow_nonzero _ 2 E). exact Q. }
    assert (m * a + b - c = 0). { replace (m * a + b - c) with ((m * a + b - c) / e * e) by (field; exact Hs). rewrite Q'. ring. }
    lra.
    Unshelve. intros v Hv. apply in_map_iff in Hv. destruct Hv as [[[p q] r] [<- _]]. apply pow2_ge_0. }
  assert (P1 := P _ _ _ H1). assert (P2 := P _ _ _ H2).
  assert (M : (m - m0) * (x - x') = 0) by lra.
  apply Rmult_integral in M. destruct M as [M|M]; [|lra]. assert (m = m0) by lra. subst m0. split; lra.
Qed.
