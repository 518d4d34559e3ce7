(** * Proofs about removeoutliers *)
From Coq Require Import Permutation Sorted.
From Verif Require Import Base ListLemmas UtilsModel CutModel CutSpec.
Local Open Scope R_scope.

(** ** sorting *)
Lemma insert_perm a l : Permutation (a :: l) (insert a l).
Proof.
  induction l as [|b l IH]; simpl; [reflexivity|].
  destruct (Rleb a b); [reflexivity|].
  rewrite perm_swap. now constructor.
Qed.

Lemma sort_perm l : Permutation l (sort l).
Proof.
  induction l as [|a l IH]; simpl; [constructor|].
  change (sort (a :: l)) with (insert a (sort l)).
  rewrite <- insert_perm. now constructor.
Qed.

Lemma insert_sorted a l : StronglySorted Rle l -> StronglySorted Rle (insert a l).
Proof.
  induction l as [|b l IH]; intros H; simpl.
  - repeat constructor.
  - destruct (Rleb_spec a b) as [Hab|Hab].
    + constructor; [assumption|]. inversion H; subst. constructor; [assumption|].
      eapply Forall_impl; [|eassumption]. simpl. intros; lra.
    + inversion H; subst. constructor; [auto|].
      apply Forall_forall. intros y Hy.
      apply (Permutation_in _ (Permutation_sym (insert_perm a l))) in Hy.
      destruct Hy as [<-|Hy]; [lra|]. rewrite Forall_forall in H3. auto.
Qed.

Lemma sort_sorted l : StronglySorted Rle (sort l).
Proof. induction l as [|a l IH]; simpl; [constructor|]. now apply insert_sorted. Qed.

Lemma median_spec l : l <> [] -> is_median l (median l).
Proof.
  intros Hl. exists (sort l). split; [apply sort_perm|]. split; [apply sort_sorted|].
  unfold median. assert (Hn : length (sort l) = length l)
    by (symmetry; apply Permutation_length, sort_perm). rewrite Hn.
  assert (Hp : (0 < length l)%nat) by (destruct l; [congruence|simpl; lia]).
  destruct (Nat.even (length l)) eqn:E.
  - apply Nat.even_spec in E. destruct E as [k Hk]. rewrite Hk.
    replace (2 * k)%nat with (k * 2)%nat by lia. rewrite Nat.div_mul by lia.
    replace ((k * 2 - 1) / 2)%nat with (k - 1)%nat; [reflexivity|].
    symmetry. replace (k * 2 - 1)%nat with (1 + (k - 1) * 2)%nat by lia.
    rewrite Nat.div_add by lia. reflexivity.
  - assert (O : Nat.odd (length l) = true) by (unfold Nat.odd; now rewrite E).
    apply Nat.odd_spec in O. destruct O as [k Hk]. rewrite Hk.
    replace (2 * k + 1 - 1)%nat with (k * 2)%nat by lia. rewrite Nat.div_mul by lia.
    replace (2 * k + 1)%nat with (1 + k * 2)%nat by lia. rewrite Nat.div_add by lia.
    simpl (1 / 2 + k)%nat. lra.
Qed.

(** ** minimum and maximum *)
Lemma fold_min_spec l a :
  let m := fold_left Rmin l a in (m = a \/ In m l) /\ m <= a /\ forall r, In r l -> m <= r.
Proof.
  revert a. induction l as [|b l IH]; intros a; simpl.
  - split; [now left|]. split; [lra|tauto].
  - destruct (IH (Rmin a b)) as [H1 [H2 H3]]. repeat split.
    + destruct H1 as [H1|H1]; [|now right; right].
      rewrite H1. unfold Rmin. destruct (Rle_dec a b); auto.
    + assert (Rmin a b <= a) by apply Rmin_l. lra.
    + intros r [<-|Hr]; [|auto]. assert (Rmin a b <= b) by apply Rmin_r. lra.
Qed.

Lemma listmin_spec l : l <> [] -> In (listmin l) l /\ forall r, In r l -> listmin l <= r.
Proof.
  destruct l as [|a l]; [congruence|]. intros _. unfold listmin.
  destruct (fold_min_spec l a) as [H1 [H2 H3]]. split.
  - destruct H1 as [->|H1]; [now left|now right].
  - intros r [<-|Hr]; auto.
Qed.

Lemma fold_max_spec l a :
  let m := fold_left Rmax l a in (m = a \/ In m l) /\ a <= m /\ forall r, In r l -> r <= m.
Proof.
  revert a. induction l as [|b l IH]; intros a; simpl.
  - split; [now left|]. split; [lra|tauto].
  - destruct (IH (Rmax a b)) as [H1 [H2 H3]]. repeat split.
    + destruct H1 as [H1|H1]; [|now right; right].
      rewrite H1. unfold Rmax. destruct (Rle_dec a b); auto.
    + assert (a <= Rmax a b) by apply Rmax_l. lra.
    + intros r [<-|Hr]; [|auto]. assert (b <= Rmax a b) by apply Rmax_r. lra.
Qed.

Lemma listmax_spec l : l <> [] -> In (listmax l) l /\ forall r, In r l -> r <= listmax l.
Proof.
  destruct l as [|a l]; [congruence|]. intros _. unfold listmax.
  destruct (fold_max_spec l a) as [H1 [H2 H3]]. split.
  - destruct H1 as [->|H1]; [now left|now right].
  - intros r [<-|Hr]; auto.
Qed.

Lemma listmin_map_sub l c : l <> [] -> listmin (map (fun r => r - c) l) = listmin l - c.
Proof.
  intros H. assert (H' : map (fun r => r - c) l <> []) by (destruct l; simpl; congruence).
  destruct (listmin_spec l H) as [A B]. destruct (listmin_spec _ H') as [A' B'].
  apply in_map_iff in A'. destruct A' as [r [E Hr]]. rewrite <- E.
  assert (L1 := B r Hr). assert (L2 := B' (listmin l - c) (in_map (fun r => r - c) _ _ A)). lra.
Qed.

Lemma listmax_map_sub l c : l <> [] -> listmax (map (fun r => r - c) l) = listmax l - c.
Proof.
  intros H. assert (H' : map (fun r => r - c) l <> []) by (destruct l; simpl; congruence).
  destruct (listmax_spec l H) as [A B]. destruct (listmax_spec _ H') as [A' B'].
  apply in_map_iff in A'. destruct A' as [r [E Hr]]. rewrite <- E.
  assert (L1 := B r Hr). assert (L2 := B' (listmax l - c) (in_map (fun r => r - c) _ _ A)). lra.
Qed.

(** ** selections *)
Lemma finites_in x r : In r (finites x) <-> In (Fin r) x.
Proof.
  unfold finites. rewrite in_flat_map. split.
  - intros [v [Hv H]]. destruct v; simpl in H; try tauto. destruct H as [->|[]]. assumption.
  - intros H. exists (Fin r). split; [assumption|]. now left.
Qed.

Lemma finites_app a b : finites (a ++ b) = finites a ++ finites b.
Proof. unfold finites. apply flat_map_app. Qed.

Lemma selected_kept_values x m : length m = length x -> selected x m = kept_values x m.
Proof.
  unfold selected, kept_values. revert m. induction x as [|v x IH]; intros m H.
  - destruct m; reflexivity.
  - destruct m as [|b m]; [discriminate|]. simpl in H. injection H as H.
    cbn [length seq flat_map nth_error]. rewrite <- seq_shift, flat_map_concat_map, map_map, <- flat_map_concat_map.
    unfold keptb. simpl nth.
    destruct b; simpl; rewrite (IH m H); unfold keptb; destruct v; reflexivity.
Qed.

Lemma ro_round_length x m : length m = length x -> length (ro_round x m) = length x.
Proof. intros H. unfold ro_round. rewrite map_length, combine_length. lia. Qed.

Lemma ro_round_spec x m : length m = length x ->
  (forall v, In v x -> is_bad v = false) -> kept_values x m <> [] -> removal_round x m (ro_round x m).
Proof.
  intros Hl Hb Hk.
  set (med := median (selected x m)).
  assert (Hfin : finites x <> []).
  { rewrite <- (selected_kept_values x m Hl) in Hk. unfold selected in Hk. intros E. apply Hk.
    destruct (finites (mask_select m x)) as [|r l] eqn:Er; [reflexivity|]. exfalso.
    assert (In r (finites (mask_select m x))) as Hr by (rewrite Er; now left).
    apply finites_in in Hr. assert (In (Fin r) x) as Hx.
    { clear -Hr. revert m Hr. induction x as [|v x IH]; intros m Hr; destruct m as [|b m]; simpl in Hr; try tauto.
      destruct b; [destruct Hr as [->|Hr]; [now left|]|]; right; eapply IH; eassumption. }
    apply finites_in in Hx. rewrite E in Hx. destruct Hx. }
  destruct (listmin_spec _ Hfin) as [Hmin1 Hmin2]. destruct (listmax_spec _ Hfin) as [Hmax1 Hmax2].
  set (dist := if existsb is_pinf x then Rabs (listmin (finites x) - med)
               else Rmin (Rabs (listmin (finites x) - med)) (Rabs (listmax (finites x) - med))).
  exists med, dist. split; [|split].
  - rewrite <- selected_kept_values by assumption. apply median_spec.
    now rewrite selected_kept_values.
  - exists (listmin (finites x)). split; [now apply finites_in|]. split.
    + intros r Hr. apply Hmin2. now apply finites_in.
    + unfold dist. destruct (existsb is_pinf x) eqn:E.
      * left. split; [|reflexivity]. apply existsb_exists in E. destruct E as [v [Hv E]].
        destruct v; try discriminate. assumption.
      * right. split.
        -- intros H. assert (existsb is_pinf x = true) by (apply existsb_exists; exists PInf; auto). congruence.
        -- exists (listmax (finites x)). split; [now apply finites_in|]. split; [|reflexivity].
           intros r Hr. apply Hmax2. now apply finites_in.
  - intros i. unfold kept, ro_round. fold med.
    rewrite (listmin_map_sub _ _ Hfin), (listmax_map_sub _ _ Hfin). fold dist.
    rewrite nth_error_map, nth_error_combine.
    destruct (nth_error m i) as [b|] eqn:Em; simpl.
    + destruct (nth_error x i) as [v|] eqn:Ex; simpl.
      * split.
        -- intros H. injection H as H. apply andb_prop in H. destruct H as [-> H]. split; [reflexivity|].
           destruct v as [r| |]; try discriminate. exists r. split; [reflexivity|].
           destruct (Rltb_spec (Rabs (r - med)) dist); [assumption|discriminate].
        -- intros [H [r [Hr Hd]]]. injection H as ->. injection Hr as ->. simpl.
           now rewrite Rltb_true.
      * split; [discriminate|]. intros [_ [r [Hr _]]]. discriminate.
    + split; [discriminate|]. intros [H _]. discriminate.
Qed.

Lemma too_skew_spec skew target x m : length m = length x ->
  reflect (skewed skew target x m) (too_skew skew target x m).
Proof.
  intros Hl. unfold too_skew, skewed. rewrite selected_kept_values by assumption.
  destruct (kept_values x m) as [|r l].
  - constructor. intros [H _]. congruence.
  - destruct (skew (r :: l)) as [s|].
    + destruct (Rltb_spec target s) as [H|H]; constructor.
      * split; [congruence|]. eauto.
      * intros [_ [s' [E Hs]]]. injection E as <-. contradiction.
    + constructor. intros [_ [s' [E _]]]. discriminate.
Qed.

(** ** the loop *)
Lemma ro_loop_rounds skew target x : (forall v, In v x -> is_bad v = false) ->
  forall fuel maxiter i m, length m = length x -> (1 <= i)%Z ->
  (Z.to_nat (maxiter + 1 - i) + 1 <= fuel)%nat ->
  exists k m', ro_loop fuel skew target maxiter i x m = Some m' /\ length m' = length x /\
    removal_rounds skew target x k m m' /\
    (k <= Z.to_nat (Z.max 1 (maxiter + 2 - i)))%nat /\
    (k = Z.to_nat (Z.max 1 (maxiter + 2 - i)) \/ ~ skewed skew target x m').
Proof.
  intros Hb. induction fuel as [|fuel IH]; intros maxiter i m Hl Hi Hf; [lia|].
  simpl. destruct (too_skew_spec skew target x m Hl) as [Hs|Hs].
  - assert (Hr : removal_round x m (ro_round x m)) by (apply ro_round_spec; auto; apply Hs).
    rewrite Z.gtb_ltb. destruct (Z.ltb_spec maxiter i) as [Hm|Hm].
    + exists 1%nat, (ro_round x m). split; [reflexivity|]. split; [now apply ro_round_length|].
      split; [econstructor; eauto; constructor|]. split; [lia|]. left. lia.
    + destruct (IH maxiter (i + 1)%Z (ro_round x m)) as [k [m' [E [L [Hk [Hle Hend]]]]]];
        [now apply ro_round_length|lia|lia|].
      exists (S k), m'. split; [assumption|]. split; [assumption|].
      split; [econstructor; eauto|]. split; [lia|]. destruct Hend as [->|Hend]; [left; lia|now right].
  - exists 0%nat, m. repeat split; auto; [constructor|lia].
Qed.

Lemma existsb_false_forall {A} (f : A -> bool) l : existsb f l = false -> forall v, In v l -> f v = false.
Proof.
  intros H v Hv. destruct (f v) eqn:E; [|reflexivity].
  assert (existsb f l = true) by (apply existsb_exists; eauto). congruence.
Qed.

(** Rounds only remove. *)
Lemma rounds_sub skew target x k m m' : removal_rounds skew target x k m m' -> submask m' m.
Proof.
  induction 1 as [m|k m m' m'' _ Hr _ IH]; intros i Hi; [assumption|].
  apply IH in Hi. destruct Hr as [med [d [_ [_ Hr]]]]. apply Hr in Hi. tauto.
Qed.

Definition noninf (x : list xval) : list bool := map (fun v => negb (is_pinf v)) x.

Lemma noninf_kept x i : kept (noninf x) i <-> exists v, nth_error x i = Some v /\ v <> PInf.
Proof.
  unfold kept, noninf. rewrite nth_error_map. destruct (nth_error x i) as [v|]; simpl.
  - split.
    + intros H. exists v. split; [reflexivity|]. destruct v; simpl in H; congruence.
    + intros [w [E Hw]]. injection E as <-. destruct v; simpl; congruence.
  - split; [discriminate|]. intros [v [E _]]. discriminate.
Qed.

Lemma noninf_length x : length (noninf x) = length x.
Proof. apply map_length. Qed.

(** The kept values form a range. *)
Lemma rounds_convex skew target x k m m' : removal_rounds skew target x k m m' ->
  (forall i j l a b c, kept m i -> kept m l -> nth_error x i = Some (Fin a) -> nth_error x j = Some (Fin b) ->
     nth_error x l = Some (Fin c) -> a <= b <= c -> kept m j) ->
  forall i j l a b c, kept m' i -> kept m' l -> nth_error x i = Some (Fin a) -> nth_error x j = Some (Fin b) ->
     nth_error x l = Some (Fin c) -> a <= b <= c -> kept m' j.
Proof.
  induction 1 as [m|k m m' m'' _ Hr _ IH]; intros H; [exact H|].
  apply IH. destruct Hr as [med [d [_ [_ Hr]]]].
  intros i j l a b c Hi Hl Ea Eb Ec Hle. apply Hr in Hi. apply Hr in Hl. apply Hr.
  destruct Hi as [Hi [ra [Era Ha]]]. destruct Hl as [Hl [rc [Erc Hc]]].
  rewrite Ea in Era. injection Era as <-. rewrite Ec in Erc. injection Erc as <-.
  split; [exact (H i j l a b c Hi Hl Ea Eb Ec Hle)|]. exists b. split; [assumption|].
  apply Rabs_def2 in Ha. apply Rabs_def2 in Hc. apply Rabs_def1; lra.
Qed.

(** More rounds remove more. *)
Lemma ro_loop_more skew target x : forall fuel fuel' maxiter maxiter' i m m1 m2, (maxiter <= maxiter')%Z ->
  ro_loop fuel skew target maxiter i x m = Some m1 ->
  ro_loop fuel' skew target maxiter' i x m = Some m2 -> length m = length x ->
  (forall v, In v x -> is_bad v = false) ->
  submask m2 m1.
Proof.
  induction fuel as [|fuel IH]; intros fuel' maxiter maxiter' i m m1 m2 Hle E1 E2 Hl Hb; [discriminate|].
  destruct fuel' as [|fuel']; [discriminate|]. simpl in E1, E2.
  destruct (too_skew_spec skew target x m Hl) as [Hs|Hs]; [|injection E1 as <-; injection E2 as <-; intros j Hj; exact Hj].
  rewrite Z.gtb_ltb in E1, E2. destruct (Z.ltb_spec maxiter i).
  - injection E1 as <-. destruct (Z.ltb_spec maxiter' i); [injection E2 as <-; intros j Hj; exact Hj|].
    clear -E2 Hl Hb. assert (Hl' : length (ro_round x m) = length x) by now apply ro_round_length.
    revert E2 Hl'. generalize (ro_round x m) as m0. generalize (i + 1)%Z as i0. clear m Hl i.
    induction fuel' as [|f IH]; intros i0 m0 E2 Hl; [discriminate|]. simpl in E2.
    destruct (too_skew_spec skew target x m0 Hl) as [Hs|Hs]; [|injection E2 as <-; intros j Hj; exact Hj].
    assert (Hr : removal_round x m0 (ro_round x m0)) by (apply ro_round_spec; auto; apply Hs).
    assert (Hsub : submask (ro_round x m0) m0).
    { intros j Hj. destruct Hr as [med [d [_ [_ Hr]]]]. apply Hr in Hj. tauto. }
    destruct (i0 >? maxiter')%Z; [injection E2 as <-; exact Hsub|].
    intros j Hj. apply Hsub. eapply IH; eauto. now apply ro_round_length.
  - destruct (Z.ltb_spec maxiter' i); [lia|].
    exact (IH _ _ _ _ _ _ _ Hle E1 E2 (ro_round_length _ _ Hl) Hb).
Qed.

(** ** removeoutliers *)
Lemma removeoutliers_spec skew x maxiter target fuel :
  (Z.to_nat maxiter + 1 <= fuel)%nat ->
  exists k m, removeoutliers fuel skew x maxiter target = Some m /\ length m = length x /\
    if existsb is_bad x then m = noninf x else
    removal_rounds skew target x k (noninf x) m /\
    (k <= Z.to_nat (Z.max 1 (maxiter + 1)))%nat /\
    (k = Z.to_nat (Z.max 1 (maxiter + 1)) \/ ~ skewed skew target x m).
Proof.
  intros Hf. unfold removeoutliers. fold (noninf x). destruct (existsb is_bad x) eqn:E.
  - exists 0%nat, (noninf x). repeat split. apply noninf_length.
  - destruct (ro_loop_rounds skew target x (existsb_false_forall _ _ E) fuel maxiter 1 (noninf x))
      as [k [m [Em [Hl [Hr [Hk He]]]]]]; [apply noninf_length|lia|lia|].
    exists k, m. replace (maxiter + 2 - 1)%Z with (maxiter + 1)%Z in * by lia. auto.
Qed.

Lemma removeoutliers_basic skew x maxiter target fuel :
  (Z.to_nat maxiter + 1 <= fuel)%nat ->
  exists m, removeoutliers fuel skew x maxiter target = Some m /\ length m = length x /\
    forall i, nth_error x i = Some PInf -> ~ kept m i.
Proof.
  intros Hf. destruct (removeoutliers_spec skew x maxiter target fuel Hf) as [k [m [E [L H]]]].
  exists m. split; [assumption|]. split; [assumption|]. intros i Hi Hk.
  assert (Hn : kept (noninf x) i).
  { destruct (existsb is_bad x); [congruence|]. destruct H as [H _].
    exact (rounds_sub _ _ _ _ _ _ H i Hk). }
  apply noninf_kept in Hn. destruct Hn as [v [Ev Hv]]. congruence.
Qed.

Lemma removeoutliers_not_skewed skew x maxiter target fuel :
  (Z.to_nat maxiter + 1 <= fuel)%nat ->
  ~ skewed skew target x (noninf x) ->
  exists m, removeoutliers fuel skew x maxiter target = Some m /\
    forall i, kept m i <-> exists v, nth_error x i = Some v /\ v <> PInf.
Proof.
  intros Hf Hs. destruct (removeoutliers_spec skew x maxiter target fuel Hf) as [k [m [E [L H]]]].
  exists m. split; [assumption|]. intros i. rewrite <- noninf_kept.
  destruct (existsb is_bad x); [now subst|]. destruct H as [H _].
  inversion H; subst; [reflexivity|contradiction].
Qed.

Lemma removeoutliers_more skew x maxiter maxiter' target fuel fuel' m m' : (maxiter <= maxiter')%Z ->
  removeoutliers fuel skew x maxiter target = Some m ->
  removeoutliers fuel' skew x maxiter' target = Some m' -> submask m' m.
Proof.
  intros Hle. unfold removeoutliers. destruct (existsb is_bad x) eqn:E.
  - intros E1 E2. injection E1 as <-. injection E2 as <-. intros i Hi; exact Hi.
  - intros E1 E2. eapply ro_loop_more; eauto; [apply map_length|now apply existsb_false_forall].
Qed.

Lemma removeoutliers_convex skew x maxiter target fuel m :
  removeoutliers fuel skew x maxiter target = Some m ->
  (Z.to_nat maxiter + 1 <= fuel)%nat ->
  forall i j l a b c, kept m i -> kept m l -> nth_error x i = Some (Fin a) -> nth_error x j = Some (Fin b) ->
    nth_error x l = Some (Fin c) -> a <= b <= c -> kept m j.
Proof.
  intros Em Hf. destruct (removeoutliers_spec skew x maxiter target fuel Hf) as [k [m' [E [L H]]]].
  rewrite E in Em. injection Em as ->.
  assert (H0 : forall i j l a b c, kept (noninf x) i -> kept (noninf x) l -> nth_error x i = Some (Fin a) ->
     nth_error x j = Some (Fin b) -> nth_error x l = Some (Fin c) -> a <= b <= c -> kept (noninf x) j).
  { intros i j l a b c _ _ _ Hb _ _. apply noninf_kept. exists (Fin b). split; [assumption|congruence]. }
  destruct (existsb is_bad x); [subst; exact H0|]. destruct H as [H _].
  exact (rounds_convex _ _ _ _ _ _ H H0).
Qed.

(** Everything is rejected when the median is also the smallest entry. *)
Lemma rejects_all : forall flat,
  exists m, removeoutliers 22 (skew_biased flat) (map Fin [1; 1; 1; 5]) 20 (5 / 100) = Some m /\
  forall i, ~ kept m i.
Proof.
  intros flat.
  assert (Hm : lmean [1; 1; 1; 5] = 2) by (unfold lmean, lsum; simpl; lra).
  assert (H2 : moment 2 [1; 1; 1; 5] = 3).
  { unfold moment. rewrite Hm. unfold lmean, lsum; simpl; lra. }
  assert (H3 : moment 3 [1; 1; 1; 5] = 6).
  { unfold moment. rewrite Hm. unfold lmean, lsum; simpl; lra. }
  assert (Hmed : median [1; 1; 1; 5] = 1).
  { unfold median, sort. cbn [fold_right].
    assert (E1 : insert 5 [] = [5]) by reflexivity. rewrite E1.
    cbn [insert]. rewrite Rleb_true by lra. cbn [insert]. rewrite Rleb_true by lra. cbn [insert].
    rewrite Rleb_true by lra. simpl. lra. }
  exists [false; false; false; false]. split.
  - unfold removeoutliers. cbn [map existsb is_bad orb negb is_pinf].
    cbn [ro_loop].
    assert (T : too_skew (skew_biased flat) (5/100) [Fin 1; Fin 1; Fin 1; Fin 5] [true; true; true; true] = true).
    { unfold too_skew, selected. cbn [mask_select finites flat_map app]. unfold skew_biased.
      rewrite H2, H3, Reqb_false by lra. apply Rltb_true.
      assert (sqrt 3 <= 2). { rewrite <- (sqrt_square 2) by lra. apply sqrt_le_1_alt. lra. }
      assert (0 < sqrt 3) by (apply sqrt_lt_R0; lra).
      apply Rmult_lt_reg_r with (3 * sqrt 3); [lra|]. replace (6 / (3 * sqrt 3) * (3 * sqrt 3)) with 6 by (field; lra). lra. }
    rewrite T.
    assert (Rd : ro_round [Fin 1; Fin 1; Fin 1; Fin 5] [true; true; true; true] = [false; false; false; false]).
    { unfold ro_round, selected. cbn [mask_select finites flat_map app].
      rewrite Hmed. cbn [existsb is_pinf orb].
      assert (Hmin : listmin (map (fun r => r - 1) [1; 1; 1; 5]) = 0).
      { cbn [map listmin fold_left]. unfold Rmin. repeat destruct Rle_dec; lra. }
      rewrite Hmin. rewrite Rabs_R0.
      assert (Hd : Rmin 0 (Rabs (listmax (map (fun r => r - 1) [1; 1; 1; 5]))) = 0).
      { apply Rmin_left. apply Rabs_pos. }
      rewrite Hd. cbn [combine map fst snd andb].
      rewrite !Rltb_false by apply Rabs_pos. reflexivity. }
    rewrite Rd. cbn [Z.gtb Z.compare Pos.compare Pos.compare_cont]. reflexivity.
  - intros i. unfold kept. do 4 (destruct i as [|i]; [discriminate|]). destruct i; discriminate.
Qed.
