(** * Proofs about the constrained minimum search *)
From Coq Require Import Sorted.
From Verif Require Import Base ListLemmas UtilsModel UtilsProofs1 WindowModel WindowSpec.
Local Open Scope Z_scope.

Lemma Rltb_spec x y : reflect (x < y)%R (Rltb x y).
Proof. unfold Rltb. destruct (Rlt_dec x y); now constructor. Qed.

Lemma argmin_from_spec l : forall pre best bv,
  (best < length pre)%nat -> nth best pre 0%R = bv ->
  (forall i, (i < length pre)%nat -> (bv <= nth i pre 0)%R /\ ((i < best)%nat -> (bv < nth i pre 0)%R)) ->
  let b := argmin_from (length pre) best bv l in
  let all := pre ++ l in
  (b < length all)%nat /\
  forall i, (i < length all)%nat ->
    (nth b all 0 <= nth i all 0)%R /\ ((i < b)%nat -> (nth b all 0 < nth i all 0)%R).
Proof.
  induction l as [|v l IH]; intros pre best bv Hb Hv Hm; cbn zeta.
  - simpl. rewrite app_nil_r, Hv. split; [exact Hb|]. exact Hm.
  - cbn [argmin_from].
    assert (E : pre ++ v :: l = (pre ++ [v]) ++ l) by now rewrite <- app_assoc.
    assert (EL : S (length pre) = length (pre ++ [v])) by (rewrite app_length; simpl; lia).
    rewrite E, EL.
    destruct (Rltb_spec v bv) as [H|H].
    + apply IH.
      * rewrite app_length; simpl; lia.
      * rewrite app_nth2, Nat.sub_diag by lia. reflexivity.
      * intros i Hi. rewrite app_length in Hi. simpl in Hi.
        destruct (Nat.eq_dec i (length pre)) as [->|Hne].
        -- rewrite app_nth2, Nat.sub_diag by lia. simpl. split; [lra|lia].
        -- rewrite app_nth1 by lia. destruct (Hm i ltac:(lia)) as [H1 _]. split; intros; lra.
    + apply IH.
      * rewrite app_length; simpl; lia.
      * now rewrite app_nth1 by lia.
      * intros i Hi. rewrite app_length in Hi. simpl in Hi.
        destruct (Nat.eq_dec i (length pre)) as [->|Hne].
        -- rewrite app_nth2, Nat.sub_diag by lia. simpl. split; [lra|lia].
        -- rewrite app_nth1 by lia. exact (Hm i ltac:(lia)).
Qed.

Lemma argmin_spec l b : argmin l = Ok b ->
  (b < length l)%nat /\
  forall i, (i < length l)%nat ->
    (nth b l 0 <= nth i l 0)%R /\ ((i < b)%nat -> (nth b l 0 < nth i l 0)%R).
Proof.
  destruct l as [|v l]; [discriminate|]. intros H. injection H as <-.
  apply (argmin_from_spec l [v] 0%nat v).
  - simpl; lia.
  - reflexivity.
  - intros i Hi. simpl in Hi. assert (i = 0)%nat by lia. subst. simpl. split; [lra|lia].
Qed.

Lemma argmin_ok l : l <> [] -> exists b, argmin l = Ok b.
Proof. destruct l; [congruence|]. intros _. eexists. reflexivity. Qed.

Lemma pyindex_in {A} (l : list A) i d : 0 <= i < Z.of_nat (length l) ->
  pyindex l i = Ok (nth (Z.to_nat i) l d).
Proof.
  intros H. unfold pyindex. destruct (Z.ltb_spec i 0); [lia|].
  destruct (Z.ltb_spec i 0); [lia|].
  rewrite (nth_error_nth_eq _ _ d) by lia. reflexivity.
Qed.

Lemma take_in {A} (a : list A) d inds :
  (forall i, In i inds -> 0 <= i < Z.of_nat (length a)) ->
  take a inds = Ok (map (fun i => nth (Z.to_nat i) a d) inds).
Proof.
  induction inds as [|i inds IH]; intros H; [reflexivity|]. cbn [take].
  rewrite (pyindex_in _ _ d) by (apply H; now left). cbn [bind].
  rewrite IH by (intros j Hj; apply H; now right). reflexivity.
Qed.

Lemma sorted_lt_nth l : StronglySorted Z.lt l ->
  forall i j, (i < j < length l)%nat -> nth i l 0 < nth j l 0.
Proof.
  induction 1 as [|x l Hs IH Hx]; intros i j Hij; simpl in Hij; [lia|].
  destruct j as [|j]; [lia|]. destruct i as [|i]; simpl.
  - rewrite Forall_forall in Hx. apply Hx, nth_In. lia.
  - apply IH. lia.
Qed.

Lemma best_of_spec chi2 inds :
  StronglySorted Z.lt inds ->
  (forall i, In i inds -> 0 <= i < Z.of_nat (length chi2)) ->
  (inds = [] /\ best_of chi2 inds = Ok None) \/
  (exists j, best_of chi2 inds = Ok (Some j) /\
     first_minimum (fun i => nth (Z.to_nat i) chi2 0%R) (fun i => In i inds) j).
Proof.
  intros Hs Hr. destruct inds as [|i0 inds0] eqn:E; [left; now split|]. right.
  rewrite <- E in *. assert (Hne : inds <> []) by congruence.
  assert (Eb : best_of chi2 inds =
    do vals <- take chi2 inds; do b <- argmin vals; do i <- pyindex inds (Z.of_nat b); Ok (Some i))
    by (rewrite E; reflexivity).
  rewrite (take_in _ 0%R) in Eb by exact Hr. cbn [bind] in Eb.
  set (vals := map _ inds) in *.
  destruct (argmin_ok vals) as [b Hb]; [subst vals; rewrite E; simpl; congruence|].
  rewrite Hb in Eb. cbn [bind] in Eb.
  destruct (argmin_spec _ _ Hb) as [Hlt Hmin].
  assert (EL : length vals = length inds) by (subst vals; apply map_length).
  rewrite (pyindex_in _ _ 0) in Eb by lia. rewrite Nat2Z.id in Eb. cbn [bind] in Eb.
  exists (nth b inds 0). split; [exact Eb|].
  assert (EV : forall k, (k < length inds)%nat ->
    nth k vals 0%R = nth (Z.to_nat (nth k inds 0)) chi2 0%R).
  { intros k Hk. subst vals.
    rewrite (nth_indep _ 0%R (nth (Z.to_nat 0) chi2 0%R)) by lia.
    exact (map_nth (fun i => nth (Z.to_nat i) chi2 0%R) inds 0 k). }
  split; [apply nth_In; lia|].
  intros i Hi. destruct (In_nth _ _ 0 Hi) as [k [Hk Ek]]. subst i.
  destruct (Hmin k ltac:(lia)) as [H1 H2]. rewrite !EV in H1, H2 by lia.
  split; [exact H1|]. intros Hl. apply H2.
  destruct (Nat.lt_trichotomy k b) as [Hc|[Hc|Hc]]; [exact Hc| |].
  - subst. lia.
  - assert (Hq := sorted_lt_nth _ Hs b k ltac:(lia)). lia.
Qed.

Lemma zrange_sorted lo n : StronglySorted Z.lt (zrange lo n).
Proof.
  revert lo. induction n as [|n IH]; intros lo; simpl; constructor; [apply IH|].
  apply Forall_forall. intros x Hx. apply zrange_In in Hx. lia.
Qed.

Lemma arangeZ_In lo hi x : In x (arangeZ lo hi) <-> lo <= x < hi.
Proof. unfold arangeZ. rewrite zrange_In. lia. Qed.

Lemma filter_sorted f l : StronglySorted Z.lt l -> StronglySorted Z.lt (filter f l).
Proof.
  induction 1 as [|x l Hs IH Hx]; simpl; [constructor|].
  destruct (f x); [|exact IH]. constructor; [exact IH|].
  rewrite Forall_forall in *. intros y Hy. apply filter_In in Hy. now apply Hx.
Qed.

Lemma app_sorted a b : StronglySorted Z.lt a -> StronglySorted Z.lt b ->
  (forall x y, In x a -> In y b -> x < y) -> StronglySorted Z.lt (a ++ b).
Proof.
  induction 1 as [|x a Hs IH Hx]; intros Hb Hab; simpl; [exact Hb|].
  constructor.
  - apply IH; [exact Hb|]. intros; apply Hab; [now right|assumption].
  - rewrite Forall_forall in *. intros y Hy. apply in_app_or in Hy as [Hy|Hy]; [now apply Hx|].
    apply Hab; [now left|assumption].
Qed.

Lemma map_sorted f l : (forall x y, In x l -> In y l -> x < y -> f x < f y) ->
  StronglySorted Z.lt l -> StronglySorted Z.lt (map f l).
Proof.
  intros Hf Hs. induction Hs as [|x l Hs IH Hx]; simpl; [constructor|]. constructor.
  - apply IH. intros; apply Hf; [now right|now right|assumption].
  - rewrite Forall_forall in *. intros y Hy. apply in_map_iff in Hy as [z [<- Hz]].
    apply Hf; [now left|now right|now apply Hx].
Qed.

Lemma window_arith n nc wc : 0 < n -> 0 < nc <= n -> valid_center n wc ->
  let s := n / 2 - nc / 2 + wc in
  let e := (- n) / 2 + nc / 2 + nc mod 2 + wc in
  s < n /\ 0 <= e + n /\ e + n = s + nc /\ s <= e + n.
Proof.
  intros Hn Hnc Hv s e. unfold valid_center in Hv.
  assert (H1 := Z.div_mod n 2 ltac:(lia)). assert (H1' := Z.mod_pos_bound n 2 ltac:(lia)).
  assert (H2 := Z.div_mod nc 2 ltac:(lia)). assert (H2' := Z.mod_pos_bound nc 2 ltac:(lia)).
  assert (H3 := Z.div_mod (-n) 2 ltac:(lia)). assert (H3' := Z.mod_pos_bound (-n) 2 ltac:(lia)).
  subst s e. lia.
Qed.

Lemma window_inds_spec n nc wc outside : 0 < n -> 0 < nc <= n -> valid_center n wc ->
  StronglySorted Z.lt (window_inds n nc wc outside) /\
  forall j, In j (window_inds n nc wc outside) <->
    0 <= j < n /\ (if outside then ~ in_window n nc wc j else in_window n nc wc j).
Proof.
  intros Hn Hnc Hv. destruct (window_arith n nc wc Hn Hnc Hv) as (A1 & A2 & A3 & A4).
  unfold window_inds, in_window. rewrite Z.min_l by lia.
  assert (Hmod := Z.div_mod nc 2 ltac:(lia)).
  assert (Hmodb := Z.mod_pos_bound nc 2 ltac:(lia)).
  unfold valid_center in Hv.
  destruct outside.
  - set (s := n / 2 - nc / 2 + wc) in *.
    set (e := (- n) / 2 + nc / 2 + nc mod 2 + wc) in *. clearbody e.
    rewrite map_app.
    assert (M1 : map (fun i => if i <? 0 then i + n else i) (arangeZ 0 s) = arangeZ 0 s).
    { rewrite <- (map_id (arangeZ 0 s)) at 2. apply map_ext_in. intros x Hx.
      apply arangeZ_In in Hx. destruct (Z.ltb_spec x 0); lia. }
    rewrite M1. split.
    + apply app_sorted.
      * apply zrange_sorted.
      * apply map_sorted; [|apply zrange_sorted]. intros x y Hx Hy Hxy.
        apply arangeZ_In in Hx, Hy. destruct (Z.ltb_spec x 0), (Z.ltb_spec y 0); lia.
      * intros x y Hx Hy. apply arangeZ_In in Hx. apply in_map_iff in Hy as [z [<- Hz]].
        apply arangeZ_In in Hz. destruct (Z.ltb_spec z 0); lia.
    + intros j. rewrite in_app_iff, arangeZ_In, in_map_iff. split.
      * intros [H|[z [Ez Hz]]]; [lia|].
        apply arangeZ_In in Hz. destruct (Z.ltb_spec z 0); lia.
      * intros [H1 H2]. destruct (Z_lt_dec j s) as [H|H]; [left; lia|]. right.
        exists (j - n). split.
        -- destruct (Z.ltb_spec (j - n) 0); lia.
        -- apply arangeZ_In. lia.
  - split; [apply filter_sorted, zrange_sorted|].
    intros j. rewrite filter_In, arangeZ_In, andb_true_iff, Z.leb_le, Z.ltb_lt. lia.
Qed.

Lemma mask_select_map (p : Z -> bool) l : mask_select (map p l) l = filter p l.
Proof. induction l as [|x l IH]; simpl; [reflexivity|]. rewrite IH. reflexivity. Qed.

Lemma flatnonzero_filter m :
  flatnonzero m = filter (fun i => nth (Z.to_nat i) m false) (zrange 0 (length m)).
Proof.
  unfold flatnonzero. rewrite <- mask_select_map. f_equal.
  apply nth_ext with (d := false) (d' := false).
  - rewrite map_length. clear. generalize 0 at 1. induction m; intros z; simpl; [reflexivity|].
    now rewrite <- IHm.
  - intros k Hk.
    assert (EZ : forall n lo k d, (k < n)%nat -> nth k (zrange lo n) d = lo + Z.of_nat k).
    { clear. induction n as [|n IH]; intros lo k d Hk; [lia|]. simpl.
      destruct k as [|k]; [lia|]. rewrite IH by lia. lia. }
    assert (EL : forall n lo, length (zrange lo n) = n)
      by (clear; induction n; intros; simpl; auto).
    rewrite (nth_indep (map _ _) false (nth (Z.to_nat 0) m false)) by (rewrite map_length, EL; exact Hk).
    rewrite (map_nth (fun i => nth (Z.to_nat i) m false)). rewrite EZ by exact Hk.
    f_equal. lia.
Qed.

Lemma mask_true_nth m j : mask_true m j <-> nth (Z.to_nat j) m false = true.
Proof.
  unfold mask_true. split; intros H.
  - now apply nth_error_nth with (d := false) in H.
  - rewrite <- H. apply nth_error_nth'.
    destruct (Nat.lt_ge_cases (Z.to_nat j) (length m)); [assumption|].
    rewrite nth_overflow in H by assumption. discriminate.
Qed.

Lemma first_minimum_ext f P Q j : (forall i, P i <-> Q i) ->
  first_minimum f P j -> first_minimum f Q j.
Proof.
  intros H [H1 H2]. split; [now apply H|]. intros i Hi. apply H2. now apply H.
Qed.

Lemma best_of_result chi2 inds P :
  StronglySorted Z.lt inds -> (forall j, In j inds <-> P j) ->
  (forall j, P j -> 0 <= j < Z.of_nat (length chi2)) ->
  search_result chi2 P (best_of chi2 inds).
Proof.
  intros Hs HP Hr. destruct (best_of_spec chi2 inds Hs) as [[E1 E2]|[j [E1 E2]]].
  - intros i Hi. apply Hr, HP, Hi.
  - rewrite E2. simpl. intros j Hj. apply HP in Hj. rewrite E1 in Hj. exact Hj.
  - rewrite E1. simpl. eapply first_minimum_ext; [exact HP|exact E2].
Qed.

Lemma center_iff n wc : 0 <= n ->
  ((- (n / 2) <=? wc) && (wc <=? n / 2 - (n + 1) mod 2) = true <-> valid_center n wc).
Proof.
  intros Hn. rewrite andb_true_iff, !Z.leb_le. unfold valid_center.
  assert (H1 := Z.div_mod n 2 ltac:(lia)). assert (H1' := Z.mod_pos_bound n 2 ltac:(lia)).
  assert (H3 := Z.div_mod (n+1) 2 ltac:(lia)). assert (H3' := Z.mod_pos_bound (n+1) 2 ltac:(lia)).
  lia.
Qed.

Lemma argmin_chi2_error chi2 nc outside m wc :
  (forall l, m = Some l -> length l = length chi2) ->
  (~ valid_center (Z.of_nat (length chi2)) wc \/ exists k, nc = Some k /\ k <= 0) ->
  argmin_chi2 chi2 nc outside m wc = Err ValueError.
Proof.
  intros Hm H. unfold argmin_chi2.
  set (n := Z.of_nat (length chi2)) in *.
  destruct ((- (n / 2) <=? wc) && (wc <=? n / 2 - (n + 1) mod 2)) eqn:E; simpl; [|reflexivity].
  apply center_iff in E; [|lia]. destruct H as [H|[k [-> Hk]]]; [contradiction|].
  unfold valid_center in E.
  destruct (Z.gtb_spec k n); [lia|]. destruct (Z.leb_spec k 0); [reflexivity|lia].
Qed.

Lemma argmin_chi2_result chi2 nc outside m wc :
  (forall l, m = Some l -> length l = length chi2) ->
  valid_center (Z.of_nat (length chi2)) wc ->
  (forall k, nc = Some k -> 0 < k) ->
  search_result chi2 (allowed (Z.of_nat (length chi2)) nc outside (mask_prop m) wc)
    (argmin_chi2 chi2 nc outside m wc).
Proof.
  intros Hm Hv Hnc. unfold argmin_chi2.
  set (n := Z.of_nat (length chi2)) in *.
  destruct ((- (n / 2) <=? wc) && (wc <=? n / 2 - (n + 1) mod 2)) eqn:E;
    [|apply center_iff in Hv; [congruence|lia]].
  clear E. cbn [negb]. assert (Hn : 0 < n) by (unfold valid_center in Hv; lia).
  destruct nc as [k|].
  - specialize (Hnc k eq_refl).
    assert (Ek : (if k >? n then Ok n else if k <=? 0 then Err ValueError else Ok k) = Ok (Z.min k n)).
    { destruct (Z.gtb_spec k n); [f_equal; lia|]. destruct (Z.leb_spec k 0); [lia|]. f_equal; lia. }
    rewrite Ek. cbn [bind]. clear Ek.
    destruct (window_inds_spec n (Z.min k n) wc outside Hn ltac:(lia) Hv) as [Hs Hi].
    assert (Hi' : forall j, In j (window_inds n (Z.min k n) wc outside) <->
      0 <= j < n /\ (if outside then ~ in_window n k wc j else in_window n k wc j)).
    { intros j. rewrite Hi. unfold in_window. replace (Z.min (Z.min k n) n) with (Z.min k n) by lia.
      reflexivity. }
    set (inds := window_inds n (Z.min k n) wc outside) in *.
    destruct m as [m|].
    + specialize (Hm m eq_refl).
      rewrite (take_in _ false) by (intros i H; apply Hi in H; rewrite Hm; fold n; tauto).
      cbn [bind]. rewrite mask_select_map. apply best_of_result.
      * now apply filter_sorted.
      * intros j. rewrite filter_In, Hi'. unfold allowed, mask_prop. rewrite mask_true_nth. tauto.
      * intros j Hj. unfold allowed in Hj. tauto.
    + cbn [bind]. apply best_of_result; [exact Hs| |].
      * intros j. rewrite Hi'. unfold allowed, mask_prop. tauto.
      * intros j Hj. unfold allowed in Hj. tauto.
  - destruct m as [m|].
    + specialize (Hm m eq_refl). rewrite flatnonzero_filter. apply best_of_result.
      * apply filter_sorted, zrange_sorted.
      * intros j. rewrite filter_In, zrange_In. unfold allowed, mask_prop. rewrite mask_true_nth.
        rewrite Hm. fold n. rewrite Z.add_0_l. tauto.
      * intros j Hj. unfold allowed in Hj. tauto.
    + destruct (argmin_ok chi2) as [b Hb].
      { intros ->. simpl in n. lia. }
      rewrite Hb. cbn [bind search_result]. destruct (argmin_spec _ _ Hb) as [H1 H2].
      split.
      * unfold allowed, mask_prop. split; [lia|tauto].
      * intros i Hi. unfold allowed in Hi. destruct (H2 (Z.to_nat i) ltac:(lia)) as [G1 G2].
        rewrite Nat2Z.id. split; [exact G1|]. intros; apply G2. lia.
Qed.

Lemma direction_mask_spec amps dir :
  match direction_mask amps dir with
  | Err e => e = ValueError /\ dir <> -1 /\ dir <> 0 /\ dir <> 1
  | Ok None => dir = 0
  | Ok (Some m) => (dir = 1 \/ dir = -1) /\ length m = length amps /\
      forall j, mask_true m j <->
        exists a, nth_error amps (Z.to_nat j) = Some a /\ ((dir = 1 /\ (0 < a)%R) \/ (dir = -1 /\ (a < 0)%R))
  end.
Proof.
  unfold direction_mask.
  destruct (Z.eqb_spec dir (-1)) as [E1|E1]; destruct (Z.eqb_spec dir 0) as [E2|E2];
    destruct (Z.eqb_spec dir 1) as [E3|E3]; simpl; try lia; try exact E2; auto.
  - split; [now right|]. split; [apply map_length|]. intros j. unfold mask_true.
    rewrite nth_error_map. destruct (nth_error amps (Z.to_nat j)) as [a|]; simpl.
    + subst dir. destruct (Rltb_spec 0 (-1 * a)) as [H|H]; split; intros G.
      * exists a. split; [reflexivity|]. right. split; [reflexivity|lra].
      * reflexivity.
      * discriminate.
      * destruct G as [a' [Ea [[G _]|[_ G]]]]; [discriminate|]. injection Ea as ->. lra.
    + split; [discriminate|]. intros [a [H _]]. discriminate.
  - split; [now left|]. split; [apply map_length|]. intros j. unfold mask_true.
    rewrite nth_error_map. destruct (nth_error amps (Z.to_nat j)) as [a|]; simpl.
    + subst dir. destruct (Rltb_spec 0 (1 * a)) as [H|H]; split; intros G.
      * exists a. split; [reflexivity|]. left. split; [reflexivity|lra].
      * reflexivity.
      * discriminate.
      * destruct G as [a' [Ea [[_ G]|[G _]]]]; [|discriminate]. injection Ea as ->. lra.
    + split; [discriminate|]. intros [a [H _]]. discriminate.
Qed.

Lemma arangeZ_nonneg lo hi x : 0 <= lo -> In x (arangeZ lo hi) -> 0 <= x.
Proof. rewrite arangeZ_In. lia. Qed.

Lemma mask_select_In {A} m (l : list A) x : In x (mask_select m l) -> In x l.
Proof.
  revert l. induction m as [|b m IH]; intros l H; simpl in H.
  - destruct l; contradiction.
  - destruct l as [|y l]; [contradiction|]. destruct b.
    + destruct H as [->|H]; [now left|right; now apply IH].
    + right. now apply IH.
Qed.

Lemma best_of_In chi2 inds j : best_of chi2 inds = Ok (Some j) ->
  (forall i, In i inds -> 0 <= i) -> 0 <= j.
Proof.
  intros H Hi. unfold best_of in H. destruct inds as [|i0 inds0] eqn:E; [discriminate|].
  rewrite <- E in *.
  destruct (take chi2 inds); [|discriminate]. cbn [bind] in H.
  destruct (argmin a) as [b|]; [|discriminate]. cbn [bind] in H.
  unfold pyindex in H. destruct (Z.ltb_spec (Z.of_nat b) 0); [lia|].
  destruct (Z.ltb_spec (Z.of_nat b) 0); [lia|].
  destruct (nth_error inds (Z.to_nat (Z.of_nat b))) eqn:En; [|discriminate].
  cbn [bind] in H. injection H as <-. apply Hi. now apply nth_error_In in En.
Qed.

Lemma window_inds_nonneg n nc wc out j : 0 <= n -> 0 < nc <= n -> valid_center n wc ->
  In j (window_inds n nc wc out) -> 0 <= j.
Proof.
  intros H1 H2 H3 H. apply window_inds_spec in H; [lia|lia|exact H2|exact H3].
Qed.

Lemma argmin_chi2_nonneg chi2 nc out m wc j :
  argmin_chi2 chi2 nc out m wc = Ok (Some j) -> 0 <= j.
Proof.
  unfold argmin_chi2. set (n := Z.of_nat (length chi2)).
  destruct ((- (n / 2) <=? wc) && (wc <=? n / 2 - (n + 1) mod 2)) eqn:E; [|discriminate].
  apply center_iff in E; [|lia]. cbn [negb].
  assert (Hn : 0 < n) by (unfold valid_center in E; lia).
  destruct nc as [k|].
  - destruct (Z.gtb_spec k n) as [Hk|Hk]; [|destruct (Z.leb_spec k 0) as [Hk'|Hk']; [discriminate|]];
      cbn [bind]; intros H.
    + destruct m as [m|]; cbn [bind] in H.
      * destruct (take m (window_inds n n wc out)) as [sel|]; [|discriminate]. cbn [bind] in H.
        apply best_of_In in H; [exact H|]. intros i Hi. apply mask_select_In in Hi.
        apply window_inds_nonneg in Hi; try assumption; lia.
      * apply best_of_In in H; [exact H|]. intros i Hi.
        apply window_inds_nonneg in Hi; try assumption; lia.
    + destruct m as [m|]; cbn [bind] in H.
      * destruct (take m (window_inds n k wc out)) as [sel|]; [|discriminate]. cbn [bind] in H.
        apply best_of_In in H; [exact H|]. intros i Hi. apply mask_select_In in Hi.
        apply window_inds_nonneg in Hi; try assumption; lia.
      * apply best_of_In in H; [exact H|]. intros i Hi.
        apply window_inds_nonneg in Hi; try assumption; lia.
  - destruct m as [m|]; intros H.
    + apply best_of_In in H; [exact H|]. intros i Hi. apply mask_select_In in Hi.
      apply zrange_In in Hi. lia.
    + destruct (argmin chi2); [|discriminate]. cbn [bind] in H. injection H as <-. lia.
Qed.
