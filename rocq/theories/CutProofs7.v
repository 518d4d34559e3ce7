(** * Outlier removal: units and order of the data *)
From Coq Require Import String Permutation Sorted.
From Verif Require Import Base ListLemmas UtilsModel CutModel CutSpec CutProofs1 CutProofs2.
Local Open Scope R_scope.

(** ** order *)
Lemma perm_lsum l l' : Permutation l l' -> lsum l = lsum l'.
Proof. induction 1; simpl; lra. Qed.
Lemma perm_lmean l l' : Permutation l l' -> lmean l = lmean l'.
Proof. intros H. unfold lmean. now rewrite (perm_lsum _ _ H), (Permutation_length H). Qed.
Lemma perm_moment k l l' : Permutation l l' -> moment k l = moment k l'.
Proof. intros H. unfold moment. rewrite (perm_lmean _ _ H). apply perm_lmean, Permutation_map, H. Qed.
Lemma perm_lvar l l' : Permutation l l' -> lvar l = lvar l'.
Proof. intros H. unfold lvar. rewrite (perm_lmean _ _ H). cbv zeta. rewrite (perm_lsum _ _ (Permutation_map _ H)), (Permutation_length H). reflexivity. Qed.
Lemma perm_lstd l l' : Permutation l l' -> lstd l = lstd l'.
Proof. intros H. unfold lstd. now rewrite (perm_lvar _ _ H). Qed.

Lemma skew_biased_order flat : order_free (skew_biased flat).
Proof.
  intros l l' H. unfold skew_biased. rewrite !(perm_moment _ _ _ H).
  destruct l, l'; try reflexivity; [apply Permutation_nil in H; discriminate|apply Permutation_sym, Permutation_nil in H; discriminate].
Qed.

Lemma sorted_unique : forall l l', StronglySorted Rle l -> StronglySorted Rle l' -> Permutation l l' -> l = l'.
Proof.
  induction l as [|a l IH]; intros l' S S' P; [symmetry; now apply Permutation_nil|].
  destruct l' as [|b l']; [apply Permutation_sym, Permutation_nil in P; discriminate|].
  inversion S as [|? ? S1 F1]; subst. inversion S' as [|? ? S2 F2]; subst. rewrite Forall_forall in F1, F2.
  assert (a = b) as ->.
  { assert (In a (b :: l')) as [E|E] by (apply (Permutation_in _ P); now left); [now symmetry|].
    assert (In b (a :: l)) as [E'|E'] by (apply (Permutation_in _ (Permutation_sym P)); now left); [assumption|].
    specialize (F1 b E'). specialize (F2 a E). lra. }
  f_equal. apply IH; try assumption. now apply Permutation_cons_inv in P.
Qed.

Lemma perm_median l l' : Permutation l l' -> median l = median l'.
Proof.
  intros H. assert (E : sort l = sort l').
  { apply sorted_unique; try apply sort_sorted. rewrite <- (sort_perm l), <- (sort_perm l'). exact H. }
  unfold median. now rewrite E, (Permutation_length H).
Qed.

Lemma perm_listmin l l' : Permutation l l' -> listmin l = listmin l'.
Proof.
  intros H. destruct l as [|a l]; [apply Permutation_nil in H; now subst|].
  assert (N : l' <> []) by (intros ->; apply Permutation_sym, Permutation_nil in H; discriminate).
  destruct (listmin_spec (a :: l) ltac:(discriminate)) as [A1 A2]. destruct (listmin_spec l' N) as [B1 B2].
  apply Rle_antisym; [apply A2, (Permutation_in _ (Permutation_sym H)), B1|apply B2, (Permutation_in _ H), A1].
Qed.
Lemma perm_listmax l l' : Permutation l l' -> listmax l = listmax l'.
Proof.
  intros H. destruct l as [|a l]; [apply Permutation_nil in H; now subst|].
  assert (N : l' <> []) by (intros ->; apply Permutation_sym, Permutation_nil in H; discriminate).
  destruct (listmax_spec (a :: l) ltac:(discriminate)) as [A1 A2]. destruct (listmax_spec l' N) as [B1 B2].
  apply Rle_antisym; [apply B2, (Permutation_in _ H), A1|apply A2, (Permutation_in _ (Permutation_sym H)), B1].
Qed.

Lemma perm_existsb {A} (f : A -> bool) l l' : Permutation l l' -> existsb f l = existsb f l'.
Proof. induction 1; simpl; [reflexivity|congruence|destruct (f x), (f y); reflexivity|congruence]. Qed.
Lemma perm_filter {A} (f : A -> bool) l l' : Permutation l l' -> Permutation (filter f l) (filter f l').
Proof.
  induction 1; simpl; [constructor|destruct (f x); [now constructor|assumption]| |now apply Permutation_trans with (filter f l')].
  destruct (f x), (f y); try apply Permutation_refl. constructor.
Qed.
Lemma perm_finites x y : Permutation x y -> Permutation (finites x) (finites y).
Proof. intros H. unfold finites. now apply Permutation_flat_map. Qed.

Lemma select_keep {A} (f : A -> bool) l : mask_select (map f l) l = filter f l.
Proof. induction l as [|a l IH]; [reflexivity|]. simpl. now rewrite IH. Qed.
Lemma combine_keep {A B} (f : A -> B) l : combine (map f l) l = map (fun v => (f v, v)) l.
Proof. induction l as [|a l IH]; [reflexivity|]. simpl. now rewrite IH. Qed.
Lemma count_keep {A} (f : A -> bool) l : count_true (map f l) = length (filter f l).
Proof. unfold count_true. induction l as [|a l IH]; [reflexivity|]. simpl. destruct (f a); simpl; now rewrite IH. Qed.

Lemma too_skew_order skew target keep x y : order_free skew -> Permutation x y ->
  too_skew skew target y (map keep y) = too_skew skew target x (map keep x).
Proof.
  intros Hs H. unfold too_skew, selected. rewrite !select_keep.
  assert (P := perm_finites _ _ (perm_filter keep _ _ H)).
  destruct (finites (filter keep x)), (finites (filter keep y)); [reflexivity| | |now rewrite (Hs _ _ P)];
    [apply Permutation_nil in P; discriminate|apply Permutation_sym, Permutation_nil in P; discriminate].
Qed.

Lemma ro_round_order keep x : exists keep', forall y, Permutation x y -> ro_round y (map keep y) = map keep' y.
Proof.
  eexists. intros y H. unfold ro_round. rewrite combine_keep, map_map. cbn [fst snd].
  unfold selected. rewrite select_keep.
  rewrite <- (perm_median _ _ (perm_finites _ _ (perm_filter keep _ _ H))).
  rewrite <- (perm_listmin _ _ (Permutation_map _ (perm_finites _ _ H))), <- (perm_listmax _ _ (Permutation_map _ (perm_finites _ _ H))).
  rewrite <- (perm_existsb is_pinf _ _ H). reflexivity.
Qed.

Lemma ro_loop_order skew target maxiter x : order_free skew -> forall fuel i keep,
  (exists keep', forall y, Permutation x y -> ro_loop fuel skew target maxiter i y (map keep y) = Some (map keep' y)) \/
  (forall y, Permutation x y -> ro_loop fuel skew target maxiter i y (map keep y) = None).
Proof.
  intros Hs. induction fuel as [|fuel IH]; intros i keep; [right; reflexivity|]. cbn [ro_loop].
  destruct (ro_round_order keep x) as [k1 R].
  destruct (too_skew skew target x (map keep x)) eqn:Et.
  - destruct (i >? maxiter)%Z eqn:Ei.
    + left. exists k1. intros y H. rewrite (too_skew_order skew target keep x y Hs H), Et. cbv zeta. now rewrite (R y H).
    + destruct (IH (i + 1)%Z k1) as [[k2 G]|G].
      * left. exists k2. intros y H. rewrite (too_skew_order skew target keep x y Hs H), Et. cbv zeta. rewrite (R y H). now apply G.
      * right. intros y H. rewrite (too_skew_order skew target keep x y Hs H), Et. cbv zeta. rewrite (R y H). now apply G.
  - left. exists keep. intros y H. now rewrite (too_skew_order skew target keep x y Hs H), Et.
Qed.

Lemma removeoutliers_order skew x maxiter target fuel : order_free skew -> (Z.to_nat maxiter + 1 <= fuel)%nat ->
  exists keep, forall y, Permutation x y -> removeoutliers fuel skew y maxiter target = Some (map keep y).
Proof.
  intros Hs Hf. unfold removeoutliers.
  destruct (existsb is_bad x) eqn:Eb.
  - eexists. intros y H. rewrite <- (perm_existsb is_bad _ _ H), Eb. reflexivity.
  - destruct (ro_loop_order skew target maxiter x Hs fuel 1 (fun v => negb (is_pinf v))) as [[k G]|G].
    + exists k. intros y H. rewrite <- (perm_existsb is_bad _ _ H), Eb. now apply G.
    + exfalso. destruct (removeoutliers_basic skew x maxiter target fuel Hf) as [m [E _]].
      unfold removeoutliers in E. rewrite Eb in E. cbv zeta in E. rewrite (G x (Permutation_refl x)) in E. discriminate.
Qed.

Lemma iterstat_loop_order data cut cutoff : forall fuel ml sl ns,
  (exists e m s keep, forall y, Permutation data y -> iterstat_loop fuel y cut cutoff ml sl ns = Some (e, m, s, map keep y)) \/
  (forall y, Permutation data y -> iterstat_loop fuel y cut cutoff ml sl ns = None).
Proof.
  induction fuel as [|fuel IH]; intros ml sl ns; [right; reflexivity|]. cbn [iterstat_loop].
  set (keep := fun x => Rltb (Rabs (x - ml)) (cut * sl)).
  assert (Em : forall y, is_mask y cut ml sl = map keep y) by reflexivity.
  assert (Ec : forall y, Permutation data y -> count_true (map keep y) = count_true (map keep data)).
  { intros y H. rewrite !count_keep. symmetry. apply Permutation_length, perm_filter, H. }
  assert (E1 : forall y, Permutation data y -> lmean (mask_select (map keep y) y) = lmean (mask_select (map keep data) data)).
  { intros y H. rewrite !select_keep. symmetry. apply perm_lmean, perm_filter, H. }
  assert (E2 : forall y, Permutation data y -> lstd (mask_select (map keep y) y) = lstd (mask_select (map keep data) data)).
  { intros y H. rewrite !select_keep. symmetry. apply perm_lstd, perm_filter, H. }
  destruct (count_true (map keep data) <=? 1)%nat eqn:E.
  - left. exists true, (lmean data), (lstd data), (fun _ => true). intros y H. cbv zeta.
    rewrite Em, (Ec y H), E, <- (perm_lmean _ _ H), <- (perm_lstd _ _ H). reflexivity.
  - set (m1 := lmean (mask_select (map keep data) data)) in *. set (s1 := lstd (mask_select (map keep data) data)) in *.
    set (ns1 := if (Rltb cutoff (Rabs (m1 - ml)) || Rltb cutoff (Rabs (s1 - sl)))%bool then 0%nat else S ns).
    destruct (3 <=? ns1)%nat eqn:En.
    + left. exists false, m1, s1, keep. intros y H. cbv zeta. rewrite Em, (Ec y H), E, (E1 y H), (E2 y H). fold ns1. now rewrite En.
    + destruct (IH m1 s1 ns1) as [(e & m & s & k & G)|G].
      * left. exists e, m, s, k. intros y H. cbv zeta. rewrite Em, (Ec y H), E, (E1 y H), (E2 y H). fold ns1. rewrite En. now apply G.
      * right. intros y H. cbv zeta. rewrite Em, (Ec y H), E, (E1 y H), (E2 y H). fold ns1. rewrite En. now apply G.
Qed.

Lemma iterstat_order fsolve data cut precision fuel : 0 < precision -> (2 ^ length data + 5 <= fuel)%nat ->
  exists r keep, forall y, Permutation data y -> iterstat fuel fsolve y cut precision false = Some (r, map keep y).
Proof.
  intros Hp Hf. destruct data as [|d ds] eqn:Ed.
  - exists None, (fun _ => true). intros y H. apply Permutation_nil in H. now subst.
  - rewrite <- Ed in *. assert (Hne : forall y, Permutation data y -> iterstat fuel fsolve y cut precision false =
      match iterstat_loop fuel y cut (lstd data / precision) (lmean data) (lstd data) 0 with
      | None => None
      | Some (_, m, s, mask) => Some (Some (m, s), mask)
      end).
    { intros y H. rewrite (perm_lmean _ _ H), (perm_lstd _ _ H). unfold iterstat.
      destruct y as [|v y]; [apply Permutation_sym, Permutation_nil in H; congruence|]. cbv zeta.
      destruct (iterstat_loop _ _ _ _ _ _ _) as [[[[[] ?] ?] ?]|]; reflexivity. }
    destruct (iterstat_loop_order data cut (lstd data / precision) fuel (lmean data) (lstd data) 0) as [(e & m & s & k & G)|G].
    + exists (Some (m, s)), k. intros y H. now rewrite (Hne y H), (G y H).
    + exfalso. destruct (iterstat_terminates fsolve data cut precision false fuel Hp Hf) as [r E].
      rewrite (Hne data (Permutation_refl _)), (G data (Permutation_refl _)) in E. discriminate.
Qed.

(** ** units *)
Definition lin (a b v : R) : R := a * v + b.
Definition xlin (a b : R) (v : xval) : xval := match v with Fin r => Fin (lin a b r) | v => v end.

Lemma lsum_lin a b l : lsum (map (lin a b) l) = a * lsum l + b * INR (length l).
Proof. induction l as [|v l IH]; [simpl; ring|]. cbn [map lsum fold_right]. change (fold_right Rplus 0) with lsum. rewrite IH. cbn [length]. rewrite S_INR. unfold lin. ring. Qed.
Lemma lmean_lin a b l : l <> [] -> lmean (map (lin a b) l) = lin a b (lmean l).
Proof.
  intros H. unfold lmean. rewrite lsum_lin, map_length. unfold lin. field. destruct l; [congruence|]. apply not_0_INR. discriminate.
Qed.
Lemma lmean_scale a l : lmean (map (fun v => a * v) l) = a * lmean l.
Proof.
  unfold lmean. rewrite map_length. replace (lsum (map (fun v => a * v) l)) with (a * lsum l); [unfold Rdiv; ring|].
  induction l as [|v l IH]; simpl; [ring|]. change (fold_right Rplus 0) with lsum. rewrite <- IH. ring.
Qed.
Lemma moment_lin k a b l : l <> [] -> moment k (map (lin a b) l) = a ^ k * moment k l.
Proof.
  intros H. unfold moment. rewrite lmean_lin by assumption. rewrite map_map, <- lmean_scale, map_map. f_equal. apply map_ext.
  intros v. rewrite <- Rpow_mult_distr. f_equal. unfold lin. ring.
Qed.
Lemma moment2_lvar l : lvar l = moment 2 l.
Proof. unfold lvar, moment. unfold lmean at 3. rewrite map_length. cbv zeta. f_equal. f_equal. apply map_ext. intros; ring. Qed.
Lemma lstd_lin a b l : l <> [] -> lstd (map (lin a b) l) = Rabs a * lstd l.
Proof.
  intros H. unfold lstd. rewrite !moment2_lvar, moment_lin by assumption.
  rewrite sqrt_mult_alt by apply pow2_ge_0. f_equal. rewrite <- Rsqr_pow2. apply sqrt_Rsqr_abs.
Qed.

Lemma skew_biased_unit flat : unit_free (skew_biased flat).
Proof.
  intros a b l Ha. change (fun v => a * v + b) with (lin a b). unfold skew_biased.
  destruct (map (lin a b) l) as [|w l'] eqn:E.
  - destruct l; [reflexivity|discriminate].
  - destruct l as [|v l0] eqn:El; [discriminate|]. rewrite <- E, <- El. clear E.
    assert (Hl : l <> []) by (rewrite El; discriminate). rewrite !moment_lin by assumption.
    assert (Ha2 : 0 < a ^ 2) by (apply pow_lt; assumption).
    destruct (Reqb_spec (moment 2 l) 0) as [Z|Z].
    + rewrite Z, Rmult_0_r. rewrite Reqb_true by reflexivity. reflexivity.
    + rewrite Reqb_false by nra. f_equal.
      rewrite sqrt_mult_alt by lra. replace (sqrt (a ^ 2)) with a by (rewrite sqrt_pow2; lra).
      destruct (Req_dec (sqrt (moment 2 l)) 0) as [S0|S0].
      * rewrite S0, !Rmult_0_r. unfold Rdiv. rewrite Rinv_0. ring.
      * field. repeat split; try assumption; lra.
Qed.

Lemma lin_le a b u v : 0 < a -> Rleb (lin a b u) (lin a b v) = Rleb u v.
Proof. intros Ha. unfold lin. destruct (Rleb_spec u v); [apply Rleb_true|apply Rleb_false]; nra. Qed.
Lemma insert_lin a b v l : 0 < a -> insert (lin a b v) (map (lin a b) l) = map (lin a b) (insert v l).
Proof. intros Ha. induction l as [|w l IH]; [reflexivity|]. simpl. rewrite lin_le by assumption. destruct (Rleb v w); simpl; [reflexivity|now rewrite IH]. Qed.
Lemma sort_lin a b l : 0 < a -> sort (map (lin a b) l) = map (lin a b) (sort l).
Proof. intros Ha. induction l as [|v l IH]; [reflexivity|]. cbn [map sort fold_right]. change (fold_right insert []) with sort. rewrite IH. now apply insert_lin. Qed.
Lemma nth_lin a b l i : (i < length l)%nat -> nth i (map (lin a b) l) 0 = lin a b (nth i l 0).
Proof. intros H. rewrite (nth_indep _ 0 (lin a b 0)) by now rewrite map_length. apply map_nth. Qed.
Lemma median_lin a b l : 0 < a -> l <> [] -> median (map (lin a b) l) = lin a b (median l).
Proof.
  intros Ha Hl. unfold median. rewrite sort_lin by assumption. rewrite map_length.
  assert (Ls : length (sort l) = length l) by (symmetry; apply Permutation_length, sort_perm).
  assert (0 < length l)%nat by (destruct l; [congruence|simpl; lia]).
  assert (length l / 2 < length l)%nat by (apply Nat.div_lt; lia).
  cbv zeta. destruct (Nat.even (length l)); rewrite !nth_lin by lia; unfold lin; field || reflexivity.
Qed.
Lemma listmin_scale a l : 0 < a -> listmin (map (fun v => a * v) l) = a * listmin l.
Proof.
  intros Ha. destruct l as [|v l]; [simpl; ring|]. simpl. revert v. induction l as [|w l IH]; intros v; [reflexivity|]. simpl.
  replace (Rmin (a * v) (a * w)) with (a * Rmin v w); [apply IH|]. unfold Rmin; destruct (Rle_dec v w), (Rle_dec (a * v) (a * w)); nra.
Qed.
Lemma listmax_scale a l : 0 < a -> listmax (map (fun v => a * v) l) = a * listmax l.
Proof.
  intros Ha. destruct l as [|v l]; [simpl; ring|]. simpl. revert v. induction l as [|w l IH]; intros v; [reflexivity|]. simpl.
  replace (Rmax (a * v) (a * w)) with (a * Rmax v w); [apply IH|]. unfold Rmax; destruct (Rle_dec v w), (Rle_dec (a * v) (a * w)); nra.
Qed.

Lemma select_map {A B} (f : A -> B) (m : list bool) : forall l, mask_select m (map f l) = map f (mask_select m l).
Proof. induction m as [|[] m IH]; intros [|a l]; simpl; try reflexivity; now rewrite IH. Qed.
Lemma finites_xlin a b x : finites (map (xlin a b) x) = map (lin a b) (finites x).
Proof. unfold finites. induction x as [|[] x IH]; simpl; try rewrite IH; reflexivity. Qed.
Lemma existsb_xlin f a b x : (forall v, f (xlin a b v) = f v) -> existsb f (map (xlin a b) x) = existsb f x.
Proof. intros H. induction x as [|v x IH]; [reflexivity|]. simpl. now rewrite H, IH. Qed.
Lemma xlin_pinf a b v : is_pinf (xlin a b v) = is_pinf v.
Proof. now destruct v. Qed.
Lemma xlin_bad a b v : is_bad (xlin a b v) = is_bad v.
Proof. now destruct v. Qed.

Section Units.
Variables (a b : R).
Hypothesis Ha : 0 < a.
Variable skew : list R -> option R.
Hypothesis Hskew : unit_free skew.

Lemma too_skew_unit target x m : too_skew skew target (map (xlin a b) x) m = too_skew skew target x m.
Proof.
  unfold too_skew, selected. rewrite select_map, finites_xlin. assert (E := Hskew a b (finites (mask_select m x)) Ha).
  change (fun v => a * v + b) with (lin a b) in E. destruct (finites (mask_select m x)); [reflexivity|]. cbn [map] in *. now rewrite E.
Qed.

Lemma ro_round_unit x m : selected x m <> [] -> ro_round (map (xlin a b) x) m = ro_round x m.
Proof.
  intros Hne. unfold ro_round. cbv zeta.
  assert (Es : selected (map (xlin a b) x) m = map (lin a b) (selected x m)) by (unfold selected; now rewrite select_map, finites_xlin).
  rewrite !Es, !finites_xlin, !median_lin by assumption.
  set (med := median (selected x m)). rewrite !(map_map (lin a b) (fun r => r - lin a b med)).
  rewrite (map_ext (fun v => lin a b v - lin a b med) (fun v => a * (v - med))) by (intros; unfold lin; ring).
  rewrite <- (map_map (fun v => v - med) (fun v => a * v)).
  rewrite listmin_scale, listmax_scale by assumption. rewrite !Rabs_mult, (Rabs_right a) by lra.
  rewrite (existsb_xlin is_pinf) by apply xlin_pinf.
  set (lo := Rabs (listmin _)). set (hi := Rabs (listmax _)).
  set (dist := if existsb is_pinf x then lo else Rmin lo hi).
  replace (if existsb is_pinf x then a * lo else Rmin (a * lo) (a * hi)) with (a * dist).
  2:{ unfold dist. destruct (existsb is_pinf x); [reflexivity|]. unfold Rmin. destruct (Rle_dec lo hi), (Rle_dec (a * lo) (a * hi)); nra. }
  clearbody dist. clearbody med. clear Es Hne lo hi. revert m. induction x as [|v x IH]; intros [|c m]; try reflexivity.
  cbn [map combine]. f_equal; [|apply IH]. cbn [fst snd]. destruct v as [r| |]; try reflexivity. cbn [xlin]. f_equal.
  replace (lin a b r - lin a b med) with (a * (r - med)) by (unfold lin; ring). rewrite Rabs_mult, (Rabs_right a) by lra.
  destruct (Rltb_spec (Rabs (r - med)) dist); [apply Rltb_true|apply Rltb_false]; nra.
Qed.

Lemma ro_loop_unit target maxiter x : forall fuel i m,
  ro_loop fuel skew target maxiter i (map (xlin a b) x) m = ro_loop fuel skew target maxiter i x m.
Proof.
  induction fuel as [|fuel IH]; intros i m; [reflexivity|]. cbn [ro_loop]. rewrite too_skew_unit.
  destruct (too_skew skew target x m) eqn:Et; [|reflexivity]. cbv zeta.
  rewrite ro_round_unit. 2:{ intros E. unfold too_skew in Et. rewrite E in Et. discriminate. }
  destruct (i >? maxiter)%Z; [reflexivity|apply IH].
Qed.

Lemma removeoutliers_unit fuel x maxiter target :
  removeoutliers fuel skew (map (xlin a b) x) maxiter target = removeoutliers fuel skew x maxiter target.
Proof.
  unfold removeoutliers. rewrite (existsb_xlin is_bad) by apply xlin_bad. rewrite map_map.
  rewrite (map_ext (fun v => negb (is_pinf (xlin a b v))) (fun v => negb (is_pinf v))) by (intros; now rewrite xlin_pinf).
  destruct (existsb is_bad x); [reflexivity|apply ro_loop_unit].
Qed.
End Units.

Lemma iterstat_loop_unit a b data cut cutoff : a <> 0 -> data <> [] -> forall fuel ml sl ns,
  iterstat_loop fuel (map (lin a b) data) cut (Rabs a * cutoff) (lin a b ml) (Rabs a * sl) ns =
  match iterstat_loop fuel data cut cutoff ml sl ns with
  | None => None
  | Some (e, m, s, mask) => Some (e, lin a b m, Rabs a * s, mask)
  end.
Proof.
  intros Ha Hd. assert (Hpos := Rabs_pos_lt a Ha).
  assert (Hlt : forall u v, Rltb (Rabs a * u) (Rabs a * v) = Rltb u v).
  { intros u v. destruct (Rltb_spec u v); [apply Rltb_true|apply Rltb_false]; nra. }
  assert (Hd' : forall u v, Rabs (lin a b u - lin a b v) = Rabs a * Rabs (u - v)).
  { intros u v. rewrite <- Rabs_mult. f_equal. unfold lin. ring. }
  assert (Hs : forall u v, Rabs (Rabs a * u - Rabs a * v) = Rabs a * Rabs (u - v)).
  { intros u v. rewrite <- Rmult_minus_distr_l, Rabs_mult, Rabs_Rabsolu. reflexivity. }
  induction fuel as [|fuel IH]; intros ml sl ns; [reflexivity|]. cbn [iterstat_loop].
  assert (Em : is_mask (map (lin a b) data) cut (lin a b ml) (Rabs a * sl) = is_mask data cut ml sl).
  { unfold is_mask. rewrite map_map. apply map_ext. intros v. rewrite Hd'.
    replace (cut * (Rabs a * sl)) with (Rabs a * (cut * sl)) by ring. apply Hlt. }
  cbv zeta. rewrite Em. set (mask := is_mask data cut ml sl).
  destruct (Nat.leb_spec (count_true mask) 1) as [L|L].
  - rewrite lmean_lin, lstd_lin, map_map by assumption. reflexivity.
  - assert (Hne : mask_select mask data <> []).
    { intros E. assert (K := count_select data mask (is_mask_length data cut ml sl)). fold mask in K. rewrite E in K. simpl in K. lia. }
    rewrite select_map, lmean_lin, lstd_lin by assumption. rewrite Hd', Hs, !Hlt.
    destruct (3 <=? _)%nat; [reflexivity|]. apply IH.
Qed.

Lemma iterstat_unit a b fuel fsolve data cut precision : a <> 0 ->
  iterstat fuel fsolve (map (lin a b) data) cut precision false =
  match iterstat fuel fsolve data cut precision false with
  | Some (Some (m, s), mask) => Some (Some (lin a b m, Rabs a * s), mask)
  | r => r
  end.
Proof.
  intros Ha. unfold iterstat. destruct data as [|d ds] eqn:Ed; [reflexivity|]. rewrite <- Ed.
  assert (Hd : data <> []) by (rewrite Ed; discriminate).
  replace (map (lin a b) data) with (lin a b d :: map (lin a b) ds) at 1 by (rewrite Ed; reflexivity). cbv zeta.
  rewrite lmean_lin, lstd_lin by assumption. replace (Rabs a * lstd data / precision) with (Rabs a * (lstd data / precision)) by (unfold Rdiv; ring).
  rewrite iterstat_loop_unit by assumption.
  destruct (iterstat_loop fuel data _ _ _ _ _) as [[[[[] ?] ?] ?]|]; reflexivity.
Qed.
