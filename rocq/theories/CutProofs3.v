(** * Proofs about itercov *)
From Verif Require Import Base ListLemmas UtilsModel CutModel CutSpec CutProofs2.
Local Open Scope R_scope.

Lemma select_combine {A B} (m : list bool) : forall (a : list A) (b : list B), length a = length b ->
  mask_select m (combine a b) = combine (mask_select m a) (mask_select m b).
Proof.
  induction m as [|x m IH]; intros a b H; [reflexivity|].
  destruct a as [|u a], b as [|v b]; try discriminate; [reflexivity|].
  simpl in H. injection H as H. destruct x; simpl; now rewrite IH.
Qed.

Lemma select_length_same {A B} (m : list bool) (a : list A) (b : list B) : length a = length b ->
  length (mask_select m a) = length (mask_select m b).
Proof.
  revert a b. induction m as [|x m IH]; intros a b H; [reflexivity|].
  destruct a as [|u a], b as [|v b]; try discriminate; [reflexivity|].
  simpl in H. injection H as H. destruct x; simpl; [f_equal|]; now apply IH.
Qed.

Lemma nth_map_lt {A B} (f : A -> B) l i d d' : (i < length l)%nat -> nth i (map f l) d' = f (nth i l d).
Proof.
  intros H. rewrite (nth_indep _ d' (f d)) by now rewrite map_length. apply map_nth.
Qed.

Lemma lmean_select (a : list R) m : length m = length a -> (0 < count_true m)%nat ->
  knum (length a) m * lmean (mask_select m a) = ksum (length a) m (fun e => nth e a 0).
Proof. intros Hl Hc. exact (proj1 (proj2 (proj2 (select_stats a m Hl Hc)))). Qed.

Section Data.
Variable data : list (list R).
Variable nevts : nat.
Hypothesis Hlen : forall i, (i < length data)%nat -> length (nth i data []) = nevts.
Let x := fun i e => nth e (nth i data []) 0.
Let d := length data.

Lemma select_cov m : length m = nevts -> (1 < count_true m)%nat ->
  cov_of d nevts x m (means (map (mask_select m) data)) (covm (map (mask_select m) data)).
Proof.
  intros Hl Hc.
  assert (Hknum : knum nevts m = INR (count_true m)).
  { assert (Hr : length (repeat 0 nevts) = nevts) by apply repeat_length.
    rewrite <- Hr at 1. apply knum_count. now rewrite Hr. }
  assert (H1 : 1 < knum nevts m) by (rewrite Hknum; change 1 with (INR 1); now apply lt_INR).
  assert (Hmean : forall i, (i < d)%nat ->
    nth i (means (map (mask_select m) data)) 0 = lmean (mask_select m (nth i data []))).
  { intros i Hi. unfold means. rewrite map_map.
    rewrite (nth_map_lt (fun a => lmean (mask_select m a)) data i [] 0) by exact Hi. reflexivity. }
  assert (Hent : forall i j, (i < d)%nat -> (j < d)%nat ->
    nth j (nth i (covm (map (mask_select m) data)) []) 0 =
    cov_entry (mask_select m (nth i data [])) (mask_select m (nth j data []))).
  { intros i j Hi Hj. unfold covm. rewrite map_map.
    rewrite (nth_map_lt (fun a => map (fun b => cov_entry (mask_select m a) b) (map (mask_select m) data)) data i [] []) by exact Hi.
    rewrite map_map.
    rewrite (nth_map_lt (fun b => cov_entry (mask_select m (nth i data [])) (mask_select m b)) data j [] 0) by exact Hj.
    reflexivity. }
  unfold cov_of. split; [assumption|]. split; [unfold means; now rewrite !map_length|].
  split; [unfold covm; now rewrite !map_length|]. split; [assumption|]. split; [|split].
  - intros i Hi. rewrite Hmean by assumption. rewrite <- (Hlen i Hi). apply lmean_select; [|lia].
    now rewrite Hlen.
  - intros i Hi. unfold covm. rewrite (nth_map_lt (fun a => map (fun b => cov_entry a b) (map (mask_select m) data)) _ i [] [])
      by (now rewrite map_length). now rewrite !map_length.
  - intros i j Hi Hj. rewrite Hent, !Hmean by assumption. unfold cov_entry.
    assert (Hij : length (nth i data []) = length (nth j data [])) by (rewrite !Hlen by assumption; reflexivity).
    rewrite <- select_combine by exact Hij.
    assert (Hlc : length (combine (nth i data []) (nth j data [])) = nevts)
      by (rewrite combine_length, !Hlen by assumption; lia).
    rewrite (lsum_select (fun p => (fst p - lmean (mask_select m (nth i data []))) * (snd p - lmean (mask_select m (nth j data [])))) (0, 0))
      by (now rewrite Hlc). rewrite Hlc.
    rewrite length_select by (now rewrite Hlen). rewrite Hlen by assumption.
    rewrite Rmult_comm. unfold Rdiv. rewrite Rmult_assoc, Rinv_l, Rmult_1_r by lra.
    apply ksum_ext. intros e He _. rewrite combine_nth by exact Hij. reflexivity.
Qed.

Lemma mk_true_select {A} (l : list A) : mask_select (mk (length l) (fun _ => true)) l = l.
Proof.
  unfold mk. generalize 0%nat as s. induction l as [|a l IH]; intros s; simpl; [reflexivity|]. now rewrite IH.
Qed.

Lemma mk_true_count n : count_true (mk n (fun _ => true)) = n.
Proof.
  unfold mk, count_true. generalize 0%nat as s. induction n as [|n IH]; intros s; simpl; [reflexivity|]. now rewrite IH.
Qed.

Lemma full_cov : (1 < nevts)%nat ->
  cov_of d nevts x (mk nevts (fun _ => true)) (means data) (covm data).
Proof.
  intros H. assert (S := select_cov (mk nevts (fun _ => true)) (mk_length _ _)).
  rewrite mk_true_count in S. specialize (S H).
  assert (E : map (mask_select (mk nevts (fun _ => true))) data = data).
  { apply nth_ext with (d := []) (d' := []); [apply map_length|].
    intros i Hi. rewrite map_length in Hi. rewrite (nth_map_lt _ _ _ [] []) by assumption.
    rewrite <- (Hlen i Hi). apply mk_true_select. }
  rewrite E in S. exact S.
Qed.

Lemma cov_mask_kept mu std icov mc th e :
  kept (cov_mask nevts data mu std icov mc th) e <->
  (e < nevts)%nat /\ distance2 d x mu icov e < mc /\
  forall i, (i < d)%nat -> Rabs (x i e - nth i mu 0) < nth i std 0 * th.
Proof.
  unfold kept, cov_mask. rewrite mk_nth_error.
  destruct (Nat.ltb_spec e nevts) as [He|He]; [|split; [discriminate|intros [H _]; lia]].
  assert (Ed : chi2_ev data mu icov e = distance2 d x mu icov e).
  { unfold chi2_ev, distance2. fold d. apply rsum_ext. intros i Hi. rewrite <- rsum_scal_l.
    apply rsum_ext. intros j Hj. unfold delta_ev, x. ring. }
  rewrite Ed. split.
  - intros H. injection H as H. apply andb_prop in H. destruct H as [H1 H2].
    destruct (Rltb_spec (distance2 d x mu icov e) mc); [|discriminate].
    split; [assumption|]. split; [assumption|]. intros i Hi.
    rewrite forallb_forall in H2. assert (Hi' : In i (seq 0 (length data))) by (apply in_seq; unfold d in Hi; lia). specialize (H2 i Hi').
    unfold delta_ev in H2. fold (x i e) in H2.
    destruct (Rltb_spec (Rabs (x i e - nth i mu 0)) (nth i std 0 * th)); [assumption|discriminate].
  - intros [_ [H1 H2]]. f_equal. rewrite Rltb_true by assumption. cbn [andb].
    apply forallb_forall. intros i Hi. apply in_seq in Hi. apply Rltb_true. unfold delta_ev. fold (x i e).
    apply H2. unfold d. lia.
Qed.

(** The selection a round makes from the statistics of an earlier one. *)
Definition cut_around inv mc th (mask : list bool) : Prop :=
  exists pmask pmu pcov icov, cov_of d nevts x pmask pmu pcov /\ inv pcov = Some icov /\
    forall e, kept mask e <-> (e < nevts)%nat /\ distance2 d x pmu icov e < mc /\
      forall i, (i < d)%nat -> Rabs (x i e - nth i pmu 0) < sqrt (nth i (nth i pcov []) 0) * th.

Lemma itercov_loop_result inv mc th em ec maxiter : (1 < nevts)%nat ->
  forall fuel ml cl ns jj m c mask pmask, cov_of d nevts x pmask ml cl ->
  itercov_loop fuel inv nevts data mc th em ec maxiter ml cl ns jj = Ok (Some (m, c, mask)) ->
  cov_of d nevts x mask m c /\ ((forall e, (e < nevts)%nat -> kept mask e) \/ cut_around inv mc th mask).
Proof.
  intros Hn. induction fuel as [|fuel IH]; intros ml cl ns jj m c mask pmask Hp E; [discriminate|].
  cbn [itercov_loop] in E. destruct (inv cl) as [icov|] eqn:Ei; [|discriminate].
  set (mk' := cov_mask nevts data ml (cov_std cl) icov mc th) in *.
  destruct (Nat.leb_spec (count_true mk') 1) as [Hc|Hc].
  - injection E as <- <- <-. split; [now apply full_cov|]. left. intros e He. unfold kept. rewrite mk_nth_error.
    destruct (Nat.ltb_spec e nevts); [reflexivity|lia].
  - assert (Hs : cov_of d nevts x mk' (means (map (mask_select mk') data)) (covm (map (mask_select mk') data)))
      by (apply select_cov; [apply mk_length|assumption]).
    match type of E with (if (?b || ?b')%bool then _ else _) = _ => destruct (b || b')%bool end.
    + injection E as <- <- <-. split; [assumption|]. right. exists pmask, ml, cl, icov.
      split; [assumption|]. split; [assumption|]. intros e. unfold mk'. rewrite cov_mask_kept.
      assert (Hstd : forall i, (i < d)%nat -> nth i (cov_std cl) 0 = sqrt (nth i (nth i cl []) 0)).
      { intros i Hi. unfold cov_std. rewrite mk_nth; [reflexivity|]. replace (length cl) with d; [assumption|]. symmetry; apply Hp. }
      split; intros [H1 [H2 H3]]; (split; [assumption|split; [assumption|]]); intros i Hi;
        specialize (H3 i Hi); [rewrite <- Hstd by assumption|rewrite Hstd by assumption]; assumption.
    + exact (IH _ _ _ _ _ _ _ _ Hs E).
Qed.

Lemma itercov_loop_stops inv mc th em ec maxiter : 
  forall fuel ml cl ns jj, (Z.to_nat (maxiter + 1 - jj) + 1 <= fuel)%nat ->
  itercov_loop fuel inv nevts data mc th em ec maxiter ml cl ns jj <> Ok None.
Proof.
  induction fuel as [|fuel IH]; intros ml cl ns jj Hf; [lia|].
  cbn [itercov_loop]. destruct (inv cl) as [icov|]; [|congruence].
  destruct (count_true _ <=? 1)%nat; [congruence|].
  match goal with |- (if (?b || ?b')%bool then _ else _) <> _ => destruct b; cbn [orb]; [congruence|] end.
  rewrite Z.gtb_ltb. destruct (Z.ltb_spec maxiter jj); [congruence|]. apply IH. lia.
Qed.

Lemma itercov_loop_err inv mc th em ec maxiter e : 
  forall fuel ml cl ns jj,
  itercov_loop fuel inv nevts data mc th em ec maxiter ml cl ns jj = Err e ->
  e = LinAlgError /\ exists c, inv c = None.
Proof.
  induction fuel as [|fuel IH]; intros ml cl ns jj E; [discriminate|].
  cbn [itercov_loop] in E. destruct (inv cl) as [icov|] eqn:Ei; [|injection E as <-; eauto].
  destruct (count_true _ <=? 1)%nat; [discriminate|].
  match type of E with (if ?b then _ else _) = _ => destruct b; [discriminate|] end.
  exact (IH _ _ _ _ E).
Qed.
End Data.

(** ** the arguments *)
Lemma same_length_spec vs : same_length vs = true <-> vs <> [] /\ forall v w, In v vs -> In w vs -> length v = length w.
Proof.
  destruct vs as [|v vs]; simpl; [split; [discriminate|intros [H _]; congruence]|].
  rewrite forallb_forall. split.
  - intros H. split; [congruence|].
    assert (Hv : forall w, In w (v :: vs) -> length w = length v).
    { intros w [<-|Hw]; [reflexivity|]. apply Nat.eqb_eq. auto. }
    intros a b Ha Hb. rewrite (Hv a Ha), (Hv b Hb). reflexivity.
  - intros [_ H] w Hw. apply Nat.eqb_eq. apply H; [now right|now left].
Qed.

Lemma cov_data_good a : good_args a -> exists data, cov_data a = Ok data /\ length data = args_dim a /\
  length (nth 0 data []) = args_events a /\
  (forall i, (i < length data)%nat -> length (nth i data []) = args_events a) /\
  (forall i e, (i < args_dim a)%nat -> (e < args_events a)%nat -> nth e (nth i data []) 0 = coord a i e).
Proof.
  intros [H2 H]. destruct a as [vs|m rows|]; [| |destruct H]; cbn [args_dim args_events coord] in *.
  - exists vs. unfold cov_data. assert (Hs : same_length vs = true).
    { apply same_length_spec. split; [|exact H]. intros ->. simpl in H2. lia. }
    rewrite Hs. cbn [bind]. destruct (Nat.eqb_spec (length vs) 1); [lia|].
    split; [reflexivity|]. split; [reflexivity|].
    split; [destruct vs; reflexivity|]. split; [|reflexivity].
    intros i Hi. apply H; [now apply nth_In|]. destruct vs; [simpl in H2; lia|now left].
  - exists (mk m (fun j => map (fun row => nth j row 0) rows)). unfold cov_data. cbn [bind].
    rewrite mk_length. destruct (Nat.eqb_spec m 1); [lia|].
    split; [reflexivity|]. split; [reflexivity|].
    split; [rewrite mk_nth by lia; apply map_length|]. split.
    + intros i Hi. rewrite mk_nth by assumption. apply map_length.
    + intros i e Hi He. rewrite mk_nth by assumption. now rewrite (nth_map_lt _ _ _ [] 0).
Qed.

Lemma cov_data_bad a : (1 <= args_dim a)%nat \/ match a with Array2 _ _ => False | _ => True end ->
  (match a with Array2 m rows => forall r, In r rows -> length r = m | _ => True end) ->
  ~ good_args a -> cov_data a = Err ValueError.
Proof.
  intros H1 H2 H. destruct a as [vs|m rows|]; cbn [args_dim] in *; [| |reflexivity].
  - unfold cov_data. destruct (same_length vs) eqn:E; [|reflexivity]. cbn [bind].
    destruct (Nat.eqb_spec (length vs) 1); [reflexivity|]. exfalso. apply H.
    apply same_length_spec in E. destruct E as [E1 E2]. split; [|assumption]. cbn [args_dim].
    destruct vs as [|v [|w vs]]; simpl in *; congruence || lia.
  - unfold cov_data. cbn [bind]. rewrite mk_length. destruct (Nat.eqb_spec m 1); [reflexivity|].
    exfalso. apply H. split; [cbn [args_dim]; lia|assumption].
Qed.

Lemma cov_of_ext d n x x' m mu c : (forall i e, (i < d)%nat -> (e < n)%nat -> x i e = x' i e) ->
  cov_of d n x m mu c -> cov_of d n x' m mu c.
Proof.
  intros Hx [H1 [H2 [H3 [H4 [H5 [H6 H7]]]]]]. unfold cov_of. repeat (split; [assumption|]). split; [|split; [assumption|]].
  - intros i Hi. rewrite H5 by assumption. apply ksum_ext. intros e He _. now apply Hx.
  - intros i j Hi Hj. rewrite H7 by assumption. apply ksum_ext. intros e He _. now rewrite !Hx.
Qed.

Lemma itercov_result fuel inv sigma2 a nsigma th maxiter fe m c mask : good_args a ->
  itercov fuel inv sigma2 a nsigma th maxiter fe = Ok (Some (m, Some c, mask)) ->
  cov_of (args_dim a) (args_events a) (coord a) mask m c /\
  ((forall e, (e < args_events a)%nat -> kept mask e) \/
   exists pmask pmu pcov icov, cov_of (args_dim a) (args_events a) (coord a) pmask pmu pcov /\ inv pcov = Some icov /\
    forall e, kept mask e <-> (e < args_events a)%nat /\
      distance2 (args_dim a) (coord a) pmu icov e < INR (args_dim a) + nsigma * sqrt (2 * INR (args_dim a)) /\
      forall i, (i < args_dim a)%nat ->
        Rabs (coord a i e - nth i pmu 0) < sqrt (nth i (nth i pcov []) 0) *
          match th with Some t => t | None => Rmax 3 (sigma2 (args_dim a)) end).
Proof.
  intros Hg E. destruct (cov_data_good a Hg) as [data [Ed [Hd [H0 [Hl Hx]]]]].
  unfold itercov in E. rewrite Ed in E. cbn [bind] in E. rewrite H0, Hd in E.
  destruct (Nat.leb_spec (args_events a) 1) as [Hn|Hn]; [discriminate|].
  set (mc := INR (args_dim a) + nsigma * sqrt (2 * INR (args_dim a))) in *.
  set (tt := match th with Some t => t | None => Rmax 3 (sigma2 (args_dim a)) end) in *.
  match type of E with bind ?x _ = _ => destruct x as [[[[m' c'] mask']|]|] eqn:El; cbn [bind] in E; try discriminate end.
  injection E as <- <- <-.
  assert (Hx' : forall i e, (i < length data)%nat -> (e < args_events a)%nat ->
     nth e (nth i data []) 0 = coord a i e) by (intros i e Hi He; apply Hx; lia).
  destruct (itercov_loop_result data (args_events a) Hl inv mc tt _ _ maxiter Hn fuel _ _ _ _ _ _ _ _
     (full_cov data (args_events a) Hl Hn) El) as [R1 R2].
  rewrite Hd in *. split; [exact (cov_of_ext _ _ _ _ _ _ _ Hx R1)|].
  destruct R2 as [R2|[pmask [pmu [pcov [icov [Q1 [Q2 Q3]]]]]]]; [now left|right].
  rewrite Hd in *. exists pmask, pmu, pcov, icov. split; [exact (cov_of_ext _ _ _ _ _ _ _ Hx Q1)|]. split; [assumption|].
  intros e. rewrite Q3. clear -Hx.
  assert (Hd2 : (e < args_events a)%nat ->
    distance2 (args_dim a) (fun i e => nth e (nth i data []) 0) pmu icov e = distance2 (args_dim a) (coord a) pmu icov e).
  { intros He. unfold distance2. apply rsum_ext. intros i Hi. apply rsum_ext. intros j Hj. now rewrite !Hx. }
  split; intros [He [H1 H2]]; (split; [assumption|]); (split; [rewrite ?Hd2 in *; assumption|]); intros i Hi;
    specialize (H2 i Hi); rewrite Hx in *; assumption.
Qed.

Lemma itercov_stops fuel inv sigma2 a nsigma th maxiter fe : good_args a ->
  (Z.to_nat (maxiter + 1) + 1 <= fuel)%nat ->
  (exists r, itercov fuel inv sigma2 a nsigma th maxiter fe = Ok (Some r)) \/
  (itercov fuel inv sigma2 a nsigma th maxiter fe = Err LinAlgError /\ exists c, inv c = None).
Proof.
  intros Hg Hf. destruct (cov_data_good a Hg) as [data [Ed [Hd [H0 [Hl Hx]]]]].
  unfold itercov. rewrite Ed. cbn [bind]. rewrite H0.
  destruct (Nat.leb_spec (args_events a) 1) as [Hn|Hn]; [left; eauto|].
  match goal with |- context [bind ?x _] => destruct x as [[[[m' c'] mask']|]|e] eqn:El; cbn [bind] end.
  - left; eauto.
  - exfalso. revert El. apply itercov_loop_stops. replace (maxiter + 1 - 0)%Z with (maxiter + 1)%Z by lia. lia.
  - right. apply itercov_loop_err in El. destruct El as [-> Hc]. auto.
Qed.

Lemma itercov_rejects fuel inv sigma2 a nsigma th maxiter fe :
  (1 <= args_dim a)%nat \/ match a with Array2 _ _ => False | _ => True end ->
  (match a with Array2 m rows => forall r, In r rows -> length r = m | _ => True end) ->
  ~ good_args a -> itercov fuel inv sigma2 a nsigma th maxiter fe = Err ValueError.
Proof. intros H1 H2 H. unfold itercov. now rewrite (cov_data_bad a H1 H2 H). Qed.

Lemma itercov_few fuel inv sigma2 a nsigma th maxiter fe : good_args a -> (args_events a <= 1)%nat ->
  exists m mask, itercov fuel inv sigma2 a nsigma th maxiter fe = Ok (Some (m, None, mask)) /\
    length mask = args_events a /\ (forall e, (e < args_events a)%nat -> kept mask e) /\
    (args_events a = 1%nat -> forall i, (i < args_dim a)%nat -> nth i m 0 = coord a i 0).
Proof.
  intros Hg Hn. destruct (cov_data_good a Hg) as [data [Ed [Hd [H0 [Hl Hx]]]]].
  unfold itercov. rewrite Ed. cbn [bind]. rewrite H0.
  destruct (Nat.leb_spec (args_events a) 1) as [_|Hn']; [|lia].
  exists (means data), (mk (args_events a) (fun _ => true)). split; [reflexivity|]. split; [apply mk_length|]. split.
  - intros e He. unfold kept. rewrite mk_nth_error. destruct (Nat.ltb_spec e (args_events a)); [reflexivity|lia].
  - intros H1 i Hi. unfold means. rewrite (nth_map_lt _ _ _ [] 0) by lia. rewrite <- Hx by lia.
    specialize (Hl i ltac:(lia)). rewrite H1 in Hl. destruct (nth i data []) as [|v [|w l]]; try discriminate.
    unfold lmean, lsum. simpl. field.
Qed.
