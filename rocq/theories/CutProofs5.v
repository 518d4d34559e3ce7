(** * Proofs about symmetrizedist *)
From Coq Require Import Permutation.
From Verif Require Import Base ListLemmas UtilsModel CutModel CutSpec CutProofs1 CutProofs2.
Local Open Scope R_scope.

Lemma select_filter (f : R -> bool) (vals : list R) :
  mask_select (map f vals) (seq 0 (length vals)) = filter (fun i => f (nth i vals 0)) (seq 0 (length vals)).
Proof.
  assert (G : forall l pre, mask_select (map f l) (seq (length pre) (length l)) =
    filter (fun i => f (nth i (pre ++ l) 0)) (seq (length pre) (length l))).
  { induction l as [|v l IH]; intros pre; [reflexivity|]. cbn [map length seq mask_select filter].
    rewrite app_nth2, Nat.sub_diag by lia. cbn [nth].
    specialize (IH (pre ++ [v])). rewrite <- app_assoc in IH. cbn [app] in IH. rewrite app_length in IH.
    cbn [length] in IH. rewrite Nat.add_1_r in IH. destruct (f v); now rewrite IH. }
  exact (G vals []).
Qed.

Lemma filter_length_nth (f : R -> bool) (vals : list R) :
  length (filter f vals) = length (filter (fun i => f (nth i vals 0)) (seq 0 (length vals))).
Proof.
  rewrite <- select_filter. generalize 0%nat. induction vals as [|v l IH]; intros s; [reflexivity|].
  cbn [map filter length seq mask_select]. destruct (f v); simpl; now rewrite (IH (S s)).
Qed.

Lemma filter_split {A} (p : A -> bool) l : length l = (length (filter p l) + length (filter (fun x => negb (p x)) l))%nat.
Proof. induction l as [|a l IH]; [reflexivity|]. simpl. destruct (p a); simpl; lia. Qed.

Lemma removed_length (inds cut : list nat) : NoDup inds -> NoDup cut -> incl cut inds ->
  length (filter (fun i => negb (existsb (Nat.eqb i) cut)) inds) = (length inds - length cut)%nat.
Proof.
  intros Hi Hc Hincl. pose proof (filter_split (fun i => existsb (Nat.eqb i) cut) inds) as H.
  assert (P : Permutation (filter (fun i => existsb (Nat.eqb i) cut) inds) cut).
  { apply NoDup_Permutation; [now apply NoDup_filter|assumption|]. intros x. rewrite filter_In, existsb_exists. split.
    - intros [_ [y [Hy E]]]. apply Nat.eqb_eq in E. now subst.
    - intros Hx. split; [now apply Hincl|]. exists x. split; [assumption|apply Nat.eqb_refl]. }
  apply Permutation_length in P. cbv beta in H. lia.
Qed.

Section Sym.
Variable choose : list nat -> nat -> list nat.
Hypothesis Hdraw : draws choose.
Variable vals : list R.
Variable upr : R.
Hypothesis Hupr : 0 < upr.
Variable bins : nat.
Hypothesis Hbins : (0 < bins)%nat.
Let n := length vals.

Definition below_bin (k : nat) (v : R) : bool := (Rltb v (bin_edge upr bins (S k)) && Rleb (bin_edge upr bins k) v)%bool.

Lemma below_bin_spec k v : below_bin k v = true <-> in_hbin upr bins k v.
Proof.
  unfold below_bin, in_hbin, bin_edge.
  destruct (Rltb_spec v (- upr + INR (S k) * (2 * upr / INR bins))); destruct (Rleb_spec (- upr + INR k * (2 * upr / INR bins)) v); cbn [andb];
    split; intros G; try discriminate; try reflexivity; try split; lra.
Qed.

Definition bin_inds (k : nat) : list nat := filter (fun i => below_bin k (nth i vals 0)) (seq 0 n).
Definition removed (k : nat) : list nat :=
  let this := hist_num vals upr bins k in
  let oppo := hist_num vals upr bins (bins - 1 - k) in
  if (oppo <? this)%nat then choose (bin_inds k) (this - oppo) else [].

Lemma hist_num_bin k : (S k < bins)%nat -> hist_num vals upr bins k = length (bin_inds k).
Proof.
  intros H. unfold hist_num, bin_inds. rewrite filter_length_nth. fold n. f_equal. apply filter_ext. intros i.
  unfold in_bin, below_bin. destruct (Nat.eqb_spec (S k) bins); [lia|]. apply Bool.andb_comm.
Qed.

Lemma removed_spec k : (S k < bins)%nat ->
  NoDup (removed k) /\ incl (removed k) (bin_inds k) /\
  (length (bin_inds k) - length (removed k) =
   Nat.min (length (bin_inds k)) (hist_num vals upr bins (bins - 1 - k)))%nat.
Proof.
  intros H. unfold removed. cbv zeta; rewrite (hist_num_bin k H).
  destruct (Nat.ltb_spec (hist_num vals upr bins (bins - 1 - k)) (length (bin_inds k))) as [L|L].
  - destruct (Hdraw (bin_inds k) (length (bin_inds k) - hist_num vals upr bins (bins - 1 - k))%nat (NoDup_filter _ (seq_NoDup _ _)) ltac:(lia)) as [D1 [D2 D3]].
    split; [assumption|]. split; [assumption|]. rewrite D3. lia.
  - split; [constructor|]. split; [intros x []|]. simpl. lia.
Qed.

(** The mask a step adds. *)
Lemma sym_bin_kept ibin cz i : (bins / 2 <= ibin < bins - 1)%nat -> length cz = n -> (i < n)%nat ->
  let k := (bins - ibin - 2)%nat in
  (kept (sym_bin choose vals upr bins ibin cz) i <->
   kept cz i \/ (in_hbin upr bins k (nth i vals 0) /\ ~ In i (removed k))).
Proof.
  intros Hib Hcz Hi k. unfold sym_bin.
  replace (bins - ibin - 1)%nat with (S k) by (unfold k; lia). fold k.
  replace (ibin + 1)%nat with (bins - 1 - k)%nat by (unfold k; lia).
  change (fun v : R => (Rltb v (bin_edge upr bins (S k)) && Rleb (bin_edge upr bins k) v)%bool) with (below_bin k).
  set (cv := if (_ <? _)%nat then _ else _).
  assert (Hcv : length cv = n /\ forall i, (i < n)%nat -> (kept cv i <-> in_hbin upr bins k (nth i vals 0) /\ ~ In i (removed k))).
  { unfold cv, removed. rewrite select_filter. fold n. fold (bin_inds k).
    destruct (Nat.ltb_spec (hist_num vals upr bins (bins - 1 - k)) (hist_num vals upr bins k)) as [L|L].
    - split; [rewrite map_length, combine_length, map_length, seq_length; fold n; lia|]. intros j Hj. unfold kept.
      rewrite nth_error_map, nth_error_combine, nth_error_map, nth_error_seq.
      rewrite (nth_error_nth' vals 0) by (fold n; assumption). destruct (Nat.ltb_spec j n); [|lia].
      cbn [option_map fst snd Nat.add]. rewrite <- below_bin_spec.
      set (cut := choose _ _).
      assert (Hc : existsb (Nat.eqb j) cut = true <-> In j cut).
      { rewrite existsb_exists. split; [intros [y [Hy E]]; apply Nat.eqb_eq in E; now subst|].
        intros G. exists j. split; [assumption|apply Nat.eqb_refl]. }
      destruct (below_bin k (nth j vals 0)); simpl; [|split; [discriminate|intros [? _]; discriminate]].
      destruct (existsb (Nat.eqb j) cut); simpl; split.
      + discriminate.
      + intros [_ G]. exfalso. apply G, Hc. reflexivity.
      + intros _. split; [reflexivity|]. intros G. apply Hc in G. discriminate.
      + reflexivity.
    - split; [rewrite map_length; reflexivity|]. intros j Hj. unfold kept. rewrite nth_error_map, (nth_error_nth' vals 0) by (fold n; assumption).
      cbn [option_map]. rewrite <- below_bin_spec. split; [intros G; injection G as G; split; [assumption|intros []]|].
      intros [G _]. now rewrite G. }
  destruct Hcv as [Lcv Hcv]. specialize (Hcv i Hi). rewrite <- Hcv. unfold kept.
  rewrite nth_error_map, nth_error_combine.
  rewrite (nth_error_nth' cz false) by lia. rewrite (nth_error_nth' cv false) by lia. cbn [option_map fst snd].
  destruct (nth i cz false), (nth i cv false); simpl; split; (reflexivity || (intros [H|H]; discriminate H) || (intros; left; reflexivity) || (intros; right; reflexivity) || discriminate || (intros; reflexivity)).
Qed.

Lemma sym_bin_length ibin cz : length cz = n -> length (sym_bin choose vals upr bins ibin cz) = n.
Proof.
  intros H. unfold sym_bin. rewrite map_length, combine_length, H.
  set (cv := if (_ <? _)%nat then _ else _).
  assert (length cv = n); [|lia]. unfold cv. destruct (_ <? _)%nat; rewrite map_length;
   rewrite ?combine_length, ?map_length, ?seq_length; fold n; lia.
Qed.

Lemma fold_kept l : forall cz i, (forall b, In b l -> (bins / 2 <= b < bins - 1)%nat) -> length cz = n -> (i < n)%nat ->
  length (fold_left (fun cz ibin => sym_bin choose vals upr bins ibin cz) l cz) = n /\
  (kept (fold_left (fun cz ibin => sym_bin choose vals upr bins ibin cz) l cz) i <->
   kept cz i \/ exists b, In b l /\ in_hbin upr bins (bins - b - 2) (nth i vals 0) /\ ~ In i (removed (bins - b - 2))).
Proof.
  induction l as [|b l IH]; intros cz i Hl Hcz Hi; cbn [fold_left].
  - split; [assumption|]. split; [now left|]. intros [H|[b [[] _]]]. exact H.
  - destruct (IH (sym_bin choose vals upr bins b cz) i (fun x Hx => Hl x (or_intror Hx)) (sym_bin_length b cz Hcz) Hi) as [H1 H2].
    split; [assumption|]. rewrite H2, (sym_bin_kept b cz i (Hl b (or_introl eq_refl)) Hcz Hi). split.
    + intros [[H|[G1 G2]]|[b' [Hb' G]]]; [now left|right; exists b; split; [now left|auto]|right; exists b'; split; [now right|auto]].
    + intros [H|[b' [[<-|Hb'] G]]]; [left; now left|left; now right|right; eauto].
Qed.

Lemma bin_disjoint k k' v : in_hbin upr bins k v -> in_hbin upr bins k' v -> k = k'.
Proof.
  unfold in_hbin. intros [A1 A2] [B1 B2].
  assert (Hw : 0 < 2 * upr / INR bins) by (apply Rdiv_lt_0_compat; [lra|now apply lt_0_INR]).
  set (w := 2 * upr / INR bins) in *.
  destruct (Nat.lt_trichotomy k k') as [L|[E|L]]; [|assumption|]; exfalso.
  - assert (INR (S k) <= INR k') by (apply le_INR; lia). assert (INR (S k) * w <= INR k' * w) by (apply Rmult_le_compat_r; lra). lra.
  - assert (INR (S k') <= INR k) by (apply le_INR; lia). assert (INR (S k') * w <= INR k * w) by (apply Rmult_le_compat_r; lra). lra.
Qed.
End Sym.

Lemma hist_bins_odd k : Nat.even (hist_bins k) = false.
Proof. unfold hist_bins. destruct (Nat.even (Nat.sqrt k)) eqn:E; [|assumption]. now rewrite Nat.even_succ, <- Nat.negb_even, E. Qed.

(** Values at least as high as the lower edge of bin [k]. *)
Definition top_count (vals : list R) (P : R -> Prop) (c : nat) : Prop := count_is (length vals) (fun i => P (nth i vals 0)) c.

Lemma symmetrize_run choose vals m : draws choose -> symmetrizedist choose vals = Ok m ->
  let upr := listmax vals in
  let bins := hist_bins (length vals) in
  let mid := - upr + INR (bins / 2) * (2 * upr / INR bins) in
  length m = length vals /\
  (upr <= 0 \/ bins = 1%nat -> forall i, (i < length vals)%nat -> kept m i) /\
  (0 < upr -> (1 < bins)%nat ->
    (forall i, mid < nth i vals 0 -> (i < length vals)%nat -> kept m i) /\
    (forall i, kept m i -> mid < nth i vals 0 \/ exists k, (k < bins / 2)%nat /\ in_hbin upr bins k (nth i vals 0)) /\
    (forall k c o, (k < bins / 2)%nat ->
       count_is (length vals) (fun i => in_hbin upr bins k (nth i vals 0)) c ->
       count_is (length vals) (fun i => in_hbin upr bins (bins - 1 - k) (nth i vals 0) \/
          (k = 0%nat /\ nth i vals 0 = upr)) o ->
       count_is (length vals) (fun i => in_hbin upr bins k (nth i vals 0) /\ kept m i) (Nat.min c o))).
Proof.
  intros Hd E. unfold symmetrizedist in E.
  destruct vals as [|v0 vs] eqn:Ev; [discriminate|]. cbv iota zeta in E. rewrite <- Ev in *.
  assert (Hne : vals <> []) by (rewrite Ev; discriminate).
  intros upr bins mid.
  assert (Hb1 : (1 <= bins)%nat).
  { pose proof (hist_bins_odd (length vals)) as Ho. fold bins in Ho. destruct bins; [discriminate|lia]. }
  assert (Hb2 : bins <> 2%nat).
  { pose proof (hist_bins_odd (length vals)) as Ho. fold bins in Ho. intros G. rewrite G in Ho. discriminate. }
  assert (Hall : forall i, (i < length vals)%nat -> kept (map (fun _ : R => true) vals) i).
  { intros i Hi. unfold kept. rewrite nth_error_map, (nth_error_nth' vals 0) by assumption. reflexivity. }
  fold upr bins in E.
  destruct (Rltb_spec 0 upr) as [Hu|Hu].
  2:{ injection E as <-. split; [apply map_length|]. split; [intros _; exact Hall|lra]. }
  destruct (Nat.ltb_spec 2 bins) as [Hb|Hb].
  2:{ injection E as <-. split; [apply map_length|]. split; [intros _; exact Hall|intros _ ?; lia]. }
  apply (f_equal (fun r => match r with Ok x => x | Err _ => [] end)) in E. cbv beta iota in E. rename E into Em.
  assert (Hl : forall b, In b (seq (bins / 2) (bins - 1 - bins / 2)) -> (bins / 2 <= b < bins - 1)%nat).
  { intros b H. apply in_seq in H. lia. }
  set (cz := map (fun v => Rltb (bin_edge upr bins (bins / 2)) v) vals) in *.
  assert (Lcz : length cz = length vals) by apply map_length.
  assert (Hcz : forall i, (i < length vals)%nat -> (kept cz i <-> mid < nth i vals 0)).
  { intros i Hi. unfold kept, cz. rewrite nth_error_map, (nth_error_nth' vals 0) by assumption. cbn [option_map].
    change (bin_edge upr bins (bins / 2)) with mid. destruct (Rltb_spec mid (nth i vals 0)); split; intros G; try discriminate; try reflexivity; lra. }
  assert (Lm : length m = length vals).
  { assert (Hpos : (0 < length vals)%nat) by (rewrite Ev; simpl; lia).
    rewrite <- Em. exact (proj1 (fold_kept choose vals upr bins Hb1 _ cz 0%nat Hl Lcz Hpos)). }
  assert (Hk : forall i, (i < length vals)%nat -> (kept m i <-> mid < nth i vals 0 \/
     exists k, (k < bins / 2)%nat /\ in_hbin upr bins k (nth i vals 0) /\ ~ In i (removed choose vals upr bins k))).
  { intros i Hi. rewrite <- Em, (proj2 (fold_kept choose vals upr bins Hb1 _ cz i Hl Lcz Hi)), (Hcz i Hi).
    pose proof (hist_bins_odd (length vals)) as Ho. fold bins in Ho.
    assert (Hodd : (bins = 2 * (bins / 2) + 1)%nat).
    { apply Bool.negb_true_iff in Ho. rewrite Nat.negb_even in Ho. apply Nat.odd_spec in Ho. destruct Ho as [q Hq].
      rewrite Hq at 2. replace (2 * q + 1)%nat with (1 + q * 2)%nat by lia. rewrite Nat.div_add by lia. simpl. lia. }
    split; (intros [H|H]; [now left|right]).
    - destruct H as [b [Hb' [H1 H2]]]. apply in_seq in Hb'. exists (bins - b - 2)%nat. split; [lia|auto].
    - destruct H as [k [Hk' [H1 H2]]]. exists (bins - k - 2)%nat. split; [apply in_seq; lia|].
      replace (bins - (bins - k - 2) - 2)%nat with k by lia. auto. }
  assert (Hlt : forall i, kept m i -> (i < length vals)%nat).
  { intros i H. rewrite <- Lm. apply nth_error_Some. unfold kept in H. congruence. }
  split; [assumption|]. split; [intros [?|?]; [lra|lia]|]. intros _ _. split; [|split].
  - intros i H1 Hi. apply Hk; [assumption|]. now left.
  - intros i H. apply Hk in H; [|now apply Hlt]. destruct H as [H|[k [H1 [H2 H3]]]]; [now left|right; eauto].
  - intros k c o Hkb [lc [Nc [Ic Lc]]] [lo [No [Io Lo]]].
    assert (Hkb' : (S k < bins)%nat).
    { assert (bins / 2 <= bins - 1)%nat by (apply Nat.div_le_upper_bound; lia). lia. }
    destruct (removed_spec choose Hd vals upr bins Hb1 k Hkb') as [R1 [R2 R3]].
    assert (Nb : NoDup (bin_inds vals upr bins k)) by (apply NoDup_filter, seq_NoDup).
    assert (Ib : forall i, In i (bin_inds vals upr bins k) <-> (i < length vals)%nat /\ in_hbin upr bins k (nth i vals 0)).
    { intros i. unfold bin_inds. rewrite filter_In, in_seq, below_bin_spec. intuition lia. }
    assert (Ec : length (bin_inds vals upr bins k) = c).
    { rewrite <- Lc. apply Permutation_length. apply NoDup_Permutation; [assumption|assumption|].
      intros i. now rewrite Ib, Ic. }
    assert (Eo : hist_num vals upr bins (bins - 1 - k) = o).
    { rewrite <- Lo. unfold hist_num. rewrite filter_length_nth. apply Permutation_length.
      apply NoDup_Permutation; [apply NoDup_filter, seq_NoDup|assumption|]. intros i. rewrite filter_In, in_seq, Io.
      assert (Hle : (i < length vals)%nat -> nth i vals 0 <= upr).
      { intros Hi. unfold upr. apply (proj2 (listmax_spec vals Hne)). now apply nth_In. }
      assert (Hin : (i < length vals)%nat -> (in_bin upr bins (bins - 1 - k) (nth i vals 0) = true <->
         in_hbin upr bins (bins - 1 - k) (nth i vals 0) \/ (k = 0%nat /\ nth i vals 0 = upr))).
      { intros Hi. specialize (Hle Hi). unfold in_bin, in_hbin, bin_edge.
        assert (Htop : - upr + INR bins * (2 * upr / INR bins) = upr) by (field; apply not_0_INR; lia).
        assert (Hw : 0 < 2 * upr / INR bins) by (apply Rdiv_lt_0_compat; [lra|apply lt_0_INR; lia]).
        destruct (Nat.eqb_spec (S (bins - 1 - k)) bins) as [E0|E0].
        - rewrite E0, Htop. assert (k = 0%nat) by lia. subst k.
          assert (Hlow : - upr + INR (bins - 1 - 0) * (2 * upr / INR bins) < upr).
          { apply Rlt_le_trans with (- upr + INR bins * (2 * upr / INR bins)); [|lra].
            apply Rplus_lt_compat_l, Rmult_lt_compat_r; [assumption|]. apply lt_INR. lia. }
          destruct (Rleb_spec (- upr + INR (bins - 1 - 0) * (2 * upr / INR bins)) (nth i vals 0));
          destruct (Rleb_spec (nth i vals 0) upr); cbn [andb]; split; intros G; try discriminate; try reflexivity; try lra.
          destruct (Req_dec (nth i vals 0) upr); [right; auto|left; lra].
        - assert (k <> 0%nat) by lia.
          destruct (Rleb_spec (- upr + INR (bins - 1 - k) * (2 * upr / INR bins)) (nth i vals 0));
          destruct (Rltb_spec (nth i vals 0) (- upr + INR (S (bins - 1 - k)) * (2 * upr / INR bins))); cbn [andb]; split;
            intros G; try discriminate; try reflexivity; try (left; lra); destruct G as [G|[G _]]; try lra; try contradiction. }
      split.
      - intros [Hi G]. assert (Hi' : (i < length vals)%nat) by lia. split; [assumption|]. now apply Hin.
      - intros [Hi G]. split; [lia|]. now apply Hin. }
    rewrite Ec, Eo in R3.
    exists (filter (fun i => negb (existsb (Nat.eqb i) (removed choose vals upr bins k))) (bin_inds vals upr bins k)).
    split; [now apply NoDup_filter|]. split.
    + intros i. rewrite filter_In, Ib.
      assert (Hc : negb (existsb (Nat.eqb i) (removed choose vals upr bins k)) = true <-> ~ In i (removed choose vals upr bins k)).
      { rewrite Bool.negb_true_iff. split.
        - intros G H. assert (existsb (Nat.eqb i) (removed choose vals upr bins k) = true); [|congruence].
          apply existsb_exists. exists i. split; [assumption|apply Nat.eqb_refl].
        - intros G. destruct (existsb _ _) eqn:E2; [|reflexivity]. exfalso. apply G. apply existsb_exists in E2.
          destruct E2 as [y [Hy E2]]. apply Nat.eqb_eq in E2. now subst. }
      rewrite Hc. split.
      * intros [[H1 H2] H3]. split; [assumption|]. split; [assumption|]. apply Hk; [assumption|]. right. exists k. auto.
      * intros [H1 [H2 H3]]. split; [auto|]. apply Hk in H3; [|assumption]. destruct H3 as [H3|[k' [K1 [K2 K3]]]].
        -- exfalso. unfold in_hbin in H2. unfold mid in H3.
           assert (Hw : 0 < 2 * upr / INR bins) by (apply Rdiv_lt_0_compat; [lra|apply lt_0_INR; lia]).
           assert (INR (S k) <= INR (bins / 2)) by (apply le_INR; lia).
           assert (INR (S k) * (2 * upr / INR bins) <= INR (bins / 2) * (2 * upr / INR bins)) by (apply Rmult_le_compat_r; lra). lra.
        -- rewrite (bin_disjoint vals upr Hu bins Hb1 k k' _ H2 K2). assumption.
    + rewrite removed_length by assumption. rewrite Ec. exact R3.
Qed.

Lemma symmetrize_returns choose vals : vals <> [] -> exists m, symmetrizedist choose vals = Ok m.
Proof.
  intros H. unfold symmetrizedist. destruct vals; [congruence|]. destruct (Rltb _ _); [destruct (_ <? _)%nat|]; eauto.
Qed.

(** Nine equal positive values are all kept: the upper bin has nine, the opposite bin none. *)
Lemma listmax_repeat v k : listmax (repeat v (S k)) = v.
Proof.
  simpl. induction k as [|k IH]; [reflexivity|]. simpl. rewrite Rmax_left by lra. exact IH.
Qed.

Lemma firstn_draws : draws (fun l k => firstn k l).
Proof.
  intros l k Hl Hk. assert (Hin : incl (firstn k l) l).
  { intros x Hx. rewrite <- (firstn_skipn k l). apply in_or_app. now left. }
  split; [|split; [assumption|now apply firstn_length_le]].
  clear Hk Hin. revert k. induction Hl as [|a l Ha Hl IH]; intros [|k]; simpl; try constructor; auto.
  intros H. apply Ha. rewrite <- (firstn_skipn k l). apply in_or_app. now left.
Qed.
