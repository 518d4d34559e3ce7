(** * Proofs about the stage cuts, autocuts and the muon cut *)
From Coq Require Import String.
From Verif Require Import Base ListLemmas UtilsModel Dft WindowModel WindowProofs OFModel OFFreeModel.
From Verif Require Import CutModel CutSpec CutProofs1 CutProofs2 CutProofs3.
Local Open Scope R_scope.

(** ** the outlier algorithms *)
Lemma finites_length x : (List.length (finites x) <= List.length x)%nat.
Proof. induction x as [|v x IH]; simpl; [lia|]. destruct v; simpl; lia. Qed.

Lemma outlier_mask_ok skew algo nsig x : known_algo algo ->
  exists m, outlier_mask skew algo nsig x = Ok m /\ List.length m = List.length x.
Proof.
  intros [-> | ->]; unfold outlier_mask; cbn [String.eqb Ascii.eqb Bool.eqb].
  - destruct (removeoutliers_basic skew x 20 (5 / 100) 22 ltac:(simpl; lia)) as [m [E [L _]]].
    rewrite E. eauto.
  - destruct (Nat.eqb_spec (List.length (finites x)) (List.length x)) as [Hl|Hl].
    + destruct (iterstat_terminates (fun _ _ _ p => p) (finites x) nsig 10000 false (iterstat_fuel (List.length x))) as [[r m] E];
        [lra|unfold iterstat_fuel; rewrite Hl; lia|].
      rewrite E. exists m. split; [reflexivity|]. rewrite <- Hl.
      destruct r as [[mu s]|].
      * apply iterstat_stats in E. exact (proj1 E).
      * unfold iterstat in E. destruct (finites x); [now injection E as <-|].
        destruct (iterstat_loop _ _ _ _ _ _ _) as [[[[[] ?] ?] ?]|]; discriminate.
    + eexists. split; [reflexivity|]. apply map_length.
Qed.

Lemma outlier_mask_unknown skew algo nsig x : ~ known_algo algo -> outlier_mask skew algo nsig x = Err NameError.
Proof.
  intros H. unfold outlier_mask. destruct (String.eqb_spec algo "removeoutliers"); [exfalso; apply H; now left|].
  destruct (String.eqb_spec algo "iterstat"); [exfalso; apply H; now right|reflexivity].
Qed.

Lemma outlier_mask_length skew algo nsig x m : outlier_mask skew algo nsig x = Ok m -> List.length m = List.length x.
Proof.
  intros E. destruct (String.string_dec algo "removeoutliers") as [->|H1];
    [|destruct (String.string_dec algo "iterstat") as [->|H2]].
  - destruct (outlier_mask_ok skew "removeoutliers" nsig x (or_introl eq_refl)) as [m' [E' L]]. congruence.
  - destruct (outlier_mask_ok skew "iterstat" nsig x (or_intror eq_refl)) as [m' [E' L]]. congruence.
  - rewrite outlier_mask_unknown in E; [discriminate|]. intros [H|H]; contradiction.
Qed.

(** ** the fits *)
Lemma sequence_ok {A B} (f : A -> res B) l : (forall a, In a l -> exists b, f a = Ok b) ->
  exists bs, sequence (map f l) = Ok bs /\ List.length bs = List.length l.
Proof.
  induction l as [|a l IH]; intros H; [exists []; split; reflexivity|]. cbn [map sequence].
  destruct (H a (or_introl eq_refl)) as [b E]. rewrite E. cbn [bind].
  destruct (IH (fun x Hx => H x (or_intror Hx))) as [bs [E' L]]. rewrite E'. cbn [bind].
  eexists. split; [reflexivity|]. simpl. now rewrite L.
Qed.

Lemma sequence_length {A B} (f : A -> res B) l bs : sequence (map f l) = Ok bs -> List.length bs = List.length l.
Proof.
  revert bs. induction l as [|a l IH]; intros bs E; [now injection E as <-|]. cbn [map sequence] in E.
  destruct (f a) as [b|]; [|discriminate]. cbn [bind] in E.
  destruct (sequence (map f l)) as [r|]; [|discriminate]. cbn [bind] in E. injection E as <-. simpl. now rewrite IH.
Qed.

Lemma trace_of_ok n fs t : (0 < n)%nat -> exists r, trace_of n fs t = Ok r.
Proof.
  intros Hn. unfold trace_of, ofamp. rewrite Nat.eqb_refl. cbn [negb map combine].
  unfold argmin_rows.
  replace (negb _) with false.
  2:{ symmetry. apply Bool.negb_false_iff, andb_true_intro. split; apply Z.leb_le; [apply Z.opp_nonpos_nonneg; apply Z.div_pos; lia|].
      assert (0 < Z.of_nat n)%Z by lia.
      pose proof (Z.div_mod (Z.of_nat n) 2 ltac:(lia)). pose proof (Z.mod_pos_bound (Z.of_nat n) 2 ltac:(lia)).
      pose proof (Z.div_mod (Z.of_nat n + 1) 2 ltac:(lia)). pose proof (Z.mod_pos_bound (Z.of_nat n + 1) 2 ltac:(lia)).
      lia. }
  cbn [map sequence].
  match goal with |- context [argmin (mk n ?f)] => set (row := mk n f) end.
  assert (Hr : row <> []). { intros E. apply (f_equal (@List.length R)) in E. unfold row in E. rewrite mk_length in E. simpl in E. lia. }
  destruct (argmin_ok row Hr) as [b Eb]. rewrite Eb. cbn [bind].
  assert (Hb : (b < n)%nat). { apply argmin_spec in Eb. destruct Eb as [Eb _]. unfold row in Eb. now rewrite mk_length in Eb. }
  unfold diag_take. cbn [map sequence take].
  rewrite !(pyindex_in _ (Z.of_nat b) 0) by (unfold row; rewrite mk_length; lia).
  cbn [bind List.length seq map sequence nth_error].
  change (Z.of_nat 0) with 0%Z. unfold pyindex. simpl. eauto.
Qed.

(** ** stage cuts *)
Lemma traces_of_first n traces : traces_of n traces -> first_length traces = Ok n.
Proof. intros [H1 H2]. destruct traces as [|t ts]; [congruence|]. simpl. now rewrite (H2 t (or_introl eq_refl)). Qed.

Lemma template_checks_ok n fs : (0 < n)%nat -> 0 < fs -> template_checks n fs = Ok tt.
Proof.
  intros Hn Hf. unfold template_checks. destruct (Reqb_spec fs 0); [lra|].
  destruct (Nat.eqb_spec n 0); [lia|reflexivity].
Qed.

Lemma pileupcut_run skew n traces fs algo nsig rm : traces_of n traces -> (0 < n)%nat -> 0 < fs ->
  exists x, List.length x = List.length traces /\ pileupcut skew traces fs algo nsig rm = outlier_mask skew algo nsig x.
Proof.
  intros Ht Hn Hf. unfold pileupcut. rewrite (traces_of_first n traces Ht). cbn [bind].
  rewrite template_checks_ok by assumption. cbn [bind].
  set (tr := if rm then _ else _).
  destruct (sequence_ok (trace_of n fs) tr (fun t _ => trace_of_ok n fs t Hn)) as [rs [E L]].
  rewrite E. cbn [bind]. eexists. split; [|reflexivity]. rewrite map_length, L. unfold tr. destruct rm; [apply map_length|reflexivity].
Qed.

Lemma chi2cut_run skew n traces fs algo nsig : traces_of n traces -> (0 < n)%nat -> 0 < fs ->
  exists x, List.length x = List.length traces /\ chi2cut skew traces fs algo nsig = outlier_mask skew algo nsig x.
Proof.
  intros Ht Hn Hf. unfold chi2cut. rewrite (traces_of_first n traces Ht). cbn [bind].
  rewrite template_checks_ok by assumption. cbn [bind].
  destruct (sequence_ok (trace_of n fs) traces (fun t _ => trace_of_ok n fs t Hn)) as [rs [E L]].
  rewrite E. cbn [bind]. eexists. split; [|reflexivity]. now rewrite map_length, L.
Qed.

Lemma arangeZ_in lo hi i : In i (arangeZ lo hi) -> (lo <= i < hi)%Z.
Proof.
  unfold arangeZ. assert (G : forall n lo, In i (zrange lo n) -> (lo <= i < lo + Z.of_nat n)%Z).
  { induction n as [|n IH]; intros l H; [destruct H|]. destruct H as [<-|H]; [lia|]. apply IH in H. lia. }
  intros H. apply G in H. lia.
Qed.

Lemma range_mean_ok lo hi t : (0 <= lo)%Z -> (hi <= Z.of_nat (List.length t))%Z -> exists v, range_mean lo hi t = Ok v.
Proof.
  intros H1 H2. unfold range_mean. rewrite (take_in _ 0).
  - cbn [bind]. eauto.
  - intros i Hi. apply arangeZ_in in Hi. lia.
Qed.

Lemma plain_ranges n fs sg :
  (0 <= fst (begin_range n fs sg false))%Z /\ (snd (begin_range n fs sg false) <= Z.of_nat n)%Z /\
  (0 <= fst (end_range n fs sg false))%Z /\ (snd (end_range n fs sg false) <= Z.of_nat n)%Z.
Proof.
  unfold begin_range, end_range. cbn [fst snd]. split; [lia|]. split; [apply Z.div_le_upper_bound; lia|].
  split; [|lia]. apply Z.div_pos; lia.
Qed.

Lemma range_checks_ok fs sg : 0 < fs -> 0 < sg -> range_checks fs sg = Ok tt.
Proof. intros H1 H2. unfold range_checks. destruct (Reqb_spec fs 0); [lra|]. destruct (Reqb_spec sg 0); [lra|reflexivity]. Qed.

Lemma int_trunc_bounds x : 0 <= x -> (0 <= int_trunc x)%Z /\ IZR (int_trunc x) <= x.
Proof.
  intros Hx. unfold int_trunc. rewrite Rltb_false by assumption. destruct (base_Int_part x) as [H1 H2].
  split; [|assumption]. assert (-1 < IZR (Int_part x)) by lra. apply lt_IZR in H. lia.
Qed.

(** The ranges of dIdV data with at least one full period. *)
Lemma didv_ranges n fs sg : 0 < fs -> 0 < sg -> fs / sg <= INR n ->
  (0 <= fst (begin_range n fs sg true))%Z /\ (snd (begin_range n fs sg true) <= Z.of_nat n)%Z /\
  (0 <= fst (end_range n fs sg true))%Z /\ (snd (end_range n fs sg true) <= Z.of_nat n)%Z.
Proof.
  intros Hf Hs Hn. unfold begin_range, end_range.
  assert (Hb : 0 < fs / sg) by (apply Rdiv_lt_0_compat; assumption). set (b := fs / sg) in *.
  assert (Hup : forall x, 0 <= x <= INR n -> (0 <= int_trunc x <= Z.of_nat n)%Z).
  { intros x [H0 H1]. destruct (int_trunc_bounds x H0) as [G1 G2]. split; [assumption|].
    apply le_IZR. rewrite <- INR_IZR_INZ. lra. }
  destruct (Z.gtb_spec (Int_part (INR n / fs * sg)) 1) as [Hp|Hp]; cbn [fst snd].
  - set (k := Int_part (INR n / fs * sg)) in *.
    assert (Hk : IZR k * b <= INR n).
    { destruct (base_Int_part (INR n / fs * sg)) as [H1 _]. fold k in H1.
      replace (INR n) with (INR n / fs * sg * b) by (unfold b; field; lra).
      apply Rmult_le_compat_r; lra. }
    assert (Hk1 : 1 <= IZR k) by (apply IZR_le; lia).
    assert (0 <= (IZR k - 1) * b) by (apply Rmult_le_pos; lra).
    repeat split; apply Hup; lra.
  - repeat split; apply Hup; lra.
Qed.

Lemma ranges_fit n fs sg d : 0 < fs -> 0 < sg -> didv_fits n fs sg d ->
  (0 <= fst (begin_range n fs sg d))%Z /\ (snd (begin_range n fs sg d) <= Z.of_nat n)%Z /\
  (0 <= fst (end_range n fs sg d))%Z /\ (snd (end_range n fs sg d) <= Z.of_nat n)%Z.
Proof.
  intros Hf Hs [-> | H]; [apply plain_ranges|]. destruct d; [now apply didv_ranges|apply plain_ranges].
Qed.

Lemma baselinecut_run skew n traces fs algo nsig d sg : traces_of n traces -> 0 < fs -> 0 < sg -> didv_fits n fs sg d ->
  exists x, List.length x = List.length traces /\ baselinecut skew traces fs algo nsig d sg = outlier_mask skew algo nsig x.
Proof.
  intros Ht Hf Hs Hd. unfold baselinecut. rewrite (traces_of_first n traces Ht). cbn [bind].
  rewrite range_checks_ok by assumption. cbn [bind]. destruct (ranges_fit n fs sg d Hf Hs Hd) as [R1 [R2 _]].
  destruct (sequence_ok (range_mean (fst (begin_range n fs sg d)) (snd (begin_range n fs sg d))) traces) as [xs [E L]].
  { intros t Hin. apply range_mean_ok; [assumption|]. rewrite (proj2 Ht t Hin). assumption. }
  rewrite E. cbn [bind]. eauto.
Qed.

Lemma sym_slopes_ok choose s : s <> [] -> exists m, sym_slopes choose s = Ok m.
Proof.
  intros H. unfold sym_slopes. destruct (Nat.eqb_spec (List.length (finites s)) (List.length s)) as [E|E]; [|eauto].
  unfold symmetrizedist. destruct (finites s) as [|v f].
  - destruct s; [congruence|discriminate].
  - destruct (Rltb 0 _); [|eauto]. destruct (2 <? _)%nat; eauto.
Qed.

Lemma slopecut_run skew choose n traces fs algo nsig d sym sg : traces_of n traces -> 0 < fs -> 0 < sg -> didv_fits n fs sg d ->
  exists x inds, slopecut skew choose traces fs algo nsig d sym sg =
    (do m <- outlier_mask skew algo nsig x; Ok (set_true (map (fun _ => true) traces) (mask_select m inds))).
Proof.
  intros Ht Hf Hs Hd. unfold slopecut. rewrite (traces_of_first n traces Ht). cbn [bind].
  rewrite range_checks_ok by assumption. cbn [bind]. destruct (ranges_fit n fs sg d Hf Hs Hd) as [R1 [R2 [R3 R4]]].
  destruct (sequence_ok (range_mean (fst (begin_range n fs sg d)) (snd (begin_range n fs sg d))) traces) as [xs [E L]].
  { intros t Hin. apply range_mean_ok; [assumption|]. rewrite (proj2 Ht t Hin). assumption. }
  rewrite E. cbn [bind].
  destruct (sequence_ok (range_mean (fst (end_range n fs sg d)) (snd (end_range n fs sg d))) traces) as [ys [E' L']].
  { intros t Hin. apply range_mean_ok; [assumption|]. rewrite (proj2 Ht t Hin). assumption. }
  rewrite E'. cbn [bind]. set (slopes := map _ (combine ys xs)).
  assert (Hsl : slopes <> []).
  { intros E0. apply (f_equal (@List.length xval)) in E0. unfold slopes in E0.
    rewrite map_length, combine_length, L, L' in E0. destruct traces; [apply (proj1 Ht); reflexivity|simpl in E0; lia]. }
  destruct sym.
  - destruct (sym_slopes_ok choose slopes Hsl) as [m E2]. rewrite E2. cbn [bind]. eauto.
  - cbn [bind]. eauto.
Qed.

Lemma set_true_length init inds : List.length (set_true init inds) = List.length init.
Proof. unfold set_true. rewrite map_length, combine_length, seq_length. lia. Qed.

Lemma set_true_kept init inds i : kept (set_true init inds) i <->
  (i < List.length init)%nat /\ (kept init i \/ In i inds).
Proof.
  unfold kept, set_true. rewrite nth_error_map, nth_error_combine, nth_error_seq.
  destruct (nth_error init i) as [b|] eqn:E.
  - assert (Hi : (i < List.length init)%nat) by (apply nth_error_Some; congruence).
    destruct (Nat.ltb_spec i (List.length init)); [|lia]. cbn [option_map fst snd Nat.add].
    split.
    + intros G. injection G as G. apply orb_prop in G. split; [assumption|]. destruct G as [->|G]; [now left|right].
      apply existsb_exists in G. destruct G as [j [Hj G]]. apply Nat.eqb_eq in G. simpl in G. now subst j.
    + intros [_ [G|G]]; [injection G as ->; reflexivity|]. f_equal. apply Bool.orb_true_iff. right.
      apply existsb_exists. exists i. split; [assumption|]. simpl. apply Nat.eqb_refl.
  - apply nth_error_None in E. split; [discriminate|]. intros [H _]. lia.
Qed.

Lemma slopecut_all skew choose traces fs algo nsig d sym sg m :
  slopecut skew choose traces fs algo nsig d sym sg = Ok m -> m = map (fun _ => true) traces.
Proof.
  unfold slopecut. intros E.
  repeat match type of E with bind ?x _ = _ => destruct x; [cbn [bind] in E|discriminate] end.
  injection E as <-.
  apply nth_error_ext. intros i. set (inds := mask_select _ _).
  destruct (nth_error (map (fun _ : list R => true) traces) i) as [b|] eqn:Eb.
  - assert (b = true). { rewrite nth_error_map in Eb. destruct (nth_error traces i); [|discriminate]. now injection Eb. }
    subst b. apply set_true_kept. split; [apply nth_error_Some; congruence|]. now left.
  - apply nth_error_None. rewrite set_true_length. now apply nth_error_None.
Qed.

Lemma stage_runs skew choose n traces fs algo nsig d sym rm sg : known_algo algo ->
  traces_of n traces -> (0 < n)%nat -> 0 < fs -> 0 < sg -> didv_fits n fs sg d ->
  (exists m, pileupcut skew traces fs algo nsig rm = Ok m /\ List.length m = List.length traces) /\
  (exists m, slopecut skew choose traces fs algo nsig d sym sg = Ok m /\ List.length m = List.length traces) /\
  (exists m, baselinecut skew traces fs algo nsig d sg = Ok m /\ List.length m = List.length traces) /\
  (exists m, chi2cut skew traces fs algo nsig = Ok m /\ List.length m = List.length traces).
Proof.
  intros Hk Ht Hn Hf Hs Hd. split; [|split; [|split]].
  - destruct (pileupcut_run skew n traces fs algo nsig rm Ht Hn Hf) as [x [L ->]].
    destruct (outlier_mask_ok skew algo nsig x Hk) as [m [E Lm]]. exists m. split; [assumption|congruence].
  - destruct (slopecut_run skew choose n traces fs algo nsig d sym sg Ht Hf Hs Hd) as [x [inds ->]].
    destruct (outlier_mask_ok skew algo nsig x Hk) as [m [E Lm]]. rewrite E. cbn [bind].
    eexists. split; [reflexivity|]. now rewrite set_true_length, map_length.
  - destruct (baselinecut_run skew n traces fs algo nsig d sg Ht Hf Hs Hd) as [x [L ->]].
    destruct (outlier_mask_ok skew algo nsig x Hk) as [m [E Lm]]. exists m. split; [assumption|congruence].
  - destruct (chi2cut_run skew n traces fs algo nsig Ht Hn Hf) as [x [L ->]].
    destruct (outlier_mask_ok skew algo nsig x Hk) as [m [E Lm]]. exists m. split; [assumption|congruence].
Qed.

Lemma stage_unknown skew choose n traces fs algo nsig d sym rm sg : ~ known_algo algo ->
  traces_of n traces -> (0 < n)%nat -> 0 < fs -> 0 < sg -> didv_fits n fs sg d ->
  pileupcut skew traces fs algo nsig rm = Err NameError /\
  slopecut skew choose traces fs algo nsig d sym sg = Err NameError /\
  baselinecut skew traces fs algo nsig d sg = Err NameError /\
  chi2cut skew traces fs algo nsig = Err NameError.
Proof.
  intros Hk Ht Hn Hf Hs Hd. split; [|split; [|split]].
  - destruct (pileupcut_run skew n traces fs algo nsig rm Ht Hn Hf) as [x [L ->]]. now apply outlier_mask_unknown.
  - destruct (slopecut_run skew choose n traces fs algo nsig d sym sg Ht Hf Hs Hd) as [x [inds ->]].
    rewrite outlier_mask_unknown by assumption. reflexivity.
  - destruct (baselinecut_run skew n traces fs algo nsig d sg Ht Hf Hs Hd) as [x [L ->]]. now apply outlier_mask_unknown.
  - destruct (chi2cut_run skew n traces fs algo nsig Ht Hn Hf) as [x [L ->]]. now apply outlier_mask_unknown.
Qed.

Lemma slopecut_keeps_all skew choose n traces fs algo nsig d sym sg : known_algo algo ->
  traces_of n traces -> 0 < fs -> 0 < sg -> didv_fits n fs sg d ->
  slopecut skew choose traces fs algo nsig d sym sg = Ok (map (fun _ => true) traces).
Proof.
  intros Hk Ht Hf Hs Hd. destruct (slopecut_run skew choose n traces fs algo nsig d sym sg Ht Hf Hs Hd) as [x [inds E]].
  destruct (outlier_mask_ok skew algo nsig x Hk) as [m [Em Lm]]. rewrite Em in E. cbn [bind] in E.
  rewrite E. f_equal. eapply slopecut_all. exact E.
Qed.

(** ** lengths of the stage masks *)
Ltac unbind E := repeat match type of E with bind ?x _ = _ => let H := fresh "Eb" in destruct x eqn:H; [cbn [bind] in E|discriminate] end.

Lemma pileupcut_length skew traces fs algo nsig rm m :
  pileupcut skew traces fs algo nsig rm = Ok m -> List.length m = List.length traces.
Proof.
  unfold pileupcut. intros E. unbind E. apply outlier_mask_length in E. rewrite E, map_length.
  apply sequence_length in Eb1. rewrite Eb1. destruct rm; [apply map_length|reflexivity].
Qed.

Lemma chi2cut_length skew traces fs algo nsig m :
  chi2cut skew traces fs algo nsig = Ok m -> List.length m = List.length traces.
Proof.
  unfold chi2cut. intros E. unbind E. apply outlier_mask_length in E. rewrite E, map_length.
  now apply sequence_length in Eb1.
Qed.

Lemma baselinecut_length skew traces fs algo nsig d sg m :
  baselinecut skew traces fs algo nsig d sg = Ok m -> List.length m = List.length traces.
Proof.
  unfold baselinecut. intros E. unbind E. apply outlier_mask_length in E. rewrite E.
  now apply sequence_length in Eb1.
Qed.

Lemma slopecut_length skew choose traces fs algo nsig d sym sg m :
  slopecut skew choose traces fs algo nsig d sym sg = Ok m -> List.length m = List.length traces.
Proof. intros E. apply slopecut_all in E. rewrite E. apply map_length. Qed.

(** ** index bookkeeping of autocuts *)
Lemma pick_select {A} (m : list bool) (l : list A) : pick m l = mask_select m l.
Proof.
  revert l. unfold pick. induction m as [|b m IH]; intros l; [reflexivity|]. destruct l as [|a l]; [reflexivity|].
  cbn [combine filter fst]. destruct b; cbn [map snd mask_select]; now rewrite <- IH.
Qed.

Definition rank (m : list bool) (p : nat) : nat := List.length (filter (fun b => b) (firstn p m)).

Lemma select_nth {A} (m : list bool) : forall (l : list A) q a, List.length m = List.length l ->
  (nth_error (mask_select m l) q = Some a <-> exists p, nth_error l p = Some a /\ kept m p /\ q = rank m p).
Proof.
  induction m as [|b m IH]; intros l q a Hl; destruct l as [|x l]; try discriminate.
  - split; [destruct q; discriminate|]. intros [p [H _]]. destruct p; discriminate.
  - simpl in Hl. injection Hl as Hl. unfold kept, rank in *. destruct b; cbn [mask_select].
    + destruct q as [|q].
      * cbn [nth_error]. split.
        -- intros H. exists 0%nat. cbn. auto.
        -- intros [[|p] [H1 [H2 H3]]]; [exact H1|]. simpl in H3. discriminate.
      * cbn [nth_error]. rewrite (IH l q a Hl). split.
        -- intros [p [H1 [H2 H3]]]. exists (S p). cbn. rewrite <- H3. auto.
        -- intros [[|p] [H1 [H2 H3]]]; [simpl in H3; discriminate|]. exists p. simpl in H3. injection H3 as H3. auto.
    + rewrite (IH l q a Hl). split.
      * intros [p [H1 [H2 H3]]]. exists (S p). cbn. auto.
      * intros [[|p] [H1 [H2 H3]]]; [discriminate|]. exists p. auto.
Qed.

Lemma gather_length {A} (a : list A) inds : (forall i, In i inds -> (i < List.length a)%nat) ->
  List.length (gather a inds) = List.length inds.
Proof.
  unfold gather. induction inds as [|i inds IH]; intros H; [reflexivity|]. cbn [flat_map].
  destruct (nth_error a i) eqn:E; [|apply nth_error_None in E; specialize (H i (or_introl eq_refl)); lia].
  simpl. rewrite IH; [reflexivity|]. intros j Hj. apply H. now right.
Qed.

Lemma gather_select {A} (a : list A) : forall inds m, (forall i, In i inds -> (i < List.length a)%nat) ->
  gather a (mask_select m inds) = mask_select m (gather a inds).
Proof.
  unfold gather. induction inds as [|i inds IH]; intros m H; [destruct m; reflexivity|].
  destruct m as [|b m]; [reflexivity|].
  assert (Hi := H i (or_introl eq_refl)). cbn [flat_map].
  destruct (nth_error a i) as [x|] eqn:E; [|apply nth_error_None in E; lia]. cbn [app mask_select].
  assert (IH' := IH m (fun j Hj => H j (or_intror Hj))).
  destruct b; [cbn [flat_map]; rewrite E; simpl; now rewrite IH'|exact IH'].
Qed.

Lemma select_incl {A} (m : list bool) (l : list A) x : In x (mask_select m l) -> In x l.
Proof.
  revert l. induction m as [|b m IH]; intros l H; [destruct H|]. destruct l as [|y l]; [destruct H|].
  cbn [mask_select] in H. destruct b; [destruct H as [H|H]; [now left|right; auto]|right; auto].
Qed.

Lemma gather_seq {A} (a : list A) : gather a (seq 0 (List.length a)) = a.
Proof.
  assert (G : forall (l pre : list A), flat_map (fun i => match nth_error (pre ++ l) i with Some x => [x] | None => [] end)
     (seq (List.length pre) (List.length l)) = l).
  { induction l as [|x l IH]; intros pre; [reflexivity|]. cbn [List.length seq flat_map].
    rewrite nth_error_app2, Nat.sub_diag by lia. cbn [nth_error app]. f_equal.
    specialize (IH (pre ++ [x])). rewrite <- app_assoc in IH. cbn [app] in IH. rewrite app_length in IH.
    cbn [List.length] in IH. rewrite Nat.add_1_r in IH. exact IH. }
  exact (G a []).
Qed.

(** The index lists of the stages. *)
Definition selects (inds : list nat) (ms : list (list bool)) : list nat :=
  fold_left (fun i m => mask_select m i) ms inds.

Fixpoint fits (k : nat) (ms : list (list bool)) : Prop :=
  match ms with [] => True | m :: ms => List.length m = k /\ fits (count_true m) ms end.

Lemma select_len {A} (m : list bool) (l : list A) : List.length m = List.length l ->
  List.length (mask_select m l) = count_true m.
Proof.
  revert l. unfold count_true. induction m as [|b m IH]; intros l H; destruct l as [|x l]; try discriminate; [reflexivity|].
  simpl in H. injection H as H. destruct b; simpl; rewrite IH by assumption; reflexivity.
Qed.

Lemma selects_survive ms : forall inds i, fits (List.length inds) ms ->
  (In i (selects inds ms) <-> exists p, nth_error inds p = Some i /\ survives ms p).
Proof.
  induction ms as [|m ms IH]; intros inds i Hf; cbn [selects fold_left survives].
  - split.
    + intros H. apply In_nth_error in H. destruct H as [p Hp]. eauto.
    + intros [p [Hp _]]. eapply nth_error_In; eauto.
  - destruct Hf as [Hl Hf]. fold (selects (mask_select m inds) ms). rewrite IH by (rewrite select_len; assumption).
    split.
    + intros [q [Hq Hs]]. apply select_nth in Hq; [|assumption]. destruct Hq as [p [H1 [H2 H3]]].
      exists p. split; [assumption|]. split; [assumption|]. unfold rank in H3. now rewrite <- H3.
    + intros [p [H1 [H2 H3]]]. exists (rank m p). split; [|exact H3]. apply select_nth; [assumption|]. eauto.
Qed.

Lemma chain_fits {A} fs : forall (l : list A) ms, chain fs l ms -> fits (List.length l) ms.
Proof.
  induction fs as [|f fs IH]; intros l ms H; inversion H; subst; simpl; [exact I|]. split; [assumption|].
  rewrite <- (select_len _ l), <- pick_select by assumption. auto.
Qed.

Lemma survivors_mask {A} (fs : list (list A -> res (list bool))) (l : list A) ms i :
  chain fs l ms -> fs <> [] ->
  (kept (set_true (map (fun _ => false) l) (selects (seq 0 (List.length l)) ms)) i <-> survives ms i).
Proof.
  intros Hc Hne. assert (Hf := chain_fits _ _ _ Hc).
  rewrite set_true_kept, map_length. rewrite selects_survive by (rewrite seq_length; assumption).
  split.
  - intros [Hi [H|[p [Hp Hs]]]].
    + unfold kept in H. rewrite nth_error_map in H. destruct (nth_error l i); discriminate.
    + rewrite nth_error_seq in Hp. destruct (p <? List.length l)%nat; [|discriminate]. injection Hp as <-. exact Hs.
  - intros Hs. assert (Hi : (i < List.length l)%nat).
    { destruct Hc; [congruence|]. destruct Hs as [Hk _]. unfold kept in Hk. rewrite <- H0. apply nth_error_Some. congruence. }
    split; [assumption|]. right. exists i. split; [|assumption]. rewrite nth_error_seq.
    destruct (Nat.ltb_spec i (List.length l)); [reflexivity|lia].
Qed.

Lemma enabled_eq (on : bool) (f : list (list R) -> res (list bool)) traces inds :
  (forall i, In i inds -> (i < List.length traces)%nat) ->
  (if on then f (gather traces inds) else Ok (map (fun _ => true) inds)) = enabled on f (gather traces inds).
Proof.
  intros H. unfold enabled. destruct on; [reflexivity|]. f_equal.
  assert (G : forall (A B : Type) (l : list A) (k : list B), List.length l = List.length k -> map (fun _ => true) l = map (fun _ => true) k).
  { intros A B l. induction l as [|x l IH]; intros [|y k] Hk; try discriminate; [reflexivity|]. simpl. f_equal. apply IH. now injection Hk. }
  apply G. symmetry. now apply gather_length.
Qed.

Lemma where_true_select c n : List.length c = n -> where_true c = mask_select c (seq 0 n).
Proof. intros <-. reflexivity. Qed.

Lemma enabled_length {A} (on : bool) (f : list A -> res (list bool)) l m :
  (forall m, f l = Ok m -> List.length m = List.length l) -> enabled on f l = Ok m -> List.length m = List.length l.
Proof. intros H. unfold enabled. destruct on; [apply H|]. intros E. injection E as <-. apply map_length. Qed.

Lemma autocuts_spec skew choose traces a :
  match autocuts skew choose traces a with
  | Ok m => exists ms, chain (auto_stages skew choose a) traces ms /\ List.length m = List.length traces /\
      forall i, kept m i <-> survives ms i
  | Err e => chain_err (auto_stages skew choose a) traces e
  end.
Proof.
  set (n := List.length traces).
  set (i0 := seq 0 n).
  assert (R0 : forall i, In i i0 -> (i < List.length traces)%nat) by (intros i Hi; apply in_seq in Hi; unfold n in Hi; lia).
  assert (G0 : gather traces i0 = traces) by apply gather_seq.
  unfold auto_stages.
  set (f1 := enabled (lgcpileup1 a) _). set (f2 := enabled (lgcslope a) _). set (f3 := enabled (lgcbaseline a) _).
  set (f4 := enabled (lgcpileup2 a && a_didv a) _). set (f5 := enabled (lgcchi2 a) _).
  assert (E : autocuts skew choose traces a =
    (do m1 <- f1 traces; let i1 := mask_select m1 i0 in
     do m2 <- f2 (gather traces i1); let i2 := mask_select m2 i1 in
     do m3 <- f3 (gather traces i2); let i3 := mask_select m3 i2 in
     do m4 <- f4 (gather traces i3); let i4 := mask_select m4 i3 in
     do m5 <- f5 (gather traces i4); let i5 := mask_select m5 i4 in
     Ok (set_true (map (fun _ => false) traces) i5))).
  { unfold autocuts.
    assert (E1 : (if lgcpileup1 a then do c <- pileupcut skew traces (a_fs a) (a_algo a) (nsigpileup1 a) false; Ok (where_true c)
                  else Ok (seq 0 (List.length traces))) = (do m1 <- f1 traces; Ok (mask_select m1 i0))).
    { unfold f1, enabled. destruct (lgcpileup1 a).
      - destruct (pileupcut skew traces (a_fs a) (a_algo a) (nsigpileup1 a) false) as [c|] eqn:Ec; [|reflexivity]. cbn [bind].
        f_equal. apply where_true_select. eapply pileupcut_length; eauto.
      - cbn [bind]. f_equal. unfold i0. fold n.
        assert (G : forall (A B : Type) (l : list A) (k : list B), List.length l = List.length k -> k = mask_select (map (fun _ => true) l) k).
        { intros A B l. induction l as [|x l IH]; intros [|y k] Hk; try discriminate; [reflexivity|]. simpl. f_equal. apply IH. now injection Hk. }
        apply G. unfold n. now rewrite seq_length. }
    rewrite E1. destruct (f1 traces) as [m1|]; [|reflexivity]. cbn [bind]. set (i1 := mask_select m1 i0).
    assert (R1 : forall i, In i i1 -> (i < List.length traces)%nat) by (intros i Hi; apply R0; eapply select_incl; exact Hi).
    rewrite (enabled_eq (lgcslope a) (fun l => slopecut skew choose l (a_fs a) (a_algo a) (nsigslope a) (a_didv a) (a_sym a) (a_sgfreq a)) traces i1 R1). fold f2.
    destruct (f2 (gather traces i1)) as [m2|]; [|reflexivity]. cbn [bind]. set (i2 := mask_select m2 i1).
    assert (R2 : forall i, In i i2 -> (i < List.length traces)%nat) by (intros i Hi; apply R1; eapply select_incl; exact Hi).
    rewrite (enabled_eq (lgcbaseline a) (fun l => baselinecut skew l (a_fs a) (a_algo a) (nsigbaseline a) (a_didv a) (a_sgfreq a)) traces i2 R2). fold f3.
    destruct (f3 (gather traces i2)) as [m3|]; [|reflexivity]. cbn [bind]. set (i3 := mask_select m3 i2).
    assert (R3 : forall i, In i i3 -> (i < List.length traces)%nat) by (intros i Hi; apply R2; eapply select_incl; exact Hi).
    rewrite (enabled_eq (lgcpileup2 a && a_didv a) (fun l => pileupcut skew l (a_fs a) (a_algo a) (nsigpileup2 a) true) traces i3 R3). fold f4.
    destruct (f4 (gather traces i3)) as [m4|]; [|reflexivity]. cbn [bind]. set (i4 := mask_select m4 i3).
    assert (R4 : forall i, In i i4 -> (i < List.length traces)%nat) by (intros i Hi; apply R3; eapply select_incl; exact Hi).
    rewrite (enabled_eq (lgcchi2 a) (fun l => chi2cut skew l (a_fs a) "iterstat" (nsigchi2 a)) traces i4 R4). fold f5.
    destruct (f5 (gather traces i4)) as [m5|]; reflexivity. }
  rewrite E. clear E.
  assert (L1 : forall l m, f1 l = Ok m -> List.length m = List.length l).
  { intros l m. apply enabled_length. intros m'. apply pileupcut_length. }
  assert (L2 : forall l m, f2 l = Ok m -> List.length m = List.length l).
  { intros l m. apply enabled_length. intros m'. apply slopecut_length. }
  assert (L3 : forall l m, f3 l = Ok m -> List.length m = List.length l).
  { intros l m. apply enabled_length. intros m'. apply baselinecut_length. }
  assert (L4 : forall l m, f4 l = Ok m -> List.length m = List.length l).
  { intros l m. apply enabled_length. intros m'. apply pileupcut_length. }
  assert (L5 : forall l m, f5 l = Ok m -> List.length m = List.length l).
  { intros l m. apply enabled_length. intros m'. apply chi2cut_length. }
  clearbody f1 f2 f3 f4 f5.
  destruct (f1 traces) as [m1|e] eqn:E1; cbn [bind]; [|now apply chain_fail].
  set (i1 := mask_select m1 i0).
  assert (R1 : forall i, In i i1 -> (i < List.length traces)%nat) by (intros i Hi; apply R0; eapply select_incl; exact Hi).
  assert (G1 : gather traces i1 = pick m1 traces) by (unfold i1; rewrite gather_select, G0, pick_select by assumption; reflexivity).
  rewrite G1. set (t1 := pick m1 traces) in *.
  destruct (f2 t1) as [m2|e] eqn:E2; cbn [bind]; [|eapply chain_later; [exact E1|]; now apply chain_fail].
  set (i2 := mask_select m2 i1).
  assert (R2 : forall i, In i i2 -> (i < List.length traces)%nat) by (intros i Hi; apply R1; eapply select_incl; exact Hi).
  assert (G2 : gather traces i2 = pick m2 t1) by (unfold i2; rewrite gather_select, G1, pick_select by assumption; reflexivity).
  rewrite G2. set (t2 := pick m2 t1) in *.
  destruct (f3 t2) as [m3|e] eqn:E3; cbn [bind]; [|eapply chain_later; [exact E1|]; eapply chain_later; [exact E2|]; now apply chain_fail].
  set (i3 := mask_select m3 i2).
  assert (R3 : forall i, In i i3 -> (i < List.length traces)%nat) by (intros i Hi; apply R2; eapply select_incl; exact Hi).
  assert (G3 : gather traces i3 = pick m3 t2) by (unfold i3; rewrite gather_select, G2, pick_select by assumption; reflexivity).
  rewrite G3. set (t3 := pick m3 t2) in *.
  destruct (f4 t3) as [m4|e] eqn:E4; cbn [bind];
    [|eapply chain_later; [exact E1|]; eapply chain_later; [exact E2|]; eapply chain_later; [exact E3|]; now apply chain_fail].
  set (i4 := mask_select m4 i3).
  assert (R4 : forall i, In i i4 -> (i < List.length traces)%nat) by (intros i Hi; apply R3; eapply select_incl; exact Hi).
  assert (G4 : gather traces i4 = pick m4 t3) by (unfold i4; rewrite gather_select, G3, pick_select by assumption; reflexivity).
  rewrite G4. set (t4 := pick m4 t3) in *.
  destruct (f5 t4) as [m5|e] eqn:E5; cbn [bind];
    [|eapply chain_later; [exact E1|]; eapply chain_later; [exact E2|]; eapply chain_later; [exact E3|];
      eapply chain_later; [exact E4|]; now apply chain_fail].
  assert (Hc : chain [f1; f2; f3; f4; f5] traces [m1; m2; m3; m4; m5]).
  { apply chain_cons; [assumption|eauto|]. apply chain_cons; [assumption|eauto|]. apply chain_cons; [assumption|eauto|].
    apply chain_cons; [assumption|eauto|]. apply chain_cons; [assumption|eauto|]. apply chain_nil. }
  exists [m1; m2; m3; m4; m5]. split; [exact Hc|]. split; [now rewrite set_true_length, map_length|].
  intros i. exact (survivors_mask [f1; f2; f3; f4; f5] traces [m1; m2; m3; m4; m5] i Hc ltac:(discriminate)).
Qed.

(** ** a stage that rejects everything *)
Lemma autocuts_empty flat choose : 
  autocuts (skew_biased flat) choose (map (fun v => repeat v 10) [1; 1; 1; 5])
    (mkAuto 1 false 1 false "removeoutliers" false false true false true 2 2 2 2 3) = Err IndexError.
Proof.
  unfold autocuts. cbn [lgcpileup1 lgcslope lgcbaseline lgcpileup2 lgcchi2 a_fs a_algo nsigbaseline a_didv a_sgfreq bind andb
    map repeat List.length seq mask_select gather flat_map nth_error app nsigchi2].
  unfold baselinecut. cbn [first_length bind List.length]. rewrite range_checks_ok by lra. cbn [bind].
  unfold begin_range. cbn [fst snd]. change (Z.of_nat 10 / 10)%Z with 1%Z.
  unfold range_mean. change (arangeZ 0 1) with [0%Z]. cbn [map sequence take pyindex Z.ltb Z.compare Z.to_nat nth_error bind npmean].
  assert (M : forall v, lmean [v] = v) by (intros v; unfold lmean, lsum; simpl; field).
  unfold pyindex. cbn [Z.ltb Z.compare Z.to_nat nth_error bind npmean]. rewrite !M.
  unfold outlier_mask. cbn [String.eqb Ascii.eqb Bool.eqb].
  destruct (rejects_all flat) as [m [E Hm]]. cbn [map] in E. rewrite E. cbn [bind].
  destruct (removeoutliers_basic (skew_biased flat) (map Fin [1; 1; 1; 5]) 20 (5 / 100) 22 ltac:(simpl; lia)) as [m' [E' [L' _]]].
  cbn [map] in E'. rewrite E in E'. injection E' as <-. cbn [map List.length] in L'.
  destruct m as [|b0 [|b1 [|b2 [|b3 [|b4 m]]]]]; try discriminate L'.
  assert (b0 = false) by (destruct b0; [exfalso; apply (Hm 0%nat); reflexivity|reflexivity]).
  assert (b1 = false) by (destruct b1; [exfalso; apply (Hm 1%nat); reflexivity|reflexivity]).
  assert (b2 = false) by (destruct b2; [exfalso; apply (Hm 2%nat); reflexivity|reflexivity]).
  assert (b3 = false) by (destruct b3; [exfalso; apply (Hm 3%nat); reflexivity|reflexivity]).
  subst. cbn [mask_select map bind gather flat_map]. reflexivity.
Qed.

(** ** muon cut *)
Lemma get_muon_cut_nameerror traces th ns : traces <> [] -> (forall t, In t traces -> t <> []) ->
  get_muon_cut traces th ns = Err NameError.
Proof.
  intros H1 H2. destruct traces as [|t ts]; [congruence|]. unfold get_muon_cut, muon_loop. cbn [map sequence].
  specialize (H2 t (or_introl eq_refl)). destruct t; [congruence|]. reflexivity.
Qed.
