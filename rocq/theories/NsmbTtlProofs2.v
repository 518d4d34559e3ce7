(** * Proofs about the TTL background templates *)
From Coq Require Import Reals ZArith List Bool Lia Lra Psatz Sorted.
From Verif Require Import Base ListLemmas WindowModel WindowProofs FloatModel NsmbTtlModel NsmbTtlProofs1.
Import ListNotations.
Local Open Scope R_scope.

Lemma option_list_spec {A} (l : list (option A)) r :
  option_list l = Some r -> length r = length l /\ forall i d, (i < length l)%nat -> nth i l None = Some (nth i r d).
Proof.
  revert r. induction l as [|[a|] l IH]; intros r H; cbn in H.
  - inversion H. split; [reflexivity|]. intros i d Hi. inversion Hi.
  - destruct (option_list l) as [r'|]; [|discriminate]. inversion H; subst. destruct (IH r' eq_refl) as [L N].
    split; [cbn; now rewrite L|]. intros [|i] d Hi; [reflexivity|]. cbn in *. apply N. lia.
  - discriminate.
Qed.

Lemma roll_length x k : length (np_roll x k) = length x.
Proof. unfold np_roll. now rewrite map_length, seq_length. Qed.
Lemma roll_nth x k t : (t < length x)%nat ->
  nth t (np_roll x k) 0 = nth (Z.to_nat ((Z.of_nat t - k) mod Z.of_nat (length x))) x 0.
Proof.
  intros H. unfold np_roll. set (f := fun t => _).
  rewrite (nth_indep _ 0 (f 0%nat)) by (rewrite map_length, seq_length; exact H).
  rewrite map_nth, seq_nth by exact H. reflexivity.
Qed.

Lemma nth_firstn_lt {A} i m (l : list A) d : (i < m)%nat -> nth i (firstn m l) d = nth i l d.
Proof.
  revert i l. induction m as [|m IH]; intros i l H; [inversion H|]. destruct l as [|a l]; [now destruct i|].
  destruct i as [|i]; [reflexivity|]. cbn. apply IH. lia.
Qed.

(** A shift between 1 and anything gives the delayed copy, filled up with zeros. *)
Lemma pad_ok first sh y : first <> [] -> pad_shift first sh = Ok y ->
  (0 < sh)%Z /\ length y = length first /\
  forall t, (t < length first)%nat ->
    nth t y 0 = if (Z.of_nat t <? sh)%Z then 0 else nth (t - Z.to_nat sh) first 0.
Proof.
  intros Hne. unfold pad_shift. destruct (Z.ltb_spec sh 0); [discriminate|].
  unfold drop_last. destruct (Z.to_nat sh =? 0)%nat eqn:E.
  - unfold assign_column. destruct first; [congruence|]. cbn. discriminate.
  - apply Nat.eqb_neq in E. intros H1.
    assert (L : length (firstn (length (repeat 0 (Z.to_nat sh) ++ first) - Z.to_nat sh) (repeat 0 (Z.to_nat sh) ++ first)) = length first).
    { rewrite firstn_length, app_length, repeat_length. lia. }
    unfold assign_column in H1. rewrite L, Nat.eqb_refl in H1.
    apply (f_equal (fun r => match r with Ok a => a | _ => nil end)) in H1. cbv beta iota in H1. subst y.
    split; [lia|]. split; [exact L|]. intros t Ht.
    rewrite app_length, repeat_length. replace (Z.to_nat sh + length first - Z.to_nat sh)%nat with (length first) by lia.
    rewrite nth_firstn_lt by exact Ht.
    destruct (Z.ltb_spec (Z.of_nat t) sh).
    + rewrite app_nth1 by (rewrite repeat_length; lia). now rewrite nth_repeat.
    + rewrite app_nth2 by (rewrite repeat_length; lia). now rewrite repeat_length.
Qed.
Lemma pad_total first sh : first <> [] -> (exists y, pad_shift first sh = Ok y) <-> (0 < sh)%Z.
Proof.
  intros Hne. split; [intros [y H]; now apply (pad_ok first sh y Hne) in H|].
  intros H. unfold pad_shift. replace (sh <? 0)%Z with false by (symmetry; apply Z.ltb_ge; lia).
  unfold drop_last. replace (Z.to_nat sh =? 0)%nat with false by (symmetry; apply Nat.eqb_neq; lia).
  unfold assign_column. rewrite firstn_length, app_length, repeat_length.
  replace (Nat.min (Z.to_nat sh + length first - Z.to_nat sh) (Z.to_nat sh + length first)) with (length first) by lia.
  rewrite Nat.eqb_refl. eauto.
Qed.
Lemma pad_err first sh e : first <> [] -> pad_shift first sh = Err e -> e = ValueError.
Proof.
  intros Hne. unfold pad_shift, assign_column. destruct (sh <? 0)%Z; [now intros [=]|].
  destruct (length _ =? _)%nat; [discriminate|]. destruct (drop_last _ _) as [|? [|]]; now intros [=].
Qed.

Lemma columns_spec first (Hne : first <> []) : forall shifts ii cols, ttl_columns first ii shifts = Ok cols ->
  length cols = length shifts /\
  forall j, (j < length shifts)%nat ->
    length (nth j cols []) = length first /\
    if (ii + j =? 0)%nat then nth j cols [] = first
    else (0 < nth j shifts 0%Z)%Z /\ forall t, (t < length first)%nat ->
      nth t (nth j cols []) 0 = if (Z.of_nat t <? nth j shifts 0%Z)%Z then 0 else nth (t - Z.to_nat (nth j shifts 0%Z)) first 0.
Proof.
  induction shifts as [|sh shifts IH]; intros ii cols H; cbn in H.
  - inversion H. split; [reflexivity|]. intros j Hj. inversion Hj.
  - destruct (if (ii =? 0)%nat then Ok first else pad_shift first sh) as [c|] eqn:E; [|discriminate]. cbn [bind] in H.
    destruct (ttl_columns first (S ii) shifts) as [r|] eqn:E2; [|discriminate]. cbn [bind] in H.
    inversion H; subst. destruct (IH _ _ E2) as [L N]. split; [cbn; now rewrite L|].
    intros [|j] Hj.
    + cbn [nth]. rewrite Nat.add_0_r. destruct (ii =? 0)%nat.
      * inversion E. now subst.
      * apply (pad_ok _ _ _ Hne) in E. tauto.
    + cbn [nth]. replace (ii + S j)%nat with (S ii + j)%nat by lia. apply N. cbn in Hj. lia.
Qed.

Lemma columns_total first (Hne : first <> []) : forall shifts ii,
  (forall j, (j < length shifts)%nat -> (ii + j <> 0)%nat -> (0 < nth j shifts 0%Z)%Z) ->
  exists cols, ttl_columns first ii shifts = Ok cols.
Proof.
  induction shifts as [|sh shifts IH]; intros ii H; [cbn; eauto|]. cbn [ttl_columns].
  assert (E : exists c, (if (ii =? 0)%nat then Ok first else pad_shift first sh) = Ok c).
  { destruct (ii =? 0)%nat eqn:E; [eauto|]. apply Nat.eqb_neq in E. apply (pad_total first sh Hne).
    apply (H 0%nat); [cbn; lia|lia]. }
  destruct E as [c ->]. cbn [bind]. destruct (IH (S ii)) as [r ->]; [|cbn [bind]; eauto].
  intros j Hj Hn. apply (H (S j)); cbn; lia.
Qed.
Lemma columns_err first (Hne : first <> []) : forall shifts ii j,
  (j < length shifts)%nat -> (ii + j <> 0)%nat -> (nth j shifts 0%Z <= 0)%Z -> ttl_columns first ii shifts = Err ValueError.
Proof.
  induction shifts as [|sh shifts IH]; intros ii j Hj Hn Hs; [inversion Hj|]. cbn [ttl_columns].
  destruct (if (ii =? 0)%nat then Ok first else pad_shift first sh) as [c|e] eqn:E; cbn [bind].
  - destruct j as [|j].
    + exfalso. replace (ii =? 0)%nat with false in E by (symmetry; apply Nat.eqb_neq; lia).
      apply (pad_ok _ _ _ Hne) in E. cbn in Hs. lia.
    + rewrite (IH (S ii) j); [reflexivity|cbn in Hj; lia|lia|exact Hs].
  - destruct (ii =? 0)%nat; [discriminate|]. now rewrite (pad_err _ _ _ Hne E).
Qed.

(** The window: exactly the bins away from every notch, counted circularly. *)
Lemma delete_spec nbin notch shifts w : (0 < nbin)%Z ->
  np_delete nbin (restrict_ind nbin notch shifts) = Ok w ->
  (forall j, In j w <-> (0 <= j < nbin)%Z /\
     forall sh r, In sh shifts -> (Z.abs (r - sh) <= notch)%Z -> (r mod nbin <> j)%Z).
Proof.
  intros Hn. unfold np_delete. destruct (forallb _ _) eqn:F; [|discriminate]. intros H.
  apply (f_equal (fun r => match r with Ok a => a | _ => nil end)) in H. cbv beta iota in H. subst w.
  rewrite forallb_forall in F.
  intros j. rewrite filter_In, arangeZ_In. apply and_iff_compat_l.
  rewrite negb_true_iff. split.
  - intros E sh r Hs Hr Hj. apply not_true_iff_false in E. apply E. apply existsb_exists. exists j.
    split; [|apply Z.eqb_refl]. unfold restrict_ind in *. rewrite !map_map.
    assert (I : In r (flat_map (fun sh => arangeZ (sh - notch) (sh + notch + 1)) shifts)).
    { apply in_flat_map. exists sh. split; [exact Hs|]. apply arangeZ_In. lia. }
    apply in_map_iff. exists r. split; [|exact I].
    specialize (F (if (r <? 0)%Z then (nbin + r)%Z else r)
                  ltac:(apply in_map_iff; exists r; split; [reflexivity|exact I])).
    apply andb_prop in F. destruct F as [F1 F2]. apply Z.leb_le in F1. apply Z.ltb_lt in F2.
    subst j. destruct (Z.ltb_spec r 0).
    + destruct (Z.ltb_spec (nbin + r) 0); apply (Z.mod_unique_pos _ _ (if (nbin + r <? 0)%Z then -2 else -1)%Z);
        destruct (Z.ltb_spec (nbin + r) 0); lia.
    + destruct (Z.ltb_spec r 0); [lia|]. symmetry. apply Z.mod_small. lia.
  - intros A. apply not_true_iff_false. intros E. apply existsb_exists in E. destruct E as [i [Hi Ei]].
    apply Z.eqb_eq in Ei. subst i. unfold restrict_ind in *. rewrite map_map in Hi.
    apply in_map_iff in Hi. destruct Hi as [r [Er Ir]].
    specialize (F (if (r <? 0)%Z then (nbin + r)%Z else r)
                  ltac:(apply in_map_iff; exists r; split; [reflexivity|exact Ir])).
    apply andb_prop in F. destruct F as [F1 F2]. apply Z.leb_le in F1. apply Z.ltb_lt in F2.
    apply in_flat_map in Ir. destruct Ir as [sh [Hs Ir]]. apply arangeZ_In in Ir.
    apply (A sh r Hs ltac:(lia)). subst j. destruct (Z.ltb_spec r 0).
    + destruct (Z.ltb_spec (nbin + r) 0); symmetry; apply (Z.mod_unique_pos _ _ (if (nbin + r <? 0)%Z then -2 else -1)%Z);
        destruct (Z.ltb_spec (nbin + r) 0); lia.
    + destruct (Z.ltb_spec r 0); [lia|]. apply Z.mod_small. lia.
Qed.

Lemma nth_repeat_lt (v : R) n t : (t < n)%nat -> nth t (repeat v n) 0 = v.
Proof. revert t. induction n as [|n IH]; intros [|t] H; cbn; try lia; [reflexivity|]. apply IH. lia. Qed.
Lemma delete_sorted nbin idx w : np_delete nbin idx = Ok w -> StronglySorted Z.lt w.
Proof.
  unfold np_delete. destruct (forallb _ _); [|discriminate]. intros H.
  apply (f_equal (fun r => match r with Ok a => a | _ => nil end)) in H. cbv beta iota in H. subst w.
  apply filter_sorted, zrange_sorted.
Qed.

(** It fails exactly when a notch reaches beyond the end (or more than two lengths before the start). *)
Lemma delete_ok nbin notch shifts : (0 < nbin)%Z ->
  (forall sh, In sh shifts -> (-2 * nbin <= sh - notch)%Z /\ (sh + notch < nbin)%Z) ->
  exists w, np_delete nbin (restrict_ind nbin notch shifts) = Ok w.
Proof.
  intros Hn H. unfold np_delete. rewrite (proj2 (forallb_forall _ _)); [eauto|].
  intros x Hx. unfold restrict_ind in Hx. apply in_map_iff in Hx. destruct Hx as [r [<- Hr]].
  apply in_flat_map in Hr. destruct Hr as [sh [Hs Hr]]. apply arangeZ_In in Hr. specialize (H sh Hs).
  apply andb_true_intro. split; [apply Z.leb_le|apply Z.ltb_lt]; destruct (Z.ltb_spec r 0); lia.
Qed.
Lemma delete_err nbin notch shifts : (0 < nbin)%Z -> (0 <= notch)%Z ->
  (exists sh, In sh shifts /\ (nbin <= sh + notch)%Z) ->
  np_delete nbin (restrict_ind nbin notch shifts) = Err IndexError.
Proof.
  intros Hn H0 [sh [Hs H]]. unfold np_delete. destruct (forallb _ _) eqn:F; [|reflexivity]. exfalso.
  rewrite forallb_forall in F.
  assert (I : In (Z.max nbin (sh - notch)) (restrict_ind nbin notch shifts)).
  { unfold restrict_ind. apply in_map_iff. exists (Z.max nbin (sh - notch)). split.
    - destruct (Z.ltb_spec (Z.max nbin (sh - notch)) 0); lia.
    - apply in_flat_map. exists sh. split; [exact Hs|]. apply arangeZ_In. lia. }
  specialize (F _ I). apply andb_prop in F. destruct F as [_ F]. apply Z.ltb_lt in F. lia.
Qed.

Lemma ttl_inv template fs rate con pos notch out : template <> [] ->
  maketemplate_ttlfit_nsmb template fs rate con pos notch = Ok out ->
  exists nttl k shifts cols sl,
    ttl_count (Z.of_nat (length template)) fs rate = Some nttl /\ (0 <= nttl)%Z /\
    ttl_roll nttl fs rate = Some k /\
    length shifts = Z.to_nat nttl /\
    (forall i, (i < Z.to_nat nttl)%nat -> ttl_shift fs rate i = Some (nth i shifts 0%Z)) /\
    ttl_columns (np_roll template k) 0 shifts = Ok cols /\
    slope_column (Z.of_nat (length template)) = Ok sl /\
    np_delete (Z.of_nat (length template)) (restrict_ind (Z.of_nat (length template)) notch shifts) = Ok (t_window out) /\
    t_templates out = cols ++ [sl; repeat 1 (length template)] /\
    t_shifts out = map IZR shifts ++ [0; 0] /\
    t_polarity out = map (fun _ => ttl_polarity con pos) shifts ++ [0; 0].
Proof.
  intros Hne. unfold maketemplate_ttlfit_nsmb.
  destruct (SFeqb rate (fl 0)); [discriminate|]. destruct (SFeqb fs (fl 0)); [discriminate|].
  destruct (ttl_count _ fs rate) as [nttl|] eqn:E1; [|discriminate].
  destruct (ttl_roll nttl fs rate) as [k|] eqn:E2; [|discriminate].
  destruct (Z.ltb_spec nttl (-2)); [discriminate|]. destruct (Z.ltb_spec nttl 0); [discriminate|].
  destruct (option_list _) as [shifts|] eqn:E3; [|discriminate].
  destruct (ttl_columns _ 0 shifts) as [cols|] eqn:E4; [|discriminate]. cbn [bind].
  destruct (slope_column _) as [sl|] eqn:E5; [|discriminate]. cbn [bind].
  destruct (np_delete _ _) as [w|] eqn:E6; [|discriminate]. cbn [bind].
  intros H1. apply (f_equal (fun r => match r with Ok a => a | _ => mkTtl [] [] [] [] end)) in H1. cbv beta iota in H1. subst out.
  apply option_list_spec in E3. rewrite map_length, seq_length in E3. destruct E3 as [L N].
  exists nttl, k, shifts, cols, sl. cbn [t_window t_templates t_shifts t_polarity].
  split; [reflexivity|]. split; [assumption|]. split; [exact E2|]. split; [exact L|]. split.
  { intros i Hi. rewrite <- (N i 0%Z Hi).
    rewrite (nth_indep _ None (ttl_shift fs rate 0)) by (rewrite map_length, seq_length; exact Hi).
    rewrite (map_nth (ttl_shift fs rate)), seq_nth by exact Hi. reflexivity. }
  repeat split; assumption.
Qed.

(** The returned templates, shifts, constraints and window. *)
Lemma ttl_correct template fs rate con pos notch out : template <> [] ->
  maketemplate_ttlfit_nsmb template fs rate con pos notch = Ok out ->
  let n := Z.of_nat (length template) in
  exists (count : nat) (k : Z) (shift : nat -> Z),
    ttl_count n fs rate = Some (Z.of_nat count) /\ ttl_roll (Z.of_nat count) fs rate = Some k /\
    (forall i, (i < count)%nat -> ttl_shift fs rate i = Some (shift i)) /\
    length (t_templates out) = (count + 2)%nat /\
    t_shifts out = map (fun i => IZR (shift i)) (seq 0 count) ++ [0; 0] /\
    t_polarity out = repeat (if con then (if pos then 1 else -1) else 0) count ++ [0; 0] /\
    (forall c, In c (t_templates out) -> length c = length template) /\
    ((0 < count)%nat -> forall t, (t < length template)%nat ->
       nth t (nth 0 (t_templates out) []) 0 = nth (Z.to_nat ((Z.of_nat t - k) mod n)) template 0) /\
    (forall i, (0 < i < count)%nat -> (0 < shift i)%Z /\ forall t, (t < length template)%nat ->
       nth t (nth i (t_templates out) []) 0 =
       if (Z.of_nat t <? shift i)%Z then 0 else nth (t - Z.to_nat (shift i)) (nth 0 (t_templates out) []) 0) /\
    ((n <= 2 ^ 51)%Z -> forall t, (t < length template)%nat ->
       nth t (nth count (t_templates out) []) 0 = INR t / IZR n) /\
    (forall t, (t < length template)%nat -> nth t (nth (count + 1) (t_templates out) []) 0 = 1) /\
    StronglySorted Z.lt (t_window out) /\
    (forall j, In j (t_window out) <-> (0 <= j < n)%Z /\
       forall i r, (i < count)%nat -> (Z.abs (r - shift i) <= notch)%Z -> (r mod n <> j)%Z).
Proof.
  intros Hne H n.
  destruct (ttl_inv _ _ _ _ _ _ _ Hne H) as (nttl & k & shifts & cols & sl & E1 & H0 & E2 & L & N & EC & ES & ED & ET & EH & EP).
  assert (Hn : (0 < length template)%nat) by (destruct template; [congruence|cbn; lia]).
  assert (Hne' : np_roll template k <> []).
  { intros E. apply (f_equal (@length R)) in E. rewrite roll_length in E. cbn in E. lia. }
  destruct (columns_spec _ Hne' _ _ _ EC) as [LC C]. rewrite roll_length in C.
  exists (Z.to_nat nttl), k, (fun i => nth i shifts 0%Z). rewrite Z2Nat.id by exact H0.
  split; [exact E1|]. split; [exact E2|]. split; [exact N|]. rewrite ET, EH, EP.
  split; [rewrite app_length, LC, L; cbn; lia|].
  split; [f_equal; rewrite <- L; apply (nth_ext _ _ 0 0); [now rewrite !map_length, seq_length|];
    intros i Hi; rewrite map_length in Hi;
    rewrite (map_nth IZR);
    rewrite (nth_indep (map _ (seq _ _)) 0 (IZR (nth 0 shifts 0%Z))) by (now rewrite map_length, seq_length);
    rewrite (map_nth (fun i => IZR (nth i shifts 0%Z))), seq_nth by exact Hi; reflexivity|].
  split; [f_equal; rewrite <- L; clear; induction shifts as [|a l IH]; [reflexivity|cbn; now rewrite IH]|].
  split.
  { intros c Hc. apply in_app_or in Hc. destruct Hc as [Hc|[<-|[<-|[]]]].
    - apply (In_nth _ _ []) in Hc. destruct Hc as [j [Hj <-]]. rewrite LC in Hj. now apply C.
    - apply slope_length in ES. rewrite ES. unfold n. lia.
    - apply repeat_length. }
  assert (Z0 : (0 < Z.to_nat nttl)%nat -> nth 0 (cols ++ [sl; repeat 1 (length template)]) [] = np_roll template k).
  { intros P. rewrite app_nth1 by lia. specialize (C 0%nat ltac:(lia)). cbn in C. apply C. }
  split; [intros P t Ht; rewrite Z0 by exact P; now apply roll_nth|].
  split.
  { intros i Hi. rewrite Z0 by lia. rewrite app_nth1 by lia. specialize (C i ltac:(lia)).
    replace (0 + i =? 0)%nat with false in C by (symmetry; apply Nat.eqb_neq; lia). apply C. }
  split.
  { intros Hb t Ht. rewrite app_nth2 by lia. rewrite LC, L, Nat.sub_diag. cbn [nth].
    apply (slope_column_value n sl); [lia|exact ES|unfold n; lia]. }
  split.
  { intros t Ht. rewrite app_nth2 by lia. rewrite LC, L. replace (Z.to_nat nttl + 1 - Z.to_nat nttl)%nat with 1%nat by lia.
    cbn [nth]. apply nth_repeat_lt. exact Ht. }
  split; [exact (delete_sorted _ _ _ ED)|].
  intros j. rewrite (delete_spec n notch shifts _ ltac:(lia) ED). apply and_iff_compat_l. split.
  - intros A i r Hi. apply A. apply nth_In. lia.
  - intros A sh r Hs. apply (In_nth _ _ 0%Z) in Hs. destruct Hs as [i [Hi <-]]. apply A. lia.
Qed.

(** Success and failure in terms of the count, the shifts and the notch. *)
Definition ttl_nums (n : Z) (fs rate : spec_float) (count : nat) (shift : nat -> Z) : Prop :=
  SFeqb rate (fl 0) = false /\ SFeqb fs (fl 0) = false /\ ttl_count n fs rate = Some (Z.of_nat count) /\
  (exists k, ttl_roll (Z.of_nat count) fs rate = Some k) /\
  forall i, (i < count)%nat -> ttl_shift fs rate i = Some (shift i).

Lemma option_list_some {A} (f : nat -> option A) (g : nat -> A) : forall l,
  (forall i, In i l -> f i = Some (g i)) -> option_list (map f l) = Some (map g l).
Proof.
  induction l as [|a l IH]; intros H; [reflexivity|]. cbn. rewrite (H a) by now left.
  rewrite IH; [reflexivity|]. intros i Hi. apply H. now right.
Qed.

Lemma ttl_run template fs rate con pos notch count shift : template <> [] ->
  ttl_nums (Z.of_nat (length template)) fs rate count shift ->
  exists k, maketemplate_ttlfit_nsmb template fs rate con pos notch =
    do cols <- ttl_columns (np_roll template k) 0 (map shift (seq 0 count));
    do sl <- slope_column (Z.of_nat (length template));
    do w <- np_delete (Z.of_nat (length template)) (restrict_ind (Z.of_nat (length template)) notch (map shift (seq 0 count)));
    Ok (mkTtl (cols ++ [sl; repeat 1 (length template)]) (map IZR (map shift (seq 0 count)) ++ [0; 0])
              (map (fun _ => ttl_polarity con pos) (map shift (seq 0 count)) ++ [0; 0]) w).
Proof.
  intros Hne (H1 & H2 & H3 & [k H4] & H5). exists k. unfold maketemplate_ttlfit_nsmb.
  rewrite H1, H2, H3, H4. replace (Z.of_nat count <? -2)%Z with false by (symmetry; apply Z.ltb_ge; lia).
  replace (Z.of_nat count <? 0)%Z with false by (symmetry; apply Z.ltb_ge; lia). rewrite Nat2Z.id.
  rewrite (option_list_some _ shift); [reflexivity|]. intros i Hi. apply in_seq in Hi. apply H5. lia.
Qed.

Lemma ttl_ok template fs rate con pos notch count shift : template <> [] ->
  ttl_nums (Z.of_nat (length template)) fs rate count shift ->
  (exists sl, slope_column (Z.of_nat (length template)) = Ok sl) ->
  (forall i, (0 < i < count)%nat -> (0 < shift i)%Z) ->
  (forall i, (i < count)%nat -> (-2 * Z.of_nat (length template) <= shift i - notch)%Z /\
                               (shift i + notch < Z.of_nat (length template))%Z) ->
  exists out, maketemplate_ttlfit_nsmb template fs rate con pos notch = Ok out.
Proof.
  intros Hne HN [sl ES] HS HW. destruct (ttl_run template fs rate con pos notch count shift Hne HN) as [k ->].
  assert (Hn : (0 < length template)%nat) by (destruct template; [congruence|cbn; lia]).
  assert (Hne' : np_roll template k <> []).
  { intros E. apply (f_equal (@length R)) in E. rewrite roll_length in E. cbn in E. lia. }
  destruct (columns_total _ Hne' (map shift (seq 0 count)) 0) as [cols ->].
  { intros j Hj Hj0. rewrite map_length, seq_length in Hj.
    rewrite (nth_indep _ 0%Z (shift 0%nat)) by (now rewrite map_length, seq_length).
    rewrite map_nth, seq_nth by exact Hj. apply HS. lia. }
  cbn [bind]. rewrite ES. cbn [bind].
  destruct (delete_ok (Z.of_nat (length template)) notch (map shift (seq 0 count)) ltac:(lia)) as [w ->]; [|cbn [bind]; eauto].
  intros sh Hs. apply in_map_iff in Hs. destruct Hs as [i [<- Hi]]. apply in_seq in Hi. apply HW. lia.
Qed.

Lemma ttl_zero_shift template fs rate con pos notch count shift i : template <> [] ->
  ttl_nums (Z.of_nat (length template)) fs rate count shift ->
  (0 < i < count)%nat -> (shift i <= 0)%Z ->
  maketemplate_ttlfit_nsmb template fs rate con pos notch = Err ValueError.
Proof.
  intros Hne HN Hi Hs. destruct (ttl_run template fs rate con pos notch count shift Hne HN) as [k ->].
  assert (Hn : (0 < length template)%nat) by (destruct template; [congruence|cbn; lia]).
  assert (Hne' : np_roll template k <> []).
  { intros E. apply (f_equal (@length R)) in E. rewrite roll_length in E. cbn in E. lia. }
  rewrite (columns_err _ Hne' _ 0 i); [reflexivity|rewrite map_length, seq_length; lia|lia|].
  rewrite (nth_indep _ 0%Z (shift 0%nat)) by (rewrite map_length, seq_length; lia).
  rewrite map_nth, seq_nth by lia. exact Hs.
Qed.

Lemma ttl_notch_err template fs rate con pos notch count shift i : template <> [] ->
  ttl_nums (Z.of_nat (length template)) fs rate count shift ->
  (exists sl, slope_column (Z.of_nat (length template)) = Ok sl) ->
  (forall i, (0 < i < count)%nat -> (0 < shift i)%Z) ->
  (0 <= notch)%Z -> (i < count)%nat -> (Z.of_nat (length template) <= shift i + notch)%Z ->
  maketemplate_ttlfit_nsmb template fs rate con pos notch = Err IndexError.
Proof.
  intros Hne HN [sl ES] HS H0 Hi HW. destruct (ttl_run template fs rate con pos notch count shift Hne HN) as [k ->].
  assert (Hn : (0 < length template)%nat) by (destruct template; [congruence|cbn; lia]).
  assert (Hne' : np_roll template k <> []).
  { intros E. apply (f_equal (@length R)) in E. rewrite roll_length in E. cbn in E. lia. }
  destruct (columns_total _ Hne' (map shift (seq 0 count)) 0) as [cols ->].
  { intros j Hj Hj0. rewrite map_length, seq_length in Hj.
    rewrite (nth_indep _ 0%Z (shift 0%nat)) by (now rewrite map_length, seq_length).
    rewrite map_nth, seq_nth by exact Hj. apply HS. lia. }
  cbn [bind]. rewrite ES. cbn [bind]. rewrite delete_err; [reflexivity|lia|exact H0|].
  exists (shift i). split; [|exact HW]. apply in_map. apply in_seq. lia.
Qed.
