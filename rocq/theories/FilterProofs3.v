(** * Proofs about align_traces *)
From Verif Require Import Base ListLemmas FilterModel FilterSpec FilterProofs2.
From Verif Require Import UtilsModel UtilsSpec UtilsProofs3 UtilsProofs5 WindowProofs.
Local Open Scope R_scope.

(** ** The overlap *)

Lemma convolve_overlap a b k : length a = length b -> (k < 2 * length a - 1)%nat ->
  nth k (convolve a (rev b)) 0 = overlap a b (Z.of_nat k - (Z.of_nat (length a) - 1)).
Proof.
  intros HL Hk. unfold convolve. rewrite rev_length, mk_nth by lia. unfold overlap. apply rsum_ext. intros j Hj.
  set (i := (Z.of_nat j - (Z.of_nat k - (Z.of_nat (length a) - 1)))%Z).
  destruct (Nat.leb_spec j k) as [H1|H1]; cbn [andb].
  - destruct (Nat.ltb_spec (k - j) (length b)) as [H2|H2].
    + replace (0 <=? i)%Z with true by (symmetry; apply Z.leb_le; lia).
      replace (i <? Z.of_nat (length b))%Z with true by (symmetry; apply Z.ltb_lt; lia). cbn [andb].
      rewrite rev_nth by exact H2. do 2 f_equal. unfold i. lia.
    + replace (0 <=? i)%Z with false by (symmetry; apply Z.leb_gt; lia). reflexivity.
  - replace (i <? Z.of_nat (length b))%Z with false by (symmetry; apply Z.ltb_ge; lia).
    now rewrite Bool.andb_false_r.
Qed.

Lemma peak_lag_best a b : length a = length b -> (0 < length a)%nat ->
  best_lag (Z.of_nat (length a)) a b (peak_lag (Some a) (Some b) - (Z.of_nat (length a) - 1)).
Proof.
  intros HL H0. unfold peak_lag.
  assert (HC : length (convolve a (rev b)) = (2 * length a - 1)%nat).
  { unfold convolve. rewrite mk_length, rev_length. lia. }
  assert (HO := fun k => convolve_overlap a b k HL).
  destruct (convolve a (rev b)) as [|v l]; [simpl in HC; lia|].
  assert (Hm : first_maximum (v :: l) (argmax_from 1 0 v l)).
  { apply (argmax_from_spec l [v] 0 v); [simpl; lia|reflexivity|].
    intros [|i] Hi; [simpl; split; [lra|lia]|simpl in Hi; lia]. }
  set (p := argmax_from 1 0 v l) in *. destruct Hm as [Hp Hm]. rewrite HC in Hp.
  split; [lia|]. intros r Hr.
  set (i := Z.to_nat (r + (Z.of_nat (length a) - 1))).
  assert (Hi : (i < length (v :: l))%nat) by (rewrite HC; unfold i; lia).
  destruct (Hm i Hi) as [Hm1 Hm2]. rewrite HC in Hi. rewrite !HO in Hm1, Hm2 by assumption.
  replace (Z.of_nat i - (Z.of_nat (length a) - 1))%Z with r in * by (unfold i; lia).
  split; [exact Hm1|]. intros Hlt. apply Hm2. unfold i. lia.
Qed.

Lemma best_lag_unique n a b s r : best_lag n a b s -> best_lag n a b r -> s = r.
Proof.
  intros [Hs Ms] [Hr Mr]. destruct (Z.lt_trichotomy s r) as [H|[H|H]]; [|exact H|].
  - destruct (Ms r Hr) as [A _]. destruct (Mr s Hs) as [_ B]. specialize (B H). lra.
  - destruct (Mr s Hs) as [A _]. destruct (Ms r Hr) as [_ B]. specialize (B H). lra.
Qed.

Lemma overlap_scale a b c d s :
  overlap (map (fun v => c * v) a) (map (fun v => d * v) b) s = c * d * overlap a b s.
Proof.
  unfold overlap. rewrite !map_length, <- rsum_scal_l. apply rsum_ext. intros j Hj.
  set (i := (Z.of_nat j - s)%Z). destruct (Z.leb_spec 0 i) as [H1|H1]; cbn [andb]; [|ring].
  destruct (Z.ltb_spec i (Z.of_nat (length b))) as [H2|H2]; [|ring].
  rewrite (nth_indep _ 0 (c * 0)) by now rewrite map_length.
  rewrite (nth_indep (map _ b) 0 (d * 0)) by (rewrite map_length; lia).
  rewrite (map_nth (fun v => c * v) a 0 j), (map_nth (fun v => d * v) b 0). ring.
Qed.

Lemma best_lag_scale n a b c d s : 0 < c -> 0 < d ->
  best_lag n (map (fun v => c * v) a) (map (fun v => d * v) b) s <-> best_lag n a b s.
Proof.
  intros Hc Hd. assert (Hcd : 0 < c * d) by nra. unfold best_lag.
  split; intros [Hs H]; (split; [exact Hs|]); intros r Hr; specialize (H r Hr); rewrite !overlap_scale in *;
    destruct H as [H1 H2].
  - split; [apply Rmult_le_reg_l with (c * d); assumption|].
    intros Hlt. apply Rmult_lt_reg_l with (c * d); auto.
  - split; [apply Rmult_le_compat_l; lra|]. intros Hlt. apply Rmult_lt_compat_l; auto.
Qed.

(** The overlap of a row with itself is largest without a shift. *)
Lemma overlap_self_zero a : overlap a a 0 = rsum (length a) (fun j => nth j a 0 * nth j a 0).
Proof.
  unfold overlap. apply rsum_ext. intros j Hj. rewrite Z.sub_0_r.
  replace (0 <=? Z.of_nat j)%Z with true by (symmetry; apply Z.leb_le; lia).
  replace (Z.of_nat j <? Z.of_nat (length a))%Z with true by (symmetry; apply Z.ltb_lt; lia). cbn [andb].
  now rewrite Nat2Z.id.
Qed.

(** Entry [i] of [a], zero outside. *)
Definition at_z (a : list R) (i : Z) : R := if (0 <=? i)%Z then nth (Z.to_nat i) a 0 else 0.

Lemma overlap_at a b s :
  overlap a b s = rsum (length a) (fun j => nth j a 0 * at_z b (Z.of_nat j - s)).
Proof.
  unfold overlap, at_z. apply rsum_ext. intros j Hj. set (i := (Z.of_nat j - s)%Z).
  destruct (Z.leb_spec 0 i) as [H|H]; cbn [andb]; [|ring].
  destruct (Z.ltb_spec i (Z.of_nat (length b))) as [H2|H2]; [reflexivity|].
  rewrite (nth_overflow b) by lia. ring.
Qed.

(** The moved row has no more square sum, and equal only if nothing fell off. *)
Lemma moved_squares a s :
  let sq := fun v : R => v * v in
  rsum (length a) (fun j => sq (at_z a (Z.of_nat j - s))) <= rsum (length a) (fun j => sq (nth j a 0)).
Proof.
  intros sq. assert (Hsq : forall v, 0 <= sq v) by (intros v; unfold sq; nra).
  assert (H0 : sq 0 = 0) by (unfold sq; ring).
  destruct (Z.le_ge_cases 0 s) as [Hs|Hs].
  - (* to the right: the first entries survive *)
    set (d := Z.to_nat s). destruct (Nat.le_gt_cases (length a) d) as [Hd|Hd].
    + rewrite (rsum_ext _ _ (fun _ => 0)), rsum_zero.
      * apply rsum_nonneg. auto.
      * intros j Hj. unfold at_z. replace (0 <=? Z.of_nat j - s)%Z with false by (symmetry; apply Z.leb_gt; lia).
        exact H0.
    + replace (length a) with (d + (length a - d))%nat at 1 by lia. rewrite rsum_split.
      rewrite (rsum_ext d _ (fun _ => 0)), rsum_zero, Rplus_0_l.
      2:{ intros j Hj. unfold at_z. replace (0 <=? Z.of_nat j - s)%Z with false by (symmetry; apply Z.leb_gt; lia).
          exact H0. }
      replace (rsum (length a) (fun j => sq (nth j a 0))) with (rsum ((length a - d) + d) (fun j => sq (nth j a 0)))
        by (f_equal; lia).
      rewrite rsum_split.
      rewrite (rsum_ext (length a - d) _ (fun k => sq (nth k a 0))).
      * assert (0 <= rsum d (fun k => sq (nth (length a - d + k) a 0))) by (apply rsum_nonneg; auto). lra.
      * intros k Hk. unfold at_z. replace (0 <=? Z.of_nat (d + k) - s)%Z with true by (symmetry; apply Z.leb_le; lia).
        do 2 f_equal. lia.
  - set (d := Z.to_nat (- s)). destruct (Nat.le_gt_cases (length a) d) as [Hd|Hd].
    + rewrite (rsum_ext _ _ (fun _ => 0)), rsum_zero.
      * apply rsum_nonneg. auto.
      * intros j Hj. unfold at_z. destruct (0 <=? Z.of_nat j - s)%Z; [|exact H0].
        rewrite nth_overflow by lia. exact H0.
    + replace (length a) with ((length a - d) + d)%nat at 1 by lia. rewrite rsum_split.
      rewrite (rsum_ext d _ (fun _ => 0)), rsum_zero, Rplus_0_r.
      2:{ intros j Hj. unfold at_z. destruct (0 <=? Z.of_nat (length a - d + j) - s)%Z; [|exact H0].
          rewrite nth_overflow by lia. exact H0. }
      replace (rsum (length a) (fun j => sq (nth j a 0))) with (rsum (d + (length a - d)) (fun j => sq (nth j a 0)))
        by (f_equal; lia).
      rewrite rsum_split.
      rewrite (rsum_ext (length a - d) _ (fun k => sq (nth (d + k) a 0))).
      * assert (0 <= rsum d (fun k => sq (nth k a 0))) by (apply rsum_nonneg; auto). lra.
      * intros k Hk. unfold at_z. replace (0 <=? Z.of_nat k - s)%Z with true by (symmetry; apply Z.leb_le; lia).
        do 2 f_equal. lia.
Qed.

(** A row equal to its own moved copy is zero. *)
Lemma moved_fixed a s : s <> 0%Z ->
  (forall j, (j < length a)%nat -> nth j a 0 = at_z a (Z.of_nat j - s)) ->
  forall j, nth j a 0 = 0.
Proof.
  intros Hs H.
  assert (P : (0 < s)%Z -> forall j, nth j a 0 = 0).
  { intros Hp j. induction j as [j IH] using lt_wf_ind.
    destruct (Nat.lt_ge_cases j (length a)) as [Hj|Hj]; [|now apply nth_overflow].
    rewrite (H j Hj). unfold at_z. destruct (Z.leb_spec 0 (Z.of_nat j - s)) as [H1|H1]; [|reflexivity].
    apply IH. lia. }
  assert (N : (s < 0)%Z -> forall m j, (length a - j <= m)%nat -> nth j a 0 = 0).
  { intros Hn. induction m as [|m IH]; intros j Hm.
    - apply nth_overflow. lia.
    - destruct (Nat.lt_ge_cases j (length a)) as [Hj|Hj]; [|now apply nth_overflow].
      rewrite (H j Hj). unfold at_z. destruct (Z.leb_spec 0 (Z.of_nat j - s)) as [H1|H1]; [|reflexivity].
      apply IH. lia. }
  intros j. destruct (Z.lt_trichotomy s 0) as [C|[C|C]]; [|congruence|now apply P].
  now apply (N C (length a - j)%nat).
Qed.

Lemma best_lag_self a : (exists v, In v a /\ v <> 0) -> best_lag (Z.of_nat (length a)) a a 0.
Proof.
  intros (v & Hv & Hv0). assert (HL : (0 < length a)%nat) by (destruct a; [destruct Hv|simpl; lia]).
  assert (Strict : forall r, r <> 0%Z -> overlap a a r < overlap a a 0).
  { intros r Hr. rewrite overlap_self_zero, overlap_at.
    assert (Hsum := moved_squares a r). cbv zeta beta in Hsum.
    set (B := fun j => at_z a (Z.of_nat j - r)) in *. set (A := fun j => nth j a 0) in *.
    change (rsum (length a) (fun j => A j * B j) < rsum (length a) (fun j => A j * A j)).
    change (rsum (length a) (fun j => B j * B j) <= rsum (length a) (fun j => A j * A j)) in Hsum.
    assert (Hd : rsum (length a) (fun j => (A j - B j) * (A j - B j))
       = rsum (length a) (fun j => A j * A j) - 2 * rsum (length a) (fun j => A j * B j)
         + rsum (length a) (fun j => B j * B j)).
    { rewrite <- rsum_scal_l, <- rsum_minus, <- rsum_plus. apply rsum_ext. intros. ring. }
    assert (Hpos : 0 < rsum (length a) (fun j => (A j - B j) * (A j - B j))).
    { assert (Hnn : 0 <= rsum (length a) (fun j => (A j - B j) * (A j - B j))) by (apply rsum_nonneg; intros; apply Rle_0_sqr).
      destruct Hnn as [Hnn|Hnn]; [exact Hnn|]. exfalso.
      assert (Hz : forall j, nth j a 0 = 0).
      { apply (moved_fixed a r Hr). intros j Hj.
        assert (E : (A j - B j) * (A j - B j) = 0).
        { apply (rsum_nonneg_zero (length a) (fun j => (A j - B j) * (A j - B j))); [intros k _; apply (Rle_0_sqr (A k - B k))|symmetry; exact Hnn|exact Hj]. }
        apply Rsqr_0_uniq in E. unfold A, B in E. lra. }
      apply (In_nth _ _ 0) in Hv. destruct Hv as (j & Hj & E). rewrite Hz in E. congruence. }
    lra. }
  split; [lia|]. intros r Hr. destruct (Z.eq_dec r 0) as [->|Hne].
  - split; [lra|lia].
  - specialize (Strict r Hne). split; [lra|intros _; exact Strict].
Qed.

(** ** Normalising *)

Lemma row_max_ge l : forall v, v <= row_max v l /\ forall w, In w l -> w <= row_max v l.
Proof.
  unfold row_max. induction l as [|u l IH]; intros v; cbn [fold_left].
  - split; [lra|intros w []].
  - destruct (IH (Rmax v u)) as [H1 H2]. assert (A := Rmax_l v u). assert (B := Rmax_r v u).
    split; [lra|]. intros w [<-|Hw]; [lra|auto].
Qed.

Lemma centred_sum x : x <> [] -> lsum (centred x) = 0.
Proof.
  intros Hx. unfold centred. rewrite (lsum_map_nth _ _ 0), rsum_minus, <- lsum_nth, rsum_const.
  unfold lmean. field. destruct x; [congruence|]. apply not_0_INR. simpl. lia.
Qed.

Lemma centred_length x : length (centred x) = length x.
Proof. apply map_length. Qed.

(** A row that is not constant is divided by a positive number after centring. *)
Lemma normalise_some x : (exists v, In v (centred x) /\ v <> 0) ->
  exists c, 0 < c /\ normalise x = Some (map (fun v => c * v) (centred x)).
Proof.
  intros (v & Hv & Hv0). unfold normalise. fold (centred x).
  assert (Hx : x <> []) by (intros ->; destruct Hv).
  assert (Hs := centred_sum x Hx).
  destruct (centred x) as [|u l]; [destruct Hv|].
  destruct (row_max_ge l u) as [H1 H2]. set (m := row_max u l) in *.
  assert (Hm : 0 < m).
  { destruct (Rle_or_lt m 0) as [Hm|Hm]; [exfalso|exact Hm].
    assert (Hz : forall w, In w (map Ropp (u :: l)) -> w = 0).
    { apply lsum_nonneg_zero.
      - intros w Hw. apply in_map_iff in Hw. destruct Hw as (z & <- & Hz).
        assert (z <= m) by (destruct Hz as [<-|Hz]; auto). lra.
      - rewrite (lsum_map_nth _ _ 0), rsum_opp, <- lsum_nth. lra. }
    apply Hv0. specialize (Hz (- v)). assert (- v = 0) by (apply Hz, in_map, Hv). lra. }
  rewrite Reqb_false by (apply Rgt_not_eq; exact Hm). exists (/ m). split; [now apply Rinv_0_lt_compat|].
  f_equal. apply map_ext. intros w. unfold Rdiv. ring.
Qed.

Lemma peak_lag_norm x y : length x = length y ->
  (exists v, In v (centred x) /\ v <> 0) -> (exists v, In v (centred y) /\ v <> 0) ->
  best_lag (Z.of_nat (length x)) (centred x) (centred y)
    (peak_lag (normalise x) (normalise y) - (Z.of_nat (length x) - 1)).
Proof.
  intros HL Hx Hy. assert (H0 : (0 < length x)%nat).
  { destruct Hx as (v & Hv & _). destruct x; [destruct Hv|simpl; lia]. }
  destruct (normalise_some x Hx) as (c & Hc & ->). destruct (normalise_some y Hy) as (d & Hd & ->).
  apply (best_lag_scale _ _ _ c d); [assumption|assumption|].
  assert (E : length x = length (map (fun v => c * v) (centred x))) by now rewrite map_length, centred_length.
  rewrite E. apply peak_lag_best.
  - rewrite !map_length, !centred_length. exact HL.
  - rewrite <- E. exact H0.
Qed.

Lemma peak_lag_self x : (exists v, In v (centred x) /\ v <> 0) ->
  peak_lag (normalise x) (normalise x) = (Z.of_nat (length x) - 1)%Z.
Proof.
  intros Hx. assert (H := peak_lag_norm x x eq_refl Hx Hx).
  assert (H2 := best_lag_self (centred x) Hx). rewrite centred_length in H2.
  assert (E := best_lag_unique _ _ _ _ _ H H2). lia.
Qed.

(** Centring forgets an offset. *)
Lemma centred_affine a c x : centred (map (fun v => a * v + c) x) = map (fun v => a * v) (centred x).
Proof.
  unfold centred. rewrite !map_map. apply map_ext_in. intros v Hv.
  assert (Hn : INR (length x) <> 0) by (destruct x; [destruct Hv|apply not_0_INR; simpl; lia]).
  unfold lmean. rewrite map_length, (lsum_map_nth _ _ 0), rsum_plus, rsum_scal_l, rsum_const, <- lsum_nth.
  field. exact Hn.
Qed.

(** ** align_traces *)

Definition cut_rows (n_cut : Z) (traces : list (list R)) : list (list R) :=
  map (fun tr => pyslice tr 0 n_cut) traces.

Lemma cut_rows_length n_cut traces n k : (forall tr, In tr traces -> length tr = n) -> (k < length traces)%nat ->
  length (nth k (cut_rows n_cut traces) []) = length (nth 0 (cut_rows n_cut traces) []).
Proof.
  intros H Hk. assert (G : forall j, (j < length traces)%nat ->
    length (nth j (cut_rows n_cut traces) []) =
    Z.to_nat (slice_bound (Z.of_nat n) n_cut - slice_bound (Z.of_nat n) 0)).
  { intros j Hj. unfold cut_rows. rewrite (nth_indep _ [] (pyslice [] 0 n_cut)) by now rewrite map_length.
    rewrite (map_nth (fun tr => pyslice tr 0 n_cut)), length_pyslice, H by now apply nth_In. reflexivity. }
  rewrite !G by lia. reflexivity.
Qed.

Lemma lowpass_rows_inv rows fc fs filt : lowpassfilter rows fc fs = Ok filt ->
  length filt = length rows /\ forall k, (k < length rows)%nat ->
    lowpassfilter [nth k rows []] fc fs = Ok [nth k filt []] /\
    length (nth k filt []) = length (nth k rows []).
Proof.
  assert (G : forall g p l out, all_ok (map (filtfilt g p) l) = Ok out ->
     length out = length l /\ forall k, (k < length l)%nat -> filtfilt g p (nth k l []) = Ok (nth k out [])).
  { intros g p. induction l as [|tr l IH]; intros out; cbn [map all_ok].
    - intros [= <-]. split; [reflexivity|]. intros k Hk. simpl in Hk. lia.
    - destruct (filtfilt g p tr) as [y|] eqn:Hy; [|discriminate]. cbn [bind].
      destruct (all_ok (map (filtfilt g p) l)) as [r|] eqn:Hr; [|discriminate]. cbn [bind]. intros [= <-].
      destruct (IH r eq_refl) as [HL Hk]. split; [simpl; now rewrite HL|].
      intros [|k] Hlt; [exact Hy|]. apply Hk. simpl in Hlt. lia. }
  unfold lowpassfilter at 1. destruct (butter1 (fc / (/ 2 * fs))) as [[g p]|] eqn:Hb; [|discriminate].
  cbn [bind fst snd]. intros H. destruct (G g p rows filt H) as [HL Hk]. split; [exact HL|].
  intros k Hlt. rewrite lowpass_one, Hb. cbn [bind fst snd]. rewrite (Hk k Hlt). cbn [bind].
  split; [reflexivity|]. apply (filtfilt_length g p). now apply Hk.
Qed.

Lemma ndshift_nan_moved arr s : moved_by arr s (ndshift_nan arr s).
Proof.
  unfold ndshift_nan. split; [apply mk_length|]. intros i Hi. rewrite mk_nth by exact Hi. cbv zeta.
  destruct (Z.leb_spec 0 (Z.of_nat i - s)) as [H1|H1]; cbn [andb]; [|reflexivity].
  destruct (Z.ltb_spec (Z.of_nat i - s) (Z.of_nat (length arr))) as [H2|H2]; [|reflexivity].
  rewrite (nth_error_nth' arr 0) by lia. reflexivity.
Qed.

Theorem align_spec traces just n_cut fc fs n filt :
  traces <> [] -> (forall tr, In tr traces -> length tr = n) ->
  lowpassfilter (cut_rows n_cut traces) 5000 625000 = Ok filt ->
  (forall y, In y filt -> exists v, In v (centred y) /\ v <> 0) ->
  exists shifts aligned,
    align_traces traces just n_cut fc fs = Ok (shifts, if just then None else Some aligned) /\
    length shifts = length traces /\ length aligned = length traces /\
    nth 0 shifts 0%Z = 0%Z /\
    forall k, (k < length traces)%nat ->
      best_lag (Z.of_nat (length (nth 0 filt []))) (centred (nth 0 filt [])) (centred (nth k filt [])) (nth k shifts 0%Z) /\
      moved_by (nth k traces []) (nth k shifts 0%Z) (nth k aligned []).
Proof.
  intros Hne Hlen HF Hvar. unfold align_traces. fold (cut_rows n_cut traces). rewrite HF. cbn [bind].
  destruct (lowpass_rows_inv _ _ _ _ HF) as [LF HK].
  assert (Lc : length (cut_rows n_cut traces) = length traces) by apply map_length. rewrite Lc in LF, HK.
  assert (L0 : (0 < length traces)%nat) by (destruct traces; [congruence|simpl; lia]).
  assert (Lrow : forall k, (k < length traces)%nat -> length (nth k filt []) = length (nth 0 filt [])).
  { intros k Hk. rewrite (proj2 (HK k Hk)), (proj2 (HK 0%nat L0)). now apply cut_rows_length with n. }
  rewrite (pyindex_in _ 0%Z None) by (rewrite map_length; lia). cbn [bind].
  change (Z.to_nat 0) with 0%nat.
  assert (E0 : nth 0 (map normalise filt) None = normalise (nth 0 filt [])).
  { destruct filt; [simpl in LF; lia|reflexivity]. }
  rewrite E0. set (t1 := nth 0 filt []) in *.
  assert (Ht1 : exists v, In v (centred t1) /\ v <> 0) by (apply Hvar, nth_In; lia).
  rewrite (peak_lag_self t1 Ht1).
  set (sh := map (fun t2 => (peak_lag (normalise t1) t2 - (Z.of_nat (length t1) - 1))%Z) (map normalise filt)).
  assert (Lsh : length sh = length traces) by (unfold sh; now rewrite !map_length).
  assert (Hsh : forall k, (k < length traces)%nat ->
    nth k sh 0%Z = (peak_lag (normalise t1) (normalise (nth k filt [])) - (Z.of_nat (length t1) - 1))%Z).
  { intros k Hk. unfold sh. rewrite map_map.
    set (F := fun x => (peak_lag (normalise t1) (normalise x) - (Z.of_nat (length t1) - 1))%Z).
    rewrite (nth_indep _ 0%Z (F [])) by (rewrite map_length; lia). apply (map_nth F). }
  exists sh, (map (fun p => ndshift_nan (fst p) (snd p)) (combine traces sh)).
  split; [reflexivity|]. split; [exact Lsh|]. split; [rewrite map_length, combine_length; lia|].
  split.
  - rewrite Hsh by exact L0. fold t1. rewrite (peak_lag_self t1 Ht1). lia.
  - intros k Hk. split.
    + rewrite Hsh by exact Hk. apply peak_lag_norm; [symmetry; now apply Lrow|exact Ht1|].
      apply Hvar, nth_In. lia.
    + set (F := fun p : list R * Z => ndshift_nan (fst p) (snd p)).
      rewrite (nth_indep _ [] (F ([], 0%Z))) by (rewrite map_length, combine_length; lia).
      rewrite (map_nth F), combine_nth by (symmetry; exact Lsh). apply ndshift_nan_moved.
Qed.

(** Rows that are the filtered rows times a positive gain plus an offset. *)
Lemma lowpass_affine a c x x' fc fs : 0 < fs -> 0 < fc < fs / 2 -> lowpassfilter [x] fc fs = Ok [x'] ->
  lowpassfilter [map (fun v => a * v + c) x] fc fs = Ok [map (fun v => a * v + c) x'].
Proof.
  intros Hf Hc H. destruct (Nat.le_gt_cases (length x) 6) as [H6|H6].
  - rewrite lowpass_errors in H by auto. discriminate.
  - destruct (lowpass_combination a 0 c x x fc fs Hf Hc eq_refl H6) as (y & z & E1 & E2 & E3).
    rewrite H in E1, E2. injection E1 as <-. injection E2 as <-.
    assert (G : forall l, combination a 0 c l l = map (fun v => a * v + c) l).
    { unfold combination. induction l as [|v l IH]; [reflexivity|]. cbn [combine map fst snd]. rewrite IH.
      f_equal. ring. }
    now rewrite !G in E3.
Qed.

Lemma pyslice_map {A B} (f : A -> B) l lo hi : pyslice (map f l) lo hi = map f (pyslice l lo hi).
Proof. unfold pyslice. now rewrite map_length, skipn_map, firstn_map. Qed.

Theorem align_gain_offset traces traces' just n_cut fc fs n filt (a c : nat -> R) shifts al shifts' al' :
  traces <> [] -> (forall tr, In tr traces -> length tr = n) ->
  lowpassfilter (cut_rows n_cut traces) 5000 625000 = Ok filt ->
  (forall y, In y filt -> exists v, In v (centred y) /\ v <> 0) ->
  length traces' = length traces ->
  (forall k, (k < length traces)%nat -> 0 < a k /\ nth k traces' [] = map (fun v => a k * v + c k) (nth k traces [])) ->
  align_traces traces just n_cut fc fs = Ok (shifts, al) ->
  align_traces traces' just n_cut fc fs = Ok (shifts', al') ->
  shifts' = shifts.
Proof.
  intros Hne Hlen HF Hvar HL Hk A1 A2.
  assert (L0 : (0 < length traces)%nat) by (destruct traces; [congruence|simpl; lia]).
  destruct (align_spec traces just n_cut fc fs n filt Hne Hlen HF Hvar) as (s1 & l1 & E1 & Ls1 & _ & _ & B1).
  rewrite E1 in A1. injection A1 as -> _. clear E1.
  destruct (lowpassfilter (cut_rows n_cut traces') 5000 625000) as [filt'|e] eqn:HF'.
  2:{ unfold align_traces in A2. fold (cut_rows n_cut traces') in A2. rewrite HF' in A2. discriminate. }
  destruct (lowpass_rows_inv _ _ _ _ HF) as [LF K1]. destruct (lowpass_rows_inv _ _ _ _ HF') as [LF' K2].
  assert (Lc : length (cut_rows n_cut traces) = length traces) by apply map_length. rewrite Lc in LF, K1.
  assert (Lc' : length (cut_rows n_cut traces') = length traces) by (rewrite <- HL; apply map_length). rewrite Lc' in LF', K2.
  assert (Erow : forall k, (k < length traces)%nat -> nth k filt' [] = map (fun v => a k * v + c k) (nth k filt [])).
  { intros k Hlt. destruct (K1 k Hlt) as [P1 _]. destruct (K2 k Hlt) as [P2 _].
    apply (lowpass_affine (a k) (c k)) in P1; [|lra|lra].
    assert (Ec : nth k (cut_rows n_cut traces') [] = map (fun v => a k * v + c k) (nth k (cut_rows n_cut traces) [])).
    { unfold cut_rows.
      assert (G : forall t : list (list R), nth k (map (fun tr => pyslice tr 0 n_cut) t) [] = pyslice (nth k t []) 0 n_cut).
      { intros t. assert (N : pyslice (@nil R) 0 n_cut = []) by (unfold pyslice; now rewrite skipn_nil, firstn_nil).
        rewrite <- N at 1. apply (map_nth (fun tr => pyslice tr 0 n_cut)). }
      rewrite !G, (proj2 (Hk k Hlt)), pyslice_map. reflexivity. }
    rewrite Ec, P1 in P2. congruence. }
  assert (Ecen : forall k, (k < length traces)%nat -> centred (nth k filt' []) = map (fun v => a k * v) (centred (nth k filt []))).
  { intros k Hlt. rewrite Erow by exact Hlt. apply centred_affine. }
  assert (Hvar' : forall y, In y filt' -> exists v, In v (centred y) /\ v <> 0).
  { intros y Hy. apply (In_nth _ _ []) in Hy. destruct Hy as (k & Hlt & <-). rewrite LF' in Hlt.
    destruct (Hvar (nth k filt [])) as (v & Hv & Hv0); [apply nth_In; lia|].
    rewrite Ecen by exact Hlt. exists (a k * v). split; [now apply (in_map (fun w => a k * w))|].
    apply Rmult_integral_contrapositive_currified; [|exact Hv0]. apply Rgt_not_eq. now apply Hk. }
  assert (Hne' : traces' <> []) by (intros ->; simpl in HL; lia).
  assert (Hlen' : forall tr, In tr traces' -> length tr = n).
  { intros tr Hin. apply (In_nth _ _ []) in Hin. destruct Hin as (k & Hlt & <-). rewrite HL in Hlt.
    rewrite (proj2 (Hk k Hlt)), map_length. apply Hlen, nth_In, Hlt. }
  destruct (align_spec traces' just n_cut fc fs n filt' Hne' Hlen' HF' Hvar') as (s2 & l2 & E2 & Ls2 & _ & _ & B2).
  rewrite E2 in A2. injection A2 as -> _. rewrite HL in Ls2, B2.
  apply (nth_ext _ _ 0%Z 0%Z); [lia|]. intros k Hlt. rewrite Ls2 in Hlt.
  destruct (B1 k Hlt) as [M1 _]. destruct (B2 k Hlt) as [M2 _].
  rewrite !Ecen in M2 by assumption. apply best_lag_scale in M2; [|now apply Hk|now apply Hk].
  rewrite (Erow 0%nat L0), map_length in M2. exact (best_lag_unique _ _ _ _ _ M2 M1).
Qed.

(** A copy of the first trace, scaled and offset, is not moved. *)
Theorem align_copy traces just n_cut fc fs n filt k a c shifts al :
  (forall tr, In tr traces -> length tr = n) ->
  lowpassfilter (cut_rows n_cut traces) 5000 625000 = Ok filt ->
  (forall y, In y filt -> exists v, In v (centred y) /\ v <> 0) ->
  (k < length traces)%nat -> 0 < a -> nth k traces [] = map (fun v => a * v + c) (nth 0 traces []) ->
  align_traces traces just n_cut fc fs = Ok (shifts, al) ->
  nth k shifts 0%Z = 0%Z.
Proof.
  intros Hlen HF Hvar Hk Ha Erow A1.
  assert (Hne : traces <> []) by (intros ->; simpl in Hk; lia).
  destruct (align_spec traces just n_cut fc fs n filt Hne Hlen HF Hvar) as (s1 & l1 & E1 & _ & _ & _ & B1).
  rewrite E1 in A1. injection A1 as -> _. destruct (B1 k Hk) as [M1 _]. clear B1 E1.
  destruct (lowpass_rows_inv _ _ _ _ HF) as [LF K1].
  assert (Lc : length (cut_rows n_cut traces) = length traces) by apply map_length. rewrite Lc in LF, K1.
  assert (G : forall j, nth j (cut_rows n_cut traces) [] = pyslice (nth j traces []) 0 n_cut).
  { intros j. unfold cut_rows. assert (N : pyslice (@nil R) 0 n_cut = []) by (unfold pyslice; now rewrite skipn_nil, firstn_nil).
    rewrite <- N at 1. apply (map_nth (fun tr => pyslice tr 0 n_cut)). }
  destruct (K1 0%nat ltac:(lia)) as [P0 _]. destruct (K1 k Hk) as [Pk _]. rewrite G in P0, Pk.
  apply (lowpass_affine a c) in P0; [|lra|lra]. rewrite Erow, pyslice_map, P0 in Pk.
  assert (Ek : nth k filt [] = map (fun v => a * v + c) (nth 0 filt [])) by congruence.
  rewrite Ek, centred_affine in M1.
  assert (M2 : best_lag (Z.of_nat (length (nth 0 filt []))) (map (fun v => 1 * v) (centred (nth 0 filt [])))
                 (map (fun v => a * v) (centred (nth 0 filt []))) (nth k shifts 0%Z)).
  { replace (map (fun v => 1 * v) (centred (nth 0 filt []))) with (centred (nth 0 filt [])); [exact M1|].
    symmetry. erewrite map_ext; [apply map_id|]. intros v. cbv beta. ring. }
  apply best_lag_scale in M2; [|lra|exact Ha].
  assert (M3 := best_lag_self (centred (nth 0 filt []))). rewrite centred_length in M3.
  refine (best_lag_unique _ _ _ _ _ M2 (M3 _)). apply Hvar, nth_In. lia.
Qed.

(** The arguments [cut_off_freq] and [fs] are not used. *)
Theorem align_ignores traces just n_cut fc fs fc' fs' :
  align_traces traces just n_cut fc fs = align_traces traces just n_cut fc' fs'.
Proof. reflexivity. Qed.

(** ** When a filtered row is not constant *)

Lemma lfilter_rec g p x : forall z k, (S k < length x)%nat ->
  nth (S k) (lfilter g p z x) 0 = g * (nth (S k) x 0 + nth k x 0) + p * nth k (lfilter g p z x) 0.
Proof.
  induction x as [|v x IH]; intros z k Hk; [simpl in Hk; lia|].
  destruct k as [|k].
  - destruct x as [|w x]; [simpl in Hk; lia|]. cbn [lfilter nth]. ring.
  - cbn [lfilter]. change (nth (S (S k)) (v :: x) 0) with (nth (S k) x 0).
    change (nth (S k) (v :: x) 0) with (nth k x 0).
    cbn [nth]. apply IH. simpl in Hk. lia.
Qed.

Lemma nth_firstn_skipn (l : list R) n e k : (k < n)%nat -> nth k (firstn n (skipn e l)) 0 = nth (e + k) l 0.
Proof.
  intros Hk. rewrite <- (firstn_skipn e l) at 2.
  destruct (Nat.le_gt_cases (length l) e) as [H|H].
  - rewrite skipn_all2 by exact H. rewrite firstn_nil, app_nil_r, !nth_overflow; [reflexivity| |simpl; lia].
    rewrite firstn_length. lia.
  - rewrite app_nth2 by (rewrite firstn_length; lia).
    replace (e + k - length (firstn e l))%nat with k by (rewrite firstn_length; lia).
    rewrite <- (firstn_skipn n (skipn e l)) at 2.
    destruct (Nat.lt_ge_cases k (length (firstn n (skipn e l)))) as [H2|H2].
    + now rewrite app_nth1.
    + rewrite app_nth2 by exact H2. rewrite nth_overflow by exact H2. symmetry. apply nth_overflow.
      rewrite firstn_length in *. rewrite !skipn_length in *. lia.
Qed.

Lemma filtfilt_varies g p x y k : unity g p -> filtfilt g p x = Ok y -> (k + 3 < length x)%nat ->
  nth (k + 3) x 0 + nth (k + 2) x 0 <> nth (k + 1) x 0 + nth k x 0 ->
  exists v, In v (centred y) /\ v <> 0.
Proof.
  intros Hu Hy Hk Hx. assert (HLy := filtfilt_length g p x y Hy).
  destruct (Exists_dec (fun v => v <> 0) (centred y)) as [H|H].
  { intros v. destruct (Req_EM_T v 0) as [E|E]; [right|left]; congruence. }
  { apply Exists_exists in H. exact H. }
  exfalso. apply Hx.
  assert (Hc : forall i, (i < length x)%nat -> nth i y 0 = lmean y).
  { intros i Hi. destruct (Req_EM_T (nth i y 0) (lmean y)) as [E|E]; [exact E|]. exfalso. apply H.
    apply Exists_exists. exists (nth i y 0 - lmean y). split; [|lra].
    unfold centred. apply (in_map (fun v => v - lmean y)), nth_In. lia. }
  clear H Hx. revert Hy. unfold filtfilt. destruct (Nat.leb_spec (length x) 6) as [H6|H6]; [discriminate|].
  intros Ey. apply Ok_eq in Ey.
  set (zi := lfilter_zi g p) in *. set (ext := even_ext 6 x) in *.
  set (Y1 := lfilter g p (zi * hd 0 ext) ext) in *. set (Y2 := lfilter g p (zi * last Y1 0) (rev Y1)) in *.
  assert (Lext : length ext = (length x + 12)%nat) by (unfold ext; rewrite even_ext_length by exact H6; lia).
  assert (L1 : length Y1 = (length x + 12)%nat) by (unfold Y1; now rewrite lfilter_length).
  assert (L2 : length Y2 = (length x + 12)%nat) by (unfold Y2; now rewrite lfilter_length, rev_length).
  assert (Hext : forall i, (i < length x)%nat -> nth (6 + i) ext 0 = nth i x 0).
  { intros i Hi. unfold ext, even_ext. rewrite app_nth2; rewrite rev_length, firstn_length, skipn_length; [|lia].
    rewrite app_nth1 by lia. f_equal. lia. }
  assert (HY2 : forall i, (i < length x)%nat -> nth (length x + 5 - i) Y2 0 = lmean y).
  { intros i Hi. rewrite <- (Hc i Hi). rewrite Ey. rewrite nth_firstn_skipn by exact Hi.
    rewrite rev_nth by lia. f_equal. lia. }
  assert (Hsum : forall i, (S i < length x)%nat ->
     g * (nth (6 + i) Y1 0 + nth (7 + i) Y1 0) = (1 - p) * lmean y).
  { intros i Hi. assert (E := lfilter_rec g p (rev Y1) (zi * last Y1 0) (length x + 5 - S i)).
    fold Y2 in E. rewrite rev_length, L1 in E. specialize (E ltac:(lia)).
    rewrite (HY2 (S i) ltac:(lia)) in E.
    replace (S (length x + 5 - S i)) with (length x + 5 - i)%nat in E by lia. rewrite (HY2 i ltac:(lia)) in E.
    rewrite !rev_nth in E by lia.
    replace (length Y1 - S (length x + 5 - i))%nat with (6 + i)%nat in E by lia.
    replace (length Y1 - S (length x + 5 - S i))%nat with (7 + i)%nat in E by lia. lra. }
  assert (Hrec : forall i, (S i < length x)%nat ->
     nth (7 + i) Y1 0 = g * (nth (S i) x 0 + nth i x 0) + p * nth (6 + i) Y1 0).
  { intros i Hi. assert (E := lfilter_rec g p ext (zi * hd 0 ext) (6 + i) ltac:(lia)). fold Y1 in E.
    rewrite (Hext i ltac:(lia)) in E. change (S (6 + i)) with (6 + S i)%nat in E at 2.
    rewrite (Hext (S i) ltac:(lia)) in E. exact E. }
  assert (Hg : 0 < g) by apply Hu.
  assert (S0 := Hsum k ltac:(lia)). assert (S1 := Hsum (S k) ltac:(lia)). assert (S2 := Hsum (S (S k)) ltac:(lia)).
  assert (R0 := Hrec k ltac:(lia)). assert (R2 := Hrec (S (S k)) ltac:(lia)).
  change (6 + S k)%nat with (7 + k)%nat in *. change (6 + S (S k))%nat with (8 + k)%nat in *.
  change (7 + S k)%nat with (8 + k)%nat in *. change (7 + S (S k))%nat with (9 + k)%nat in *.
  replace (k + 3)%nat with (S (S (S k))) by lia. replace (k + 2)%nat with (S (S k)) by lia.
  replace (k + 1)%nat with (S k) by lia.
  assert (A : nth (8 + k) Y1 0 = nth (6 + k) Y1 0) by (apply Rmult_eq_reg_l with g; lra).
  assert (B : nth (9 + k) Y1 0 = nth (7 + k) Y1 0) by (apply Rmult_eq_reg_l with g; lra).
  rewrite A, B in R2. apply Rmult_eq_reg_l with g; lra.
Qed.

(** A filtered row varies if its trace has two neighbouring pairs with different sums. *)
Theorem lowpass_varies x y fc fs k : lowpassfilter [x] fc fs = Ok [y] -> (k + 3 < length x)%nat ->
  nth (k + 3) x 0 + nth (k + 2) x 0 <> nth (k + 1) x 0 + nth k x 0 ->
  exists v, In v (centred y) /\ v <> 0.
Proof.
  rewrite lowpass_one. destruct (butter1 (fc / (/ 2 * fs))) as [[g p]|] eqn:Hb; [|discriminate].
  cbn [bind fst snd]. destruct (filtfilt g p x) as [z|] eqn:Ez; [|discriminate]. intros [= <-].
  apply (filtfilt_varies g p); [exact (butter1_unity _ _ _ Hb)|exact Ez].
Qed.

(** The two difference equations inside the trace. *)
Lemma filtfilt_equations g p x y : filtfilt g p x = Ok y ->
  exists u, length u = length x /\ forall k, (S k < length x)%nat ->
    nth (S k) u 0 = g * (nth (S k) x 0 + nth k x 0) + p * nth k u 0 /\
    nth k y 0 = g * (nth k u 0 + nth (S k) u 0) + p * nth (S k) y 0.
Proof.
  intros Hy. revert Hy. unfold filtfilt. destruct (Nat.leb_spec (length x) 6) as [H6|H6]; [discriminate|].
  intros Ey. apply Ok_eq in Ey.
  set (zi := lfilter_zi g p) in *. set (ext := even_ext 6 x) in *.
  set (Y1 := lfilter g p (zi * hd 0 ext) ext) in *. set (Y2 := lfilter g p (zi * last Y1 0) (rev Y1)) in *.
  assert (Lext : length ext = (length x + 12)%nat) by (unfold ext; rewrite even_ext_length by exact H6; lia).
  assert (L1 : length Y1 = (length x + 12)%nat) by (unfold Y1; now rewrite lfilter_length).
  assert (L2 : length Y2 = (length x + 12)%nat) by (unfold Y2; now rewrite lfilter_length, rev_length).
  assert (Hext : forall i, (i < length x)%nat -> nth (6 + i) ext 0 = nth i x 0).
  { intros i Hi. unfold ext, even_ext. rewrite app_nth2; rewrite rev_length, firstn_length, skipn_length; [|lia].
    rewrite app_nth1 by lia. f_equal. lia. }
  assert (HY2 : forall i, (i < length x)%nat -> nth (length x + 5 - i) Y2 0 = nth i y 0).
  { intros i Hi. rewrite Ey. rewrite nth_firstn_skipn by exact Hi. rewrite rev_nth by lia. f_equal. lia. }
  exists (firstn (length x) (skipn 6 Y1)). split; [rewrite firstn_length, skipn_length; lia|].
  intros k Hk. rewrite !nth_firstn_skipn by lia. split.
  - assert (E := lfilter_rec g p ext (zi * hd 0 ext) (6 + k) ltac:(lia)). fold Y1 in E.
    rewrite (Hext k ltac:(lia)) in E. replace (S (6 + k)) with (6 + S k)%nat in E by lia.
    rewrite (Hext (S k) ltac:(lia)) in E. exact E.
  - assert (E := lfilter_rec g p (rev Y1) (zi * last Y1 0) (length x + 5 - S k)).
    fold Y2 in E. rewrite rev_length, L1 in E. specialize (E ltac:(lia)).
    rewrite (HY2 (S k) ltac:(lia)) in E.
    replace (S (length x + 5 - S k)) with (length x + 5 - k)%nat in E by lia. rewrite (HY2 k ltac:(lia)) in E.
    rewrite !rev_nth in E by lia.
    replace (length Y1 - S (length x + 5 - k))%nat with (6 + k)%nat in E by lia.
    replace (length Y1 - S (length x + 5 - S k))%nat with (6 + S k)%nat in E by lia. exact E.
Qed.

Theorem lowpass_equations x y fc fs : lowpassfilter [x] fc fs = Ok [y] ->
  let t := tan (PI * fc / fs) in
  exists u, length u = length x /\ forall k, (S k < length x)%nat ->
    (1 + t) * nth (S k) u 0 = t * (nth (S k) x 0 + nth k x 0) + (1 - t) * nth k u 0 /\
    (1 + t) * nth k y 0 = t * (nth k u 0 + nth (S k) u 0) + (1 - t) * nth (S k) y 0.
Proof.
  intros H t. rewrite lowpass_one in H. destruct (butter1 (fc / (/ 2 * fs))) as [[g p]|] eqn:Hb; [|discriminate].
  cbn [bind fst snd] in H. destruct (filtfilt g p x) as [z|] eqn:Ez; [|discriminate]. injection H as <-.
  destruct (butter1_facts _ _ _ Hb) as (Hw & t' & Et & Ht & Eg & Ep).
  assert (Hfs : fs <> 0).
  { intros ->. destruct Hw as [Hw _]. unfold Rdiv in Hw. rewrite Rmult_0_r, Rinv_0, Rmult_0_r in Hw. lra. }
  assert (Ett : t' = t).
  { rewrite Et. unfold t. f_equal. field. exact Hfs. }
  rewrite Ett in Ht, Eg, Ep. clearbody t. destruct (filtfilt_equations g p x z Ez) as (u & Lu & Hk).
  exists u. split; [exact Lu|]. intros k Hlt. destruct (Hk k Hlt) as [H1 H2]. rewrite Eg, Ep in H1, H2.
  split; [rewrite H1|rewrite H2]; field; lra.
Qed.

(** ** Concrete traces *)

Definition pulse8 : list R := [0; 0; 0; 1; 0; 0; 0; 0].

Lemma pulse8_filtered a c : exists y, lowpassfilter [map (fun v => a * v + c) pulse8] 5000 625000 = Ok [y] /\ length y = 8%nat.
Proof.
  destruct (lowpass_rows [map (fun v => a * v + c) pulse8] 5000 625000) as (out & E & L & K); [lra|lra| |].
  { intros tr [<-|[]]. simpl. lia. }
  destruct (K 0%nat ltac:(simpl; lia)) as [K1 K2]. exists (nth 0 out []). split; [exact K1|exact K2].
Qed.

Lemma lowpass_two x y x' y' fc fs : lowpassfilter [x] fc fs = Ok [x'] -> lowpassfilter [y] fc fs = Ok [y'] ->
  lowpassfilter [x; y] fc fs = Ok [x'; y'].
Proof.
  rewrite !lowpass_one. unfold lowpassfilter. destruct (butter1 (fc / (/ 2 * fs))) as [[g p]|]; [|discriminate].
  cbn [bind fst snd map all_ok]. destruct (filtfilt g p x) as [u|]; [|discriminate]. cbn [bind].
  destruct (filtfilt g p y) as [w|]; [|discriminate]. cbn [bind]. congruence.
Qed.

Lemma pyslice_all8 (l : list R) : length l = 8%nat -> pyslice l 0 5000 = l.
Proof.
  intros H. unfold pyslice. rewrite H. change (slice_bound (Z.of_nat 8) 5000) with 8%Z.
  change (slice_bound (Z.of_nat 8) 0) with 0%Z. change (Z.to_nat 0) with 0%nat. cbn [skipn]. apply firstn_all2. rewrite H. simpl. lia.
Qed.

Lemma align_example :
  let traces := [ [0; 0; 0; 1; 0; 0; 0; 0]; [1; 1; 1; 3; 1; 1; 1; 1] ] in
  exists shifts al, align_traces traces false 5000 5000 625000 = Ok (shifts, al) /\ shifts = [0; 0]%Z.
Proof.
  intros traces.
  assert (E1 : [1; 1; 1; 3; 1; 1; 1; 1] = map (fun v => 2 * v + 1) pulse8).
  { unfold pulse8. cbn [map]. repeat (apply f_equal2; [ring|]). reflexivity. }
  assert (E0 : pulse8 = map (fun v => 1 * v + 0) pulse8).
  { unfold pulse8. cbn [map]. repeat (apply f_equal2; [ring|]). reflexivity. }
  destruct (pulse8_filtered 1 0) as (y0 & F0 & L0). destruct (pulse8_filtered 2 1) as (y1 & F1 & L1).
  rewrite <- E0 in F0. rewrite <- E1 in F1.
  assert (HF := lowpass_two _ _ _ _ _ _ F0 F1).
  assert (Hcut : map (fun tr => pyslice tr 0 5000) traces = [pulse8; [1; 1; 1; 3; 1; 1; 1; 1] ]).
  { unfold traces. cbn [map]. now rewrite !pyslice_all8. }
  rewrite <- Hcut in HF.
  assert (Hlen : forall tr, In tr traces -> length tr = 8%nat) by (intros tr [<-|[<-|[]]]; reflexivity).
  assert (Hvar : forall y, In y [y0; y1] -> exists v, In v (centred y) /\ v <> 0).
  { intros y [<-|[<-|[]]].
    - apply (lowpass_varies pulse8 y0 5000 625000 0 F0); [simpl; lia|simpl; lra].
    - apply (lowpass_varies _ y1 5000 625000 0 F1); [simpl; lia|simpl; lra]. }
  destruct (align_spec traces false 5000 5000 625000 8 [y0; y1] ltac:(discriminate) Hlen HF Hvar)
    as (sh & al & E & Ls & _ & S0 & _).
  exists sh, (Some al). split; [exact E|].
  assert (S1 := align_copy traces false 5000 5000 625000 8 [y0; y1] 1 2 1 sh (Some al) Hlen HF Hvar
                  ltac:(simpl; lia) ltac:(lra) E1 E).
  destruct sh as [|a [|b [|? ?]]]; try discriminate. cbn [nth] in *. now subst.
Qed.

Lemma align_constant : exists shifts,
  align_traces [ [0; 0; 0; 1; 0; 0; 0; 0]; [0; 0; 0; 0; 0; 0; 0; 0] ] true 5000 5000 625000 = Ok (shifts, None) /\
  nth 1 shifts 0%Z = (-7)%Z.
Proof.
  assert (E0 : pulse8 = map (fun v => 1 * v + 0) pulse8).
  { unfold pulse8. cbn [map]. repeat (apply f_equal2; [ring|]). reflexivity. }
  destruct (pulse8_filtered 1 0) as (y0 & F0 & L0). rewrite <- E0 in F0.
  assert (F1 := lowpass_constant 0 8 5000 625000 ltac:(lra) ltac:(lra) ltac:(lia)).
  assert (HF := lowpass_two _ _ _ _ _ _ F0 F1). unfold align_traces.
  assert (Hcut : map (fun tr => pyslice tr 0 5000) [ [0; 0; 0; 1; 0; 0; 0; 0]; [0; 0; 0; 0; 0; 0; 0; 0] ] = [pulse8; repeat 0 8]).
  { cbn [map]. now rewrite !pyslice_all8. }
  rewrite Hcut, HF. cbn [bind map].
  assert (Hn : normalise (repeat 0 8) = None).
  { unfold normalise. assert (lmean (repeat 0 8) = 0) as -> by (unfold lmean; simpl; field).
    cbn [repeat map]. assert (row_max (0 - 0) [0 - 0; 0 - 0; 0 - 0; 0 - 0; 0 - 0; 0 - 0; 0 - 0] = 0) as ->.
    { unfold row_max. cbn [fold_left]. rewrite Rminus_0_r, !(Rmax_left 0 0) by lra. reflexivity. }
    now rewrite Reqb_true. }
  rewrite Hn. change (pyindex [normalise y0; None] 0) with (Ok (normalise y0)). cbn [bind].
  assert (Hv : exists v, In v (centred y0) /\ v <> 0).
  { apply (lowpass_varies pulse8 y0 5000 625000 0 F0); [simpl; lia|simpl; lra]. }
  rewrite (peak_lag_self y0 Hv), L0. eexists. split; [reflexivity|]. cbn [nth].
  unfold peak_lag. destruct (normalise y0); reflexivity.
Qed.

Lemma align_invalid : exists tr fc fs r,
  lowpassfilter [tr] fc fs = Err ValueError /\ align_traces [tr] true 5000 fc fs = Ok r.
Proof.
  destruct (lowpass_rows (map (fun tr => pyslice tr 0 5000) [pulse8]) 5000 625000) as (out & E & L & K); [lra|lra| |].
  { intros tr [<-|[]]. rewrite pyslice_all8 by reflexivity. simpl. lia. }
  destruct out as [|y [|? ?]]; try discriminate.
  exists pulse8, 1, 1. eexists. split; [apply lowpass_errors; [lra|left; lra]|].
  unfold align_traces. rewrite E. cbn [bind map].
  change (pyindex [normalise y] 0) with (Ok (normalise y)). cbn [bind]. reflexivity.
Qed.
