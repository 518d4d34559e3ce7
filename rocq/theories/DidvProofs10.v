(** * Proofs: processtraces, stated on the objects *)
From Coq Require Import Reals Lra Lia Psatz.
From Coquelicot Require Import Complex.
From Verif Require Import Base Dft ListLemmas UtilsModel DidvModel DidvSpec DidvProofs1 DidvProofs2 DidvProofs3 DidvProofs4 DidvProofs5 DidvProofs6 DidvProofs7 DidvProofs8 DidvProofs9.
Local Open Scope R_scope.

Lemma Int_part_spec r z : r - 1 < IZR z <= r -> z = Int_part r.
Proof.
  intros [H1 H2]. destruct (base_Int_part r) as [B1 B2].
  assert (z < Int_part r + 1)%Z by (apply lt_IZR; rewrite plus_IZR; lra).
  assert (Int_part r < z + 1)%Z by (apply lt_IZR; rewrite plus_IZR; lra). lia.
Qed.
Lemma NoDup_app_disjoint {A} (l m : list A) : NoDup l -> NoDup m -> (forall x, In x l -> In x m -> False) -> NoDup (l ++ m).
Proof.
  induction l as [|a l IH]; intros Hl Hm Hd; [exact Hm|]. inversion Hl as [|? ? H1 H2]; subst. cbn [app]. constructor.
  - intros I. apply in_app_or in I. destruct I as [I|I]; [contradiction|]. exact (Hd a (or_introl eq_refl) I).
  - apply IH; [exact H2|exact Hm|]. intros x Hx. apply Hd. now right.
Qed.
Lemma trunc_unique x s : is_trunc x s -> ztrunc x = s.
Proof.
  unfold is_trunc, ztrunc, Rltb. intros [[H0 [H1 H2]]|[H0 [H1 H2]]]; destruct (Rlt_dec x 0) as [L|L]; try lra.
  - symmetry. apply Int_part_spec. lra.
  - assert (E : (- s)%Z = Int_part (- x)); [|lia]. apply Int_part_spec. rewrite opp_IZR. lra.
  - assert (x = 0) by lra. subst x. assert (E : 0 = IZR s).
    { assert (s = 0%Z); [|subst; reflexivity]. assert (-1 < s)%Z by (apply lt_IZR; lra).
      assert (s < 1)%Z by (apply lt_IZR; lra). lia. }
    rewrite E. apply Int_part_IZR.
Qed.
Lemma Int_part_ratio a b : (0 < b)%Z -> Int_part (IZR a / IZR b) = (a / b)%Z.
Proof.
  intros Hb. symmetry. apply Int_part_spec. assert (P : 0 < IZR b) by (apply IZR_lt; exact Hb).
  assert (D := Z.div_mod a b ltac:(lia)). assert (M := Z.mod_pos_bound a b Hb).
  assert (E : IZR a = IZR b * IZR (a / b) + IZR (a mod b)) by (rewrite <- mult_IZR, <- plus_IZR; f_equal; exact D).
  assert (M1 : 0 <= IZR (a mod b)) by (apply (IZR_le 0); lia). assert (M2 : IZR (a mod b) < IZR b) by (apply IZR_lt; lia).
  assert (Q : IZR a / IZR b = IZR (a / b) + IZR (a mod b) / IZR b) by (rewrite E at 1; field; lra). rewrite Q.
  assert (0 <= IZR (a mod b) / IZR b) by (unfold Rdiv; apply Rmult_le_pos; [lra|apply Rlt_le, Rinv_0_lt_compat, P]).
  assert (IZR (a mod b) / IZR b < 1).
  { apply (Rmult_lt_reg_r (IZR b)); [exact P|]. unfold Rdiv. rewrite Rmult_assoc, Rinv_l by lra. lra. }
  lra.
Qed.
Lemma quarter q : Int_part (25 / 100 * INR q) = (Z.of_nat q / 4)%Z.
Proof. rewrite INR_IZR_INZ. rewrite <- (Int_part_ratio (Z.of_nat q) 4) by lia. f_equal. field. Qed.
Lemma top q : Int_part (48 / 100 * INR q) = (12 * Z.of_nat q / 25)%Z.
Proof. rewrite INR_IZR_INZ. rewrite <- (Int_part_ratio (12 * Z.of_nat q) 25) by lia. f_equal. rewrite mult_IZR. field. Qed.

Lemma NoDup_map_on {A B} (f : A -> B) l : (forall x y, In x l -> In y l -> f x = f y -> x = y) -> NoDup l -> NoDup (map f l).
Proof.
  induction l as [|a l IH]; intros Hf Hn; [constructor|]. inversion Hn as [|? ? H1 H2]; subst. cbn [map]. constructor.
  - intros I. apply in_map_iff in I. destruct I as (b & E & I). apply H1. rewrite <- (Hf b a (or_intror I) (or_introl eq_refl) E). exact I.
  - apply IH; [|exact H2]. intros x y Hx Hy. apply Hf; now right.
Qed.

Section Flat.
Context (q : nat) (dt0 fs : R) (s : Z).
Hypothesis (Hs : is_trunc (dt0 * fs) s).
Lemma in_range i z : In z (flat_range (INR q) dt0 fs i)
  <-> (Z.of_nat i * Z.of_nat q + Z.of_nat q / 4 <= z - s < Z.of_nat i * Z.of_nat q + 12 * Z.of_nat q / 25)%Z.
Proof.
  unfold flat_range. cbv zeta. rewrite !flat_edge by lra. rewrite quarter, top, (trunc_unique _ _ Hs).
  rewrite in_map_iff. split.
  - intros (k & <- & Hk). apply in_seq in Hk. lia.
  - intros H. exists (Z.to_nat (z - (Z.of_nat (i * q) + Z.of_nat q / 4 + s)))%nat. split; [lia|]. apply in_seq. lia.
Qed.
Lemma range_nodup i : NoDup (flat_range (INR q) dt0 fs i).
Proof. unfold flat_range. cbv zeta. apply NoDup_map_on; [|apply seq_NoDup]. intros x y _ _. lia. Qed.
Lemma flat_in nperiods nbins l : flat_indices (INR q) dt0 fs nperiods nbins = Ok l ->
  NoDup l /\ forall j, In j l <-> (0 < j < nbins)%nat /\ exists i, (i < nperiods)%nat /\
    (Z.of_nat i * Z.of_nat q + Z.of_nat q / 4 <= Z.of_nat j - s < Z.of_nat i * Z.of_nat q + 12 * Z.of_nat q / 25)%Z.
Proof.
  unfold flat_indices. destruct (forallb _ _); [|discriminate]. intros [= <-]. split.
  - apply NoDup_map_on.
    { intros x y Hx Hy. apply filter_In in Hx, Hy. destruct Hx as [_ Hx], Hy as [_ Hy]. apply andb_prop in Hx, Hy. lia. }
    apply NoDup_filter. generalize 0%nat as b. induction nperiods as [|m IH]; intros b; [constructor|].
    cbn [seq map concat]. apply NoDup_app_disjoint; [apply range_nodup|apply IH|].
    intros z H1 H2. apply in_range in H1. apply in_concat in H2. destruct H2 as (r & Hr & H2). apply in_map_iff in Hr.
    destruct Hr as (i & <- & Hi). apply in_range in H2. apply in_seq in Hi.
    assert (A1 : (Z.of_nat q / 4 >= 0)%Z) by (apply Z.le_ge, Z.div_pos; lia).
    assert (A2 : (12 * Z.of_nat q / 25 <= Z.of_nat q)%Z) by (apply Z.div_le_upper_bound; lia). nia.
  - intros j. rewrite in_map_iff. split.
    + intros (z & <- & Hz). apply filter_In in Hz. destruct Hz as [Hc Hz]. apply andb_prop in Hz. split; [lia|].
      apply in_concat in Hc. destruct Hc as (r & Hr & Hc). apply in_map_iff in Hr. destruct Hr as (i & <- & Hi). apply in_range in Hc. apply in_seq in Hi.
      exists i. split; lia.
    + intros [Hj (i & Hi & H)]. exists (Z.of_nat j). split; [lia|]. apply filter_In. split.
      * apply in_concat. exists (flat_range (INR q) dt0 fs i). split; [apply in_map; apply in_seq; lia|]. now apply in_range.
      * apply andb_true_intro. lia.
Qed.
End Flat.

Section Api.
Context (o : didv) (q n : nat) (o' : didv) (p : processed).
Hypothesis HP : processed_from o q n o' p.
Lemma api_process : process o (shifted_dt0 o) = Ok p /\ o' = set_proc o (shifted_dt0 o) (Some p).
Proof. destruct HP as (_ & _ & _ & _ & H1 & H2). exact (processed_by o o' p H1 H2). Qed.
Lemma api_arrays :
  (2 <= n)%nat /\ ddt0 o' = (if dadd180 o then ddt0 o + 1 / (2 * dsgfreq o) else ddt0 o) /\
  p_time p = mk n (fun j => INR j / dfs o - ddt0 o') /\
  p_freq p = mk n (fun k => (if (2 * k <? n)%nat then INR k else INR k - INR n) * dfs o / INR n) /\
  p_traces p = filter (no_zero_bin n) (map (fun r => map (fun v => v / dtracegain o) (firstn n r)) (raw o)) /\
  p_ntraces p = length (p_traces p) /\ (p_data p = None <-> p_traces p = []).
Proof.
  destruct api_process as [E Eo]. destruct HP as (Hq & Hs & Hf & Hn & _). destruct (values o q _ p Hq Hs Hf E) as (V1 & V2 & V3 & V4 & V5 & V6).
  destruct (process_parts o q _ p Hq Hs Hf E) as [_ V7]. unfold scaled_raw in V4. rewrite <- Hn in *.
  split; [exact V1|]. split; [rewrite Eo; reflexivity|]. split; [rewrite V2; apply mk_ext; intros j _; rewrite Eo; cbn [set_proc ddt0]; unfold Rdiv; ring|].
  split.
  { rewrite V7. apply mk_ext. intros k Hk. unfold fftfreq, freqnum. do 2 f_equal.
    destruct (Z.ltb_spec (2 * Z.of_nat k) (Z.of_nat n)), (Nat.ltb_spec (2 * k) n); try lia; rewrite ?minus_IZR, <- ?INR_IZR_INZ; ring. }
  split; [exact V4|]. split; [exact V5|]. destruct (p_data p); [|tauto]. split; [discriminate|]. tauto.
Qed.
Lemma api_flat s : is_trunc (ddt0 o' * dfs o) s -> NoDup (p_flat p) /\
  forall j, In j (p_flat p) <-> (0 < j < n)%nat /\ exists i, (i < length (nth 0 (raw o) []) / q)%nat /\
    (Z.of_nat i * Z.of_nat q + Z.of_nat q / 4 <= Z.of_nat j - s < Z.of_nat i * Z.of_nat q + 12 * Z.of_nat q / 25)%Z.
Proof.
  destruct api_process as [E Eo]. destruct HP as (Hq & Hs & Hf & Hn & _). intros Ht.
  destruct (process_parts o q _ p Hq Hs Hf E) as [V7 _]. rewrite Hf in V7. rewrite <- Hn in V7.
  rewrite Eo in Ht. cbn [set_proc ddt0] in Ht. exact (flat_in q _ _ s Ht _ _ _ V7).
Qed.
Lemma api_means d : p_data p = Some d ->
  d_tmean d = mk n (fun k => lmean (map (fun tr => nth k tr 0) (p_traces p))) /\
  d_offset d = lmean (map lmean (p_traces p)) /\
  d_offset_err d = list_std (map lmean (p_traces p)) / sqrt (INR (length (p_traces p))) /\
  length (d_mean d) = n /\ length (d_std d) = n.
Proof.
  destruct api_process as [E Eo]. destruct HP as (Hq & Hs & Hf & Hn & _). intros Hd. destruct (values o q _ p Hq Hs Hf E) as (_ & _ & _ & _ & _ & V6).
  rewrite Hd in V6. rewrite <- Hn in V6. destruct V6 as (_ & V1 & _ & V2 & V3 & V4 & V5). rewrite lvar_std in V5.
  split; [exact V1|]. split; [exact V4|]. split; [exact V5|]. rewrite V2, V3. split; apply mk_length.
Qed.
Lemma api_excited d k m : p_data p = Some d -> excited o p n k m ->
  let S := square_dft n (dsgamp o * drsh o) (dduty o) m in
  nth k (d_mean d) (RtoC 0) = (trace_dft n (d_tmean d) k / S)%C /\
  nth k (d_std d) (RtoC 0)
  = (list_std (map (fun tr => fst (trace_dft n tr k / S)%C) (p_traces p)) / sqrt (INR (length (p_traces p))),
     list_std (map (fun tr => snd (trace_dft n tr k / S)%C) (p_traces p)) / sqrt (INR (length (p_traces p)))).
Proof.
  destruct api_process as [E Eo]. destruct HP as (Hq & Hs & Hf & Hn & _). intros Hd (K1 & K2 & K3 & K4 & K5 & K6) S.
  unfold S. clear S. clear HP Eo. subst n. destruct (excited_bin o q _ p d Hq Hs Hf E Hd k m _ K1 K2 K3 K4 eq_refl K5 K6) as (_ & X1 & X2). split; assumption.
Qed.
Lemma api_unexcited d k : p_data p = Some d -> (k < n)%nat ->
  unexcited n (n / q) (dsgamp o * drsh o) (dduty o) (dsgfreq o) (nth k (p_freq p) 0) k ->
  nth k (d_mean d) (RtoC 0) = (1 / 2, - (1 / 2)) /\
  nth k (d_std d) (RtoC 0) = (if Ceq_dec (trace_dft n (d_tmean d) k) (RtoC 0) then RtoC 0 else (10 ^ 20, 10 ^ 20)).
Proof.
  destruct api_process as [E Eo]. destruct HP as (Hq & Hs & Hf & Hn & _). intros Hd Hk Hu.
  assert (Ep : (n / q = length (nth 0 (raw o) []) / q)%nat) by (rewrite Hn, Nat.mul_comm, Nat.div_mul; lia). rewrite Ep in Hu.
  clear HP Eo Ep. subst n. exact (unexcited_bin o q _ p d Hq Hs Hf E Hd k Hk Hu).
Qed.
Lemma api_noise d a resp (noises : list (nat -> R)) k m z : p_data p = Some d ->
  a_rsh a = Some (drsh o) ->
  squarewaveresponse n (fun j => nth j (p_time p) 0) (dsgamp o) (dsgfreq o) (dduty o) a = Ok resp ->
  compleximpedance (nth k (p_freq p) 0) a = Ok z ->
  p_traces p = map (fun e => mk n (fun j => nth j resp 0 + e j)) noises ->
  excited o p n k m ->
  nth k (d_mean d) (RtoC 0)
  = (1 / z + dft n (fun j => RtoC (lmean (map (fun e => e j) noises))) (Z.of_nat k) / square_dft n (dsgamp o * drsh o) (dduty o) m)%C.
Proof.
  destruct api_process as [E Eo]. destruct HP as (Hq & Hs & Hf & Hn & _). intros Hd Ha Hr Hz Ht (K1 & K2 & K3 & K4 & K5 & K6).
  clear HP Eo. subst n. exact (noisy_mean o q _ p d a resp noises k m z Hq Hs Hf E Hd Ha Hr Hz Ht K1 K2 K3 K4 K5 K6).
Qed.
Lemma api_single d k m fit fs poles fc : p_data p = Some d -> p_ntraces p = 1%nat -> excited o p n k m ->
  match fc with None => True | Some c => Rabs (nth k (p_freq p) 0) < c end -> (1 <= poles <= 3)%nat ->
  nth k (d_std d) (RtoC 0) = RtoC 0 /\ dofit fit fs poles fc o' = (o', Err ValueError).
Proof.
  destruct api_process as [E Eo]. destruct HP as (Hq & Hs & Hf & Hn & P1 & P2). intros Hd H1 (K1 & K2 & K3 & K4 & K5 & K6) Hc Hp.
  clear HP Eo. subst n. split.
  - exact (single_trace_std o q _ p d k m Hq Hs Hf E Hd H1 K1 K2 K3 K4 K5 K6).
  - exact (single_trace_rejected fit fs poles fc o q o' p d k m Hq Hs Hf P1 P2 Hd Hp H1 K1 K2 K3 K4 K5 K6 Hc).
Qed.
End Api.
