(** * Slope removal as a least-squares statement; witnesses for the PSD functions *)
From Coq Require Import Reals Lra Lia.
From Coquelicot Require Import Complex.
From Verif Require Import Base Dft ListLemmas UtilsModel UtilsSpec UtilsProofs1 UtilsProofs2 UtilsProofs3 UtilsProofs4 NoiseModel NoiseSpec NoiseProofs1 NoiseProofs2 NoiseProofs3 NoiseProofs4 NoiseProofs5.
Local Open Scope R_scope.

(** ** Slope removal *)
Lemma noslope_flat n t y : (0 < n)%nat -> sxx n t <> 0 ->
  forall a b, rsum n (fun j => (noslope n t y j - rsum n (noslope n t y) / INR n) ^ 2)
              <= rsum n (fun j => (noslope n t y j - (a + b * t j)) ^ 2).
Proof.
  intros Hn Hs a b. pose proof (noslope_slope n t y Hn Hs) as H0.
  rewrite slope_mk in H0 by exact Hn.
  set (z := noslope n t y) in *. set (m := rsum n z / INR n).
  assert (Hc : rsum n (fun k => (t k - xm n t) * z k) = 0).
  { apply Rmult_integral in H0. destruct H0 as [H0|H0].
    { rewrite (rsum_ext n _ (fun k => (t k - xm n t) * (z k - xm n t) + (t k - xm n t) * xm n t)) by (intros; ring).
      rewrite rsum_plus, H0, rsum_scal_r, centred_sum by exact Hn. ring. }
    exfalso. now apply Rinv_neq_0_compat in H0. }
  assert (HnR : INR n <> 0) by (apply not_0_INR; lia).
  assert (He : rsum n (fun k => z k - m) = 0).
  { rewrite rsum_minus, rsum_const. unfold m. field. exact HnR. }
  assert (Ht := centred_sum n t Hn).
  assert (Hd : rsum n (fun k => (t k - xm n t) * (z k - m)) = 0).
  { rewrite (rsum_ext n _ (fun k => (t k - xm n t) * z k - (t k - xm n t) * m)) by (intros; ring).
    rewrite rsum_minus, Hc, rsum_scal_r, Ht. ring. }
  set (d := m - a - b * xm n t).
  replace (rsum n (fun j => (z j - (a + b * t j)) ^ 2)) with
    (rsum n (fun j => (z j - m) ^ 2) + INR n * d ^ 2 + b ^ 2 * sxx n t).
  - assert (0 <= sxx n t) by (apply rsum_nonneg; intros; apply pow2_ge_0).
    pose proof (pow2_ge_0 d). pose proof (pow2_ge_0 b). pose proof (pos_INR n). nra.
  - rewrite (rsum_ext n (fun j => (z j - (a + b * t j)) ^ 2)
      (fun j => (z j - m) ^ 2 + d ^ 2 + b ^ 2 * (t j - xm n t) ^ 2 + 2 * d * (z j - m) - 2 * b * ((t j - xm n t) * (z j - m)) - 2 * d * b * (t j - xm n t))).
    2:{ intros j _. unfold d. ring. }
    rewrite !rsum_minus, !rsum_plus, !rsum_scal_l, rsum_const, Hd, He, Ht. unfold sxx. ring.
Qed.

Lemma remove_slope_trace o i c : (i < length (traces o))%nat ->
  nth i (traces (remove_trace_slope o)) (fun _ _ => 0) c = noslope (nbins o) (ntime o) (nth i (traces o) (fun _ _ => 0) c).
Proof.
  intros Hi. unfold remove_trace_slope, set_traces. cbn [traces].
  rewrite (nth_indep _ _ ((fun (x : trace) c => noslope (nbins o) (ntime o) (x c)) (fun _ _ => 0))) by now rewrite map_length.
  exact (f_equal (fun f => f c) (map_nth (fun (x : trace) c => noslope (nbins o) (ntime o) (x c)) (traces o) (fun _ _ => 0) i)).
Qed.

Lemma remove_slope_spec o :
  (exists i j, (i < nbins o)%nat /\ (j < nbins o)%nat /\ ntime o i <> ntime o j) ->
  length (traces (remove_trace_slope o)) = length (traces o) /\
  forall i c, (i < length (traces o))%nat ->
    let x := nth i (traces o) (fun _ _ => 0) c in
    let z := nth i (traces (remove_trace_slope o)) (fun _ _ => 0) c in
    let z2 := nth i (traces (remove_trace_slope (remove_trace_slope o))) (fun _ _ => 0) c in
    (exists s, forall j, z j = x j - s * ntime o j) /\
    (forall a b, rsum (nbins o) (fun j => (z j - rsum (nbins o) z / INR (nbins o)) ^ 2)
                 <= rsum (nbins o) (fun j => (z j - (a + b * ntime o j)) ^ 2)) /\
    (forall j, z2 j = z j).
Proof.
  intros H. assert (Hn : (0 < nbins o)%nat) by (destruct H as (i & j & Hi & _); lia).
  assert (Hl : length (traces (remove_trace_slope o)) = length (traces o)) by apply map_length.
  split; [exact Hl|]. intros i c Hi. cbv zeta. pose proof (sxx_two _ _ Hn H) as Hs.
  rewrite (remove_slope_trace (remove_trace_slope o)) by now rewrite Hl.
  rewrite remove_slope_trace by exact Hi. cbn [nbins ntime remove_trace_slope set_traces].
  split; [|split].
  - eexists. intros j. reflexivity.
  - now apply noslope_flat.
  - intros j. now apply noslope_twice.
Qed.

(** ** The DC bin of the stored PSD *)
Definition dc_noise : noise := fresh_noise 2 1 1 (fun j => INR j / 1) [fun _ _ => 1].
Lemma dc_power : power 2 (fun _ => 1) 0 = 4.
Proof.
  unfold power, dft. cbn [csum]. change (- (Z.of_nat 0 * Z.of_nat 0))%Z with 0%Z. change (- (Z.of_nat 1 * Z.of_nat 0))%Z with 0%Z.
  destruct tw2 as [-> _]. unfold cn2. simpl. ring.
Qed.
Lemma dc_doubled : exists o f q P,
  calc_psd (nbins o) (Arr2 (map (fun x => x 0%nat) (traces o))) (nfs o) true = Ok (f, P1 q) /\
  n_psd (calculate_psd o) = Some P /\ nth 0 P [] <> q.
Proof.
  set (q := match calc_psd 2 (Arr2 [fun _ => 1]) 1 true with Ok (_, P1 q) => q | _ => [] end).
  exists dc_noise. do 2 eexists. 
  assert (E : calc_psd (nbins dc_noise) (Arr2 (map (fun x => x 0%nat) (traces dc_noise))) (nfs dc_noise) true = Ok (rfftfreq 2 1, P1 q)) by reflexivity.
  destruct (psd_against_calc dc_noise 0 q _ 0 ltac:(cbn; lia) ltac:(cbn; lia) ltac:(cbn; lia) E) as (P & HP & _ & _ & Hk).
  exists P. split; [exact E|]. split; [exact HP|]. intros Heq. rewrite Heq in Hk. cbn [nbins dc_noise fresh_noise] in Hk.
  assert (Hq : nth 0 q 0 = 2).
  { unfold q. rewrite calc_psd_folded by (cbn; trivial; lia). rewrite double_slice_mk. 
    unfold mk. cbn [seq map nth Nat.leb andb Nat.div Nat.divmod fst Nat.add].
    unfold raw_psd, mean_over, lmean. cbn [map lsum length]. rewrite dc_power. cbn [INR lsum fold_right]. field. }
  change ((0 =? 0)%nat || (2 * 0 =? 2)%nat) with true in Hk. cbv iota in Hk. rewrite Hq in Hk. lra.
Qed.

(** ** Three-dimensional input *)
Definition spike3 : nat -> nat -> R := fun _ j => if (j =? 0)%nat then 1 else 0.
Lemma spike_power k : power 4 (fun j => if (j =? 0)%nat then 1 else 0) k = 1.
Proof.
  unfold power, dft. cbn [csum Nat.eqb]. change (- (Z.of_nat 0 * Z.of_nat k))%Z with 0%Z. rewrite tw_0. unfold cn2. simpl. ring.
Qed.
Lemma channels_doubled : exists n c xs fs f P f1 q ch,
  calc_psd n (Arr3 c xs) fs true = Ok (f, P2 P) /\ (ch < c)%nat /\
  calc_psd n (Arr2 (map (fun x => x ch) xs)) fs true = Ok (f1, P1 q) /\ nth ch P [] <> q.
Proof.
  exists 4%nat, 2%nat, [spike3], 1.
  set (P := match calc_psd 4 (Arr3 2 [spike3]) 1 true with Ok (_, P2 P) => P | _ => [] end).
  set (q := match calc_psd 4 (Arr2 (map (fun x => x 1%nat) [spike3])) 1 true with Ok (_, P1 q) => q | _ => [] end).
  exists (rfftfreq 4 1), P, (rfftfreq 4 1), q, 1%nat.
  split; [reflexivity|]. split; [lia|]. split; [reflexivity|]. intros E.
  apply (f_equal (fun l => nth 0 l 0)) in E.
  assert (Hp : nth 0 (nth 1 P []) 0 = 2 * (mean_over [spike3] (fun x => power 4 (x 1%nat) 0) / (1 * INR 4))) by reflexivity.
  assert (Hq : nth 0 q 0 = mean_over [spike3] (fun x => power 4 (x 1%nat) 0) / (1 * INR 4)) by reflexivity.
  rewrite Hp, Hq in E. unfold mean_over, lmean in E. cbn [map length] in E.
  change (power 4 (spike3 1%nat) 0) with (power 4 (fun j => if (j =? 0)%nat then 1 else 0) 0) in E. rewrite spike_power in E.
  cbn [lsum fold_right INR] in E. lra.
Qed.

Lemma channels_unfolded n c xs fs f P : calc_psd n (Arr3 c xs) fs false = Ok (f, P2 P) ->
  length P = c /\ forall ch, (ch < c)%nat -> calc_psd n (Arr2 (map (fun x => x ch) xs)) fs false = Ok (f, P1 (nth ch P [])).
Proof.
  intros H. destruct n as [|n]; [discriminate|]. rewrite calc3_unfolded in H by lia.
  assert (Hf := f_equal (fun r => match r with Ok (f, _) => f | _ => [] end) H).
  assert (HP := f_equal (fun r => match r with Ok (_, P2 q) => q | _ => [] end) H). cbv iota beta in Hf, HP.
  rewrite <- Hf, <- HP. split; [apply mk_length|]. intros ch Hch. rewrite mk_nth by exact Hch.
  rewrite calc_psd_unfolded by (cbn; trivial; lia). reflexivity.
Qed.
(** With a single channel the folded form is right, too; with more channels channel 0
    misses the doubling. *)
Lemma channels_folded0 n c xs fs f P : (0 < n)%nat -> (0 < c)%nat ->
  calc_psd n (Arr3 c xs) fs true = Ok (f, P2 P) ->
  nth 0 P [] = mk (n / 2 + 1) (raw_psd n fs (Arr2 (map (fun x => x 0%nat) xs))).
Proof.
  intros Hn Hc H. unfold calc_psd in H. destruct (Nat.eqb_spec n 0); [lia|].
  assert (HP := f_equal (fun r => match r with Ok (_, P2 q) => q | _ => [] end) H). cbv iota beta zeta in HP.
  rewrite <- HP. rewrite mk_length, mk_nth by exact Hc. cbn [Nat.leb andb]. rewrite mk_nth by exact Hc.
  apply mk_ext. intros k Hk. unfold raw_psd, mean_over. now rewrite map_map.
Qed.

Lemma calc_psd_kind n x fs b f p : calc_psd n x fs b = Ok (f, P1 p) -> flat_arr x.
Proof. destruct x; cbn; trivial. unfold calc_psd. destruct (n =? 0)%nat; [discriminate|]. destruct b; discriminate. Qed.
