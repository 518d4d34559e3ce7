(** * Proofs about the class Noise *)
From Coq Require Import Reals Lra Lia.
From Coquelicot Require Import Complex.
From Verif Require Import Base Dft ListLemmas UtilsModel UtilsSpec UtilsProofs1 UtilsProofs2 UtilsProofs3 UtilsProofs4 NoiseModel NoiseSpec NoiseProofs1 NoiseProofs2.
From Coq Require Import Reals Lra.
Local Open Scope R_scope.

(** ** calculate_psd against calc_psd *)
Lemma psd_against_calc o c q f k :
  (0 < nbins o)%nat -> (c < nchan o)%nat -> (k < nbins o / 2 + 1)%nat ->
  calc_psd (nbins o) (Arr2 (map (fun x => x c) (traces o))) (nfs o) true = Ok (f, P1 q) ->
  exists P, n_psd (calculate_psd o) = Some P /\ length P = nchan o /\
    length (nth c P []) = length q /\
    nth k (nth c P []) 0 =
      (if (k =? 0)%nat || (2 * k =? nbins o)%nat then 2 * nth k q 0 else nth k q 0).
Proof.
  intros Hn Hc Hk. rewrite calc_psd_folded by (try assumption; exact I).
  intros H. apply (f_equal (fun r => match r with Ok (_, P1 q) => q | _ => [] end)) in H. cbv iota beta in H. subst q.
  eexists. split; [reflexivity|]. split; [apply mk_length|].
  unfold spectra. rewrite mk_nth by exact Hc.
  split; [rewrite double_slice_length, !mk_length; reflexivity|].
  rewrite double_slice_mk, !mk_nth by exact Hk.
  cbn [raw_psd]. unfold mean_over. rewrite map_map. fold (mean_over (traces o) (fun x => power (nbins o) (x c) k)).
  change (map (fun x => cn2 (dft (nbins o) (fun j => RtoC (x c j)) (Z.of_nat k))) (traces o))
    with (map (fun x => power (nbins o) (x c) k) (traces o)).
  set (M := lmean (map (fun x => power (nbins o) (x c) k) (traces o))).
  replace (M * 2 / (INR (nbins o) * nfs o)) with (2 * (M / (nfs o * INR (nbins o)))).
  2:{ replace (INR (nbins o) * nfs o) with (nfs o * INR (nbins o)) by ring. unfold Rdiv. ring. }
  destruct (half_cases (nbins o)) as [h [(E & E1 & E2 & _)|(E & E1 & E2 & _)]]; rewrite ?E1, ?E2; rewrite E1 in Hk;
    destruct (Nat.leb_spec 1 k); destruct (Nat.eqb_spec k 0); destruct (Nat.eqb_spec (2 * k) (nbins o));
    cbn [andb orb]; try lia; try reflexivity;
    try (destruct (Nat.ltb_spec k (h + 0)); try lia; reflexivity);
    try (destruct (Nat.ltb_spec k (h + 1)); try lia; reflexivity).
Qed.

(** ** Slopes *)
Lemma combine_mk {A B} n (f : nat -> A) (g : nat -> B) : combine (mk n f) (mk n g) = mk n (fun k => (f k, g k)).
Proof.
  unfold mk. generalize 0%nat as s. induction n as [|n IH]; intros s; cbn; [reflexivity|]. now rewrite IH.
Qed.

Definition xm (n : nat) (t : nat -> R) : R := rsum n t / INR n.
Definition sxx (n : nat) (t : nat -> R) : R := rsum n (fun k => (t k - xm n t) ^ 2).

Lemma slope_mk n t y :
  slope (mk n t) (mk n y) true = rsum n (fun k => (t k - xm n t) * (y k - xm n t)) / sxx n t.
Proof.
  unfold slope. rewrite combine_mk, !mk_map, !lsum_mk.
  unfold lmean. rewrite lsum_mk, mk_length. reflexivity.
Qed.

Lemma centred_sum n t : (0 < n)%nat -> rsum n (fun k => t k - xm n t) = 0.
Proof.
  intros Hn. rewrite rsum_minus, rsum_const. unfold xm. field. now apply INR_neq0.
Qed.

Lemma sxx_alt n t : (0 < n)%nat -> sxx n t = rsum n (fun k => (t k - xm n t) * t k).
Proof.
  intros Hn. unfold sxx.
  rewrite (rsum_ext n _ (fun k => (t k - xm n t) * t k - (t k - xm n t) * xm n t)) by (intros; ring).
  rewrite rsum_minus, rsum_scal_r, centred_sum by exact Hn. ring.
Qed.

Lemma noslope_slope n t y : (0 < n)%nat -> sxx n t <> 0 ->
  slope (mk n t) (mk n (noslope n t y)) true = 0.
Proof.
  intros Hn Hs. rewrite slope_mk. unfold noslope.
  rewrite (rsum_ext n _ (fun k => (t k - xm n t) * (y k - xm n t) - slope (mk n t) (mk n y) true * ((t k - xm n t) * t k)))
    by (intros; ring).
  rewrite rsum_minus, rsum_scal_l, <- sxx_alt, slope_mk by exact Hn. field. exact Hs.
Qed.

Lemma noslope_twice n t y j : (0 < n)%nat -> sxx n t <> 0 ->
  noslope n t (noslope n t y) j = noslope n t y j.
Proof.
  intros Hn Hs. unfold noslope at 1. rewrite noslope_slope by assumption. ring.
Qed.

Lemma sxx_two n t : (0 < n)%nat -> (exists i j, (i < n)%nat /\ (j < n)%nat /\ t i <> t j) -> sxx n t <> 0.
Proof.
  intros Hn (i & j & Hi & Hj & Hne) H0.
  assert (Hz := rsum_nonneg_zero n (fun k => (t k - xm n t) ^ 2) (fun k _ => pow2_ge_0 _) H0).
  assert (Hi' := Hz i Hi). assert (Hj' := Hz j Hj). cbn beta in *.
  apply Hne. assert (t i - xm n t = 0) by (apply Rsqr_0_uniq; rewrite Rsqr_pow2; exact Hi').
  assert (t j - xm n t = 0) by (apply Rsqr_0_uniq; rewrite Rsqr_pow2; exact Hj'). lra.
Qed.

(** ** Correlated and uncorrelated noise *)
Lemma invert_bins_length inv c csd ks l : invert_bins inv c csd ks = Ok l -> length l = length ks.
Proof.
  revert l. induction ks as [|k ks IH]; intros l; cbn; [intros [= <-]; reflexivity|].
  destruct (inv c _); [|discriminate]. destruct (invert_bins inv c csd ks); [|discriminate].
  cbn. intros [= <-]. cbn. now rewrite (IH _ eq_refl).
Qed.

Lemma invert_bins_nth inv c csd ks l d e i : invert_bins inv c csd ks = Ok l -> (i < length ks)%nat ->
  inv c (fun a b => csd a b (nth i ks e)) = Some (nth i l d).
Proof.
  revert l i. induction ks as [|k ks IH]; intros l i; cbn [length]; [lia|].
  cbn [invert_bins]. destruct (inv c (fun i0 j => csd i0 j k)) as [m|] eqn:E; [|discriminate].
  destruct (invert_bins inv c csd ks) as [r|] eqn:E2; [|discriminate].
  cbn [bind]. intros [= <-] Hi. destruct i as [|i]; cbn [nth]; [exact E|]. apply IH; [reflexivity|lia].
Qed.

Lemma fill_length l : length (fill_negatives l) = length l.
Proof. apply fill_negatives_length. Qed.

(** What a successful call stores. *)
Lemma uncorr_stored inv o o' :
  calculate_uncorr_noise inv o = (o', Ok tt) ->
  exists csd real un co,
    n_csd o' = Some csd /\ n_real_csd o' = Some real /\
    n_uncorr o' = Some un /\ n_corr o' = Some co /\
    (n_csd o <> None -> n_csd o' = n_csd o /\ n_real_csd o' = n_real_csd o) /\
    (n_csd o = None -> (nchan o <> 1)%nat /\ csd = csd_mean o /\
       real = (fun i j => fill_negatives (mk (lenpsd (nbins o)) (fun k => fst (csd_mean o i j k))))) /\
    length un = nchan o /\ length co = nchan o /\
    forall j, (j < nchan o)%nat -> length (nth j un []) = lenpsd (nbins o) /\
      forall k, (k < lenpsd (nbins o))%nat ->
      exists B, inv (nchan o) (fun a b => csd a b k) = Some B /\
        nth k (nth j un []) 0 = 1 / Cmod (B j j) /\
        ((k < length (real j j))%nat -> nth k (nth j co []) 0 = nth k (real j j) 0 - 1 / Cmod (B j j)).
Proof.
  unfold calculate_uncorr_noise.
  assert (Main : forall o1, nbins o1 = nbins o -> nchan o1 = nchan o ->
    match n_csd o1, n_real_csd o1 with
    | Some csd, Some real_csd =>
      let m := lenpsd (nbins o1) in
      match invert_bins inv (nchan o1) csd (seq 0 m) with
      | Err e => (o1, Err e)
      | Ok invs =>
          let un j := map (fun b : cmatrix => 1 / Cmod (b j j)) invs in
          (mkNoise (nbins o1) (nchan o1) (nfs o1) (ntime o1) (traces o1)
            (n_psd o1) (n_real_psd o1) (n_imag_psd o1) (n_corrcoeff o1)
            (Some (mk (nchan o1) un))
            (Some (mk (nchan o1) (fun j =>
               map (fun p : R * cmatrix => fst p - 1 / Cmod (snd p j j)) (combine (real_csd j j) invs))))
            (n_csd o1) (n_real_csd o1) (n_imag_csd o1) (n_real_csd_std o1) (n_imag_csd_std o1),
           Ok tt)
      end
    | _, _ => (o1, Err TypeError)
    end = (o', Ok tt) ->
    exists csd real un co,
    n_csd o' = Some csd /\ n_real_csd o' = Some real /\
    n_uncorr o' = Some un /\ n_corr o' = Some co /\
    n_csd o' = n_csd o1 /\ n_real_csd o' = n_real_csd o1 /\
    length un = nchan o /\ length co = nchan o /\
    forall j, (j < nchan o)%nat -> length (nth j un []) = lenpsd (nbins o) /\
      forall k, (k < lenpsd (nbins o))%nat ->
      exists B, inv (nchan o) (fun a b => csd a b k) = Some B /\
        nth k (nth j un []) 0 = 1 / Cmod (B j j) /\
        ((k < length (real j j))%nat -> nth k (nth j co []) 0 = nth k (real j j) 0 - 1 / Cmod (B j j))).
  { intros o1 Eb Ec. destruct (n_csd o1) as [csd|]; [|discriminate]. destruct (n_real_csd o1) as [real|]; [|discriminate].
    cbv zeta. destruct (invert_bins inv (nchan o1) csd (seq 0 (lenpsd (nbins o1)))) as [invs|] eqn:E; [|discriminate].
    intros H. apply (f_equal fst) in H. cbn [fst] in H. rewrite <- H. clear H o'. cbn [n_csd n_real_csd n_uncorr n_corr].
    exists csd, real. do 2 eexists. do 4 (split; [reflexivity|]). split; [reflexivity|]. split; [reflexivity|].
    rewrite Eb, Ec in *. split; [apply mk_length|]. split; [apply mk_length|].
    assert (L := invert_bins_length _ _ _ _ _ E). rewrite seq_length in L.
    intros j Hj. rewrite !mk_nth by exact Hj. split; [now rewrite map_length|].
    intros k Hk. set (d := (fun _ _ => RtoC 0) : cmatrix).
    exists (nth k invs d).
    assert (Hi := invert_bins_nth _ _ _ _ _ d 0%nat k E). rewrite seq_length in Hi. specialize (Hi Hk).
    rewrite seq_nth in Hi by exact Hk. split; [exact Hi|]. split.
    - rewrite (nth_indep _ 0 (1 / Cmod (d j j))) by (rewrite map_length; lia).
      now rewrite (map_nth (fun b : cmatrix => 1 / Cmod (b j j))).
    - intros Hk2.
      rewrite (nth_indep _ 0 (fst (0, d) - 1 / Cmod (snd (0, d) j j))).
      2:{ rewrite map_length, combine_length. lia. }
      rewrite (map_nth (fun p : R * cmatrix => fst p - 1 / Cmod (snd p j j))).
      assert (Hn2 : nth_error (combine (real j j) invs) k = Some (nth k (real j j) 0, nth k invs d)).
      { clear - Hk Hk2 L. revert k Hk Hk2 L. generalize (lenpsd (nbins o)) as m. generalize (real j j) as l.
        induction invs as [|b invs IH]; intros l m k Hk Hk2 L; [cbn in L; lia|].
        destruct l as [|x l]; [cbn in Hk2; lia|]. destruct k as [|k]; [reflexivity|].
        cbn. apply (IH l (m - 1)%nat); cbn in *; lia. }
      rewrite (nth_error_nth _ _ _ Hn2). reflexivity. }
  destruct (n_csd o) as [csd0|] eqn:E0.
  - intros H. assert (M := Main o eq_refl eq_refl). rewrite E0 in M. cbv beta iota in H. rewrite E0 in H.
    destruct (M H) as (csd & real & un & co & H1 & H2 & H3 & H4 & H5 & H6 & H7).
    exists csd, real, un, co. repeat (split; [assumption|]). split; [tauto|]. split; [congruence|]. exact H7.
  - destruct (calculate_csd o) as [o1 r1] eqn:E1. unfold calculate_csd in E1.
    destruct (Nat.eqb_spec (nchan o) 1) as [|Hc]; [injection E1 as <- <-; discriminate|].
    assert (Hr := f_equal snd E1). cbn [snd] in Hr. subst r1.
    apply (f_equal fst) in E1. cbn [fst] in E1. 
    assert (A1' : nbins o1 = nbins o) by now rewrite <- E1. assert (A2' : nchan o1 = nchan o) by now rewrite <- E1.
    assert (A3' : n_csd o1 = Some (csd_mean o)) by now rewrite <- E1.
    assert (A4' : n_real_csd o1 = Some (fun i j => fill_negatives (mk (lenpsd (nbins o)) (fun k => fst (csd_mean o i j k)))))
      by now rewrite <- E1.
    clear E1. intros H.
    destruct (Main o1 A1' A2' H) as (csd & real & un & co & H1 & H2 & H3 & H4 & H5 & H6 & H7).
    exists csd, real, un, co. repeat (split; [assumption|]). split; [congruence|]. split; [|exact H7].
    intros _. split; [exact Hc|]. split; congruence.
Qed.
