(** * Proofs about the class Noise: bounds of the noise split, histories, correlations *)
From Coq Require Import Reals Lra Lia.
From Coquelicot Require Import Complex.
From Verif Require Import Base Dft ListLemmas UtilsModel UtilsSpec UtilsProofs1 UtilsProofs2 UtilsProofs3 UtilsProofs4 NoiseModel NoiseSpec NoiseProofs1 NoiseProofs2 NoiseProofs3.
Local Open Scope R_scope.

(** ** Gram matrices *)
Section Gram.
  Variables (T c : nat) (w : R) (X : nat -> nat -> C) (B : nat -> nat -> C).
  Hypothesis Hw : 0 <= w.
  Let G (i j : nat) : C := csum T (fun t => Cconj (X t i) * X t j * RtoC w)%C.
  Hypothesis HB : right_inverse c G B.

  Lemma gram_diag i : G i i = RtoC (w * rsum T (fun t => cn2 (X t i))).
  Proof.
    unfold G. rewrite <- rsum_scal_l, <- csum_RtoC. apply csum_ext. intros t _.
    rewrite RtoC_mult, cn2_conj. ring.
  Qed.

  Let y (j t : nat) : C := csum c (fun l => X t l * B l j)%C.

  Lemma gram_apply i j : csum c (fun l => G i l * B l j)%C = csum T (fun t => Cconj (X t i) * y j t * RtoC w)%C.
  Proof.
    unfold G, y.
    rewrite (csum_ext c _ (fun l => csum T (fun t => Cconj (X t i) * X t l * RtoC w * B l j)%C))
      by (intros; now rewrite <- (csum_scal_r T)).
    rewrite csum_swap. apply csum_ext. intros t _.
    rewrite <- csum_scal_l, <- csum_scal_r. apply csum_ext. intros. ring.
  Qed.

  Lemma gram_inverse_diag j : (j < c)%nat -> B j j = RtoC (w * rsum T (fun t => cn2 (y j t))).
  Proof.
    intros Hj.
    assert (E : csum c (fun i => Cconj (B i j) * csum c (fun l => G i l * B l j))%C = Cconj (B j j)).
    { rewrite (csum_single c _ j Hj).
      - rewrite HB by assumption. rewrite Nat.eqb_refl. ring.
      - intros i Hi Hne. rewrite HB by assumption. destruct (Nat.eqb_spec i j); [contradiction|]. ring. }
    assert (E2 : csum c (fun i => Cconj (B i j) * csum c (fun l => G i l * B l j))%C = RtoC (w * rsum T (fun t => cn2 (y j t)))).
    { rewrite (csum_ext c _ (fun i => csum T (fun t => Cconj (B i j) * (Cconj (X t i) * y j t * RtoC w))%C))
        by (intros; now rewrite gram_apply, <- (csum_scal_l T)).
      rewrite csum_swap. rewrite <- rsum_scal_l, <- csum_RtoC. apply csum_ext. intros t _.
      rewrite RtoC_mult, cn2_conj.
      replace (Cconj (y j t)) with (csum c (fun l => Cconj (X t l) * Cconj (B l j))%C).
      2:{ unfold y. rewrite csum_conj. apply csum_ext. intros. now rewrite Cconj_mult. }
      transitivity ((csum c (fun l => Cconj (X t l) * Cconj (B l j)) * (y j t * RtoC w)))%C; [|ring].
      rewrite <- csum_scal_r. apply csum_ext. intros. ring. }
    rewrite <- (Cconj_conj (B j j)), <- E, E2. apply Cconj_R.
  Qed.

  Lemma gram_bounds j : (j < c)%nat ->
    exists b g, B j j = RtoC b /\ G j j = RtoC g /\ 0 < b /\ / b <= g.
  Proof.
    intros Hj.
    set (b := w * rsum T (fun t => cn2 (y j t))). set (g := w * rsum T (fun t => cn2 (X t j))).
    exists b, g. split; [now apply gram_inverse_diag|]. split; [apply gram_diag|].
    assert (Hone : csum T (fun t => Cconj (X t j) * y j t * RtoC w)%C = RtoC 1).
    { rewrite <- gram_apply. rewrite HB by assumption. now rewrite Nat.eqb_refl. }
    assert (Hre : w * rsum T (fun t => fst (Cconj (X t j) * y j t)%C) = 1).
    { apply (f_equal fst) in Hone. rewrite csum_fst in Hone. cbn [fst RtoC] in Hone. rewrite <- Hone, <- rsum_scal_l.
      apply rsum_ext. intros t _. generalize (Cconj (X t j) * y j t)%C. intros z. simpl. ring. }
    assert (Hq : forall lam, 0 <= g - 2 * lam + lam * lam * b).
    { intros lam. replace (g - 2 * lam + lam * lam * b)
        with (w * rsum T (fun t => cn2 (X t j - RtoC lam * y j t)%C)).
      - apply Rmult_le_pos; [exact Hw|]. apply rsum_nonneg. intros. apply cn2_nonneg.
      - unfold g, b. replace (2 * lam) with (2 * lam * (w * rsum T (fun t => fst (Cconj (X t j) * y j t)%C))) by (rewrite Hre; ring).
        rewrite (rsum_ext T (fun t => cn2 (X t j - RtoC lam * y j t)%C)
          (fun t => cn2 (X t j) - 2 * lam * fst (Cconj (X t j) * y j t)%C + lam * lam * cn2 (y j t))).
        2:{ intros t _. generalize (X t j) (y j t). intros a d. unfold cn2. simpl. ring. }
        rewrite rsum_plus, rsum_minus, !rsum_scal_l. ring. }
    assert (Hb0 : 0 <= b) by (apply Rmult_le_pos; [exact Hw|]; apply rsum_nonneg; intros; apply cn2_nonneg).
    assert (Hb : 0 < b).
    { destruct Hb0 as [|E]; [assumption|]. exfalso. specialize (Hq (g + 1)). rewrite <- E in Hq.
      assert (0 <= g) by (apply Rmult_le_pos; [exact Hw|]; apply rsum_nonneg; intros; apply cn2_nonneg). lra. }
    split; [exact Hb|]. specialize (Hq (/ b)).
    replace (/ b * / b * b) with (/ b) in Hq by (field; lra). lra.
  Qed.
End Gram.

(** ** The cross spectral density is a Gram matrix *)
Definition zero_trace : trace := fun _ _ => 0.
Definition csd_weight (o : noise) (k : nat) : R :=
  onesided (nbins o) k / (nfs o * rsum (nbins o) (fun j => hann (nbins o) j ^ 2)) / INR (length (traces o)).
Definition csd_ft (o : noise) (k t c : nat) : C :=
  dft (nbins o) (fun j => RtoC (windowed (nbins o) (nth t (traces o) zero_trace c) j)) (Z.of_nat k).

Lemma mean_over_rsum {A} (xs : list A) d (f : A -> R) :
  mean_over xs f = rsum (length xs) (fun t => f (nth t xs d)) / INR (length xs).
Proof.
  unfold mean_over, lmean. rewrite map_length. f_equal. apply lsum_map_nth.
Qed.

Lemma csd_mean_gram o i j k :
  csd_mean o i j k = csum (length (traces o)) (fun t => Cconj (csd_ft o k t i) * csd_ft o k t j * RtoC (csd_weight o k))%C.
Proof.
  apply Ceq; unfold csd_mean; cbn [fst snd]; rewrite ?csum_fst, ?csum_snd, (mean_over_rsum _ zero_trace); unfold Rdiv at 1;
    rewrite <- rsum_scal_r; apply rsum_ext; intros t _; unfold scipy_csd, csd_weight; fold (csd_ft o k t i) (csd_ft o k t j);
    unfold Rdiv; generalize (Cconj (csd_ft o k t i) * csd_ft o k t j)%C; intros z; simpl; ring.
Qed.

Lemma csd_weight_nonneg o k : 0 < nfs o -> 0 <= csd_weight o k.
Proof.
  intros Hf. unfold csd_weight.
  assert (Hinv : forall x, 0 <= x -> 0 <= / x).
  { intros x [Hx|<-]; [left; now apply Rinv_0_lt_compat|rewrite Rinv_0; lra]. }
  apply Rmult_le_pos; [|apply Hinv, pos_INR].
  apply Rmult_le_pos.
  - unfold onesided. destruct (k =? 0)%nat; [lra|]. destruct (_ && _); lra.
  - apply Hinv. apply Rmult_le_pos; [lra|]. apply rsum_nonneg. intros. apply pow2_ge_0.
Qed.

Lemma csd_diag_real o j k : snd (csd_mean o j j k) = 0.
Proof.
  rewrite csd_mean_gram, gram_diag. reflexivity.
Qed.
Lemma csd_hermitian o i j k : csd_mean o i j k = Cconj (csd_mean o j i k).
Proof.
  rewrite !csd_mean_gram, csum_conj. apply csum_ext. intros t _. rewrite !Cconj_mult, Cconj_conj, Cconj_R. ring.
Qed.

(** Fresh object: the split of the noise. *)
Lemma noise_split inv o o' :
  0 < nfs o -> correct_inversion inv -> n_csd o = None ->
  calculate_uncorr_noise inv o = (o', Ok tt) ->
  exists csd un co,
    n_csd o' = Some csd /\ n_uncorr o' = Some un /\ n_corr o' = Some co /\
    forall j k, (j < nchan o)%nat -> (k < lenpsd (nbins o))%nat ->
      let total := csd j j k in let u := nth k (nth j un []) 0 in let c := nth k (nth j co []) 0 in
      snd total = 0 /\ 0 < u <= fst total /\ 0 <= c /\ u + c = fst total.
Proof.
  intros Hf Hinv Hn H. destruct (uncorr_stored inv o o' H) as (csd & real & un & co & H1 & H2 & H3 & H4 & _ & H6 & L1 & L2 & H7).
  exists csd, un, co. do 3 (split; [assumption|]). intros j k Hj Hk. cbv zeta.
  destruct (H6 Hn) as (_ & -> & ->). destruct (H7 j Hj) as [_ H8]. destruct (H8 k Hk) as (B & E1 & E2 & E3).
  rewrite fill_negatives_length, mk_length in E3. specialize (E3 Hk).
  split; [apply csd_diag_real|].
  assert (HB := Hinv _ _ _ E1).
  assert (HB' : right_inverse (nchan o) (fun i j0 => csum (length (traces o))
      (fun t => Cconj (csd_ft o k t i) * csd_ft o k t j0 * RtoC (csd_weight o k))%C) B).
  { intros a b Ha Hb. rewrite <- (HB a b Ha Hb). apply csum_ext. intros l _. now rewrite csd_mean_gram. }
  destruct (gram_bounds (length (traces o)) (nchan o) (csd_weight o k) (csd_ft o k) B (csd_weight_nonneg o k Hf) HB' j Hj)
    as (b & g & Eb & Eg & Hb & Hle).
  rewrite <- csd_mean_gram in Eg.
  assert (Hu : nth k (nth j un []) 0 = / b).
  { rewrite E2, Eb, Cmod_R, Rabs_pos_eq by lra. field. lra. }
  assert (Hg : fst (csd_mean o j j k) = g) by now rewrite Eg.
  assert (Hib := Rinv_0_lt_compat b Hb).
  assert (Hreal : nth k (fill_negatives (mk (lenpsd (nbins o)) (fun k => fst (csd_mean o j j k)))) 0 = g).
  { rewrite fill_negatives_keeps; rewrite ?mk_length; try exact Hk; rewrite mk_nth by exact Hk; rewrite Hg; [reflexivity|lra]. }
  rewrite E3, Hreal, Hu, Hg. rewrite Eb, Cmod_R, Rabs_pos_eq by lra. replace (1 / b) with (/ b) by (field; lra).
  repeat split; lra.
Qed.

(** Any object: the two parts add up to the stored total. *)
Lemma noise_sum inv o o' :
  (forall real, n_csd o <> None -> n_real_csd o = Some real -> forall j, (j < nchan o)%nat -> length (real j j) = lenpsd (nbins o)) ->
  calculate_uncorr_noise inv o = (o', Ok tt) ->
  exists real un co,
    n_real_csd o' = Some real /\ n_uncorr o' = Some un /\ n_corr o' = Some co /\
    forall j k, (j < nchan o)%nat -> (k < lenpsd (nbins o))%nat ->
      nth k (nth j un []) 0 + nth k (nth j co []) 0 = nth k (real j j) 0.
Proof.
  intros Hl H. destruct (uncorr_stored inv o o' H) as (csd & real & un & co & H1 & H2 & H3 & H4 & H5 & H6 & L1 & L2 & H7).
  exists real, un, co. do 3 (split; [assumption|]). intros j k Hj Hk.
  destruct (H7 j Hj) as [_ H8]. destruct (H8 k Hk) as (B & E1 & E2 & E3).
  rewrite E2, E3; [ring|].
  destruct (n_csd o) as [c0|] eqn:E0.
  - destruct (H5 ltac:(discriminate)) as [_ Hr]. rewrite (Hl real) by (congruence || assumption). exact Hk.
  - destruct (H6 eq_refl) as (_ & _ & ->). rewrite fill_negatives_length, mk_length. exact Hk.
Qed.

(** ** Histories *)
Lemma fresh_result inv op o : op <> OpUncorr ->
  snd (run_noise inv op o) = snd (run_noise inv op (refreshed o)) /\
  (snd (run_noise inv op o) = Ok tt ->
   same_result op (fst (run_noise inv op o)) (fst (run_noise inv op (refreshed o)))).
Proof.
  intros Hop. destruct op; try contradiction; cbn [run_noise].
  - split; [reflexivity|]. intros _. reflexivity.
  - split; [reflexivity|]. intros _. repeat split.
  - unfold calculate_corrcoeff. cbn [nchan refreshed fresh_noise]. destruct (nchan o =? 1)%nat; (split; [reflexivity|]);
      [discriminate|intros _; reflexivity].
  - unfold calculate_csd. cbn [nchan refreshed fresh_noise]. destruct (nchan o =? 1)%nat; (split; [reflexivity|]);
      [discriminate|intros _; repeat split].
Qed.

(** The cross spectral density is that of the current traces. *)
Definition csd_current (o : noise) : Prop :=
  n_csd o = None \/
  (nchan o <> 1%nat /\ n_csd o = n_csd (fst (calculate_csd (refreshed o))) /\ n_real_csd o = n_real_csd (fst (calculate_csd (refreshed o)))).

Lemma uncorr_keeps inv o : let o' := fst (calculate_uncorr_noise inv o) in
  nbins o' = nbins o /\ nchan o' = nchan o /\ nfs o' = nfs o /\ ntime o' = ntime o /\ traces o' = traces o /\
  ((n_csd o' = n_csd o /\ n_real_csd o' = n_real_csd o) \/
   (n_csd o = None /\ n_csd o' = n_csd (fst (calculate_csd o)) /\ n_real_csd o' = n_real_csd (fst (calculate_csd o)))).
Proof.
  cbv zeta. unfold calculate_uncorr_noise. destruct (n_csd o) as [c0|] eqn:E0.
  - rewrite E0. destruct (n_real_csd o) eqn:E1; [|cbn [fst]; rewrite E0, E1; repeat split; now left].
    destruct (invert_bins _ _ _ _); cbn [fst nbins nchan nfs ntime traces n_csd n_real_csd]; rewrite ?E0, ?E1; repeat split; now left.
  - destruct (calculate_csd o) as [o1 r1] eqn:E1.
    assert (K : nbins o1 = nbins o /\ nchan o1 = nchan o /\ nfs o1 = nfs o /\ ntime o1 = ntime o /\ traces o1 = traces o).
    { unfold calculate_csd in E1. destruct (nchan o =? 1)%nat; apply (f_equal fst) in E1; cbn [fst] in E1; rewrite <- E1; repeat split. }
    destruct K as (K1 & K2 & K3 & K4 & K5).
    destruct r1 as [u|e]; cbn [fst].
    + destruct (n_csd o1) eqn:E3; [|cbn [fst]; rewrite E3; repeat (split; [assumption|]); now right].
      destruct (n_real_csd o1) eqn:E4; [|cbn [fst]; rewrite E3, E4; repeat (split; [assumption|]); now right].
      destruct (invert_bins _ _ _ _); cbn [fst nbins nchan nfs ntime traces n_csd n_real_csd]; rewrite ?E3, ?E4;
        repeat (split; [assumption|]); now right.
    + repeat (split; [assumption|]). now right.
Qed.

Lemma csd_of_refreshed o : n_csd o = None ->
  n_csd (fst (calculate_csd o)) = n_csd (fst (calculate_csd (refreshed o))) /\
  (nchan o <> 1%nat -> n_real_csd (fst (calculate_csd o)) = n_real_csd (fst (calculate_csd (refreshed o)))).
Proof.
  intros H. unfold calculate_csd. cbn [nchan refreshed fresh_noise]. destruct (Nat.eqb_spec (nchan o) 1); cbn [fst].
  - split; [exact H|congruence].
  - split; [|intros _]; reflexivity.
Qed.

Lemma refreshed_same o o' : nbins o' = nbins o -> nchan o' = nchan o -> nfs o' = nfs o -> ntime o' = ntime o ->
  traces o' = traces o -> refreshed o' = refreshed o.
Proof. intros A B D E F. unfold refreshed. now rewrite A, B, D, E, F. Qed.

Lemma csd_current_step inv op o : op <> OpSlope -> csd_current o -> csd_current (fst (run_noise inv op o)).
Proof.
  intros Hop H. destruct op; [contradiction| | | |]; cbn [run_noise].
  - exact H.
  - unfold calculate_corrcoeff. destruct (nchan o =? 1)%nat; exact H.
  - unfold calculate_csd. destruct (Nat.eqb_spec (nchan o) 1) as [E|E]; cbn [fst]; [exact H|].
    right. split; [exact E|]. unfold calculate_csd. cbn [nchan refreshed fresh_noise].
    destruct (Nat.eqb_spec (nchan o) 1) as [E'|E']; [contradiction|]. split; reflexivity.
  - destruct (uncorr_keeps inv o) as (K1 & K2 & K3 & K4 & K5 & K6).
    unfold csd_current. rewrite (refreshed_same o _ K1 K2 K3 K4 K5), K2.
    destruct K6 as [[-> ->]|(K6 & -> & ->)]; [exact H|].
    destruct (csd_of_refreshed o K6) as [-> Hr].
    destruct (Nat.eq_dec (nchan o) 1) as [E|E].
    + left. unfold calculate_csd. cbn [nchan refreshed fresh_noise]. rewrite E. reflexivity.
    + right. rewrite Hr by exact E. repeat split. exact E.
Qed.

Lemma uncorr_only_csd inv o1 o2 : nbins o1 = nbins o2 -> nchan o1 = nchan o2 ->
  n_csd o1 <> None -> n_csd o1 = n_csd o2 -> n_real_csd o1 = n_real_csd o2 ->
  snd (calculate_uncorr_noise inv o1) = snd (calculate_uncorr_noise inv o2) /\
  (snd (calculate_uncorr_noise inv o1) = Ok tt ->
   same_result OpUncorr (fst (calculate_uncorr_noise inv o1)) (fst (calculate_uncorr_noise inv o2))).
Proof.
  intros A B D E F. unfold calculate_uncorr_noise. rewrite <- E. destruct (n_csd o1) as [c|] eqn:E1; [|contradiction].
  rewrite <- E, E1. rewrite <- F. destruct (n_real_csd o1); [|split; [reflexivity|discriminate]].
  cbv zeta. rewrite A, B. destruct (invert_bins _ _ _ _); (split; [reflexivity|]); [intros _; split; reflexivity|discriminate].
Qed.

Lemma uncorr_current inv o : csd_current o ->
  snd (run_noise inv OpUncorr o) = snd (run_noise inv OpUncorr (refreshed o)) /\
  (snd (run_noise inv OpUncorr o) = Ok tt ->
   same_result OpUncorr (fst (run_noise inv OpUncorr o)) (fst (run_noise inv OpUncorr (refreshed o)))).
Proof.
  assert (Hstep : forall p, n_csd p = None -> nchan p <> 1%nat ->
     calculate_uncorr_noise inv p = calculate_uncorr_noise inv (fst (calculate_csd p))).
  { intros p Hp Hc. assert (Ec : calculate_csd p = (fst (calculate_csd p), Ok tt)).
    { unfold calculate_csd. destruct (Nat.eqb_spec (nchan p) 1); [contradiction|]. reflexivity. }
    assert (n_csd (fst (calculate_csd p)) = Some (csd_mean p)) as Es.
    { unfold calculate_csd. destruct (Nat.eqb_spec (nchan p) 1); [contradiction|]. reflexivity. }
    unfold calculate_uncorr_noise. rewrite Hp, Es, Ec. cbn [fst]. reflexivity. }
  cbn [run_noise]. intros [Hn|(Hc & H1 & H2)].
  - destruct (Nat.eq_dec (nchan o) 1) as [E|E].
    + assert (Er : forall p, n_csd p = None -> nchan p = 1%nat -> calculate_uncorr_noise inv p = (p, Err ValueError)).
      { intros p Hp Hq. unfold calculate_uncorr_noise. rewrite Hp. unfold calculate_csd. rewrite Hq. reflexivity. }
      rewrite (Er o Hn E), (Er (refreshed o) eq_refl E). split; [reflexivity|discriminate].
    + rewrite (Hstep o Hn E), (Hstep (refreshed o) eq_refl E).
      assert (K : forall p, nchan p <> 1%nat -> nbins (fst (calculate_csd p)) = nbins p /\ nchan (fst (calculate_csd p)) = nchan p /\ n_csd (fst (calculate_csd p)) <> None).
      { intros p Hp. unfold calculate_csd. destruct (Nat.eqb_spec (nchan p) 1); [contradiction|]. cbn. repeat split. discriminate. }
      destruct (K o E) as (K1 & K2 & K3). destruct (K (refreshed o) E) as (K4 & K5 & _).
      destruct (csd_of_refreshed o Hn) as [Q1 Q2].
      apply uncorr_only_csd; [now rewrite K1, K4|now rewrite K2, K5|exact K3|exact Q1|now apply Q2].
  - rewrite (Hstep (refreshed o) eq_refl Hc).
    assert (K : nbins (fst (calculate_csd (refreshed o))) = nbins o /\ nchan (fst (calculate_csd (refreshed o))) = nchan o /\ n_csd (fst (calculate_csd (refreshed o))) <> None).
    { unfold calculate_csd. cbn [nchan refreshed fresh_noise]. destruct (Nat.eqb_spec (nchan o) 1); [contradiction|]. cbn. repeat split. discriminate. }
    destruct K as (K1 & K2 & K3).
    apply uncorr_only_csd; [now rewrite K1|now rewrite K2|now rewrite H1|exact H1|exact H2].
Qed.

Lemma run_noises_app inv a b o : run_noises inv (a ++ b) o = run_noises inv b (run_noises inv a o).
Proof. apply fold_left_app. Qed.

Lemma csd_current_run inv ops o : ~ In OpSlope ops -> csd_current o -> csd_current (run_noises inv ops o).
Proof.
  revert o. induction ops as [|op ops IH]; intros o Hn H; [exact H|].
  cbn [run_noises fold_left]. apply IH; [intros Hi; apply Hn; now right|].
  apply csd_current_step; [|exact H]. intros ->. apply Hn. now left.
Qed.

Lemma csd_current_after inv o : nchan o <> 1%nat -> csd_current (fst (run_noise inv OpCsd o)).
Proof.
  intros E. cbn [run_noise]. right. unfold calculate_csd. destruct (Nat.eqb_spec (nchan o) 1) as [|_]; [contradiction|].
  cbn. split; [exact E|]. destruct (Nat.eqb_spec (nchan o) 1) as [|_]; [contradiction|]. split; reflexivity.
Qed.

Lemma nchan_run inv ops o : nchan (run_noises inv ops o) = nchan o.
Proof.
  revert o. induction ops as [|op ops IH]; intros o; [reflexivity|]. cbn [run_noises fold_left].
  fold (run_noises inv ops (fst (run_noise inv op o))). rewrite IH. destruct op; cbn [run_noise]; try reflexivity.
  - unfold calculate_corrcoeff. destruct (_ =? _)%nat; reflexivity.
  - unfold calculate_csd. destruct (_ =? _)%nat; reflexivity.
  - apply uncorr_keeps.
Qed.

Lemma uncorr_history inv o pre post : n_csd o = None -> ~ In OpSlope post ->
  let h := run_noises inv (pre ++ OpCsd :: post) o in
  snd (run_noise inv OpUncorr h) = snd (run_noise inv OpUncorr (refreshed h)) /\
  (snd (run_noise inv OpUncorr h) = Ok tt ->
   same_result OpUncorr (fst (run_noise inv OpUncorr h)) (fst (run_noise inv OpUncorr (refreshed h)))).
Proof.
  intros Hn Hs h. apply uncorr_current. unfold h. rewrite run_noises_app.
  cbn [run_noises fold_left]. apply csd_current_run; [exact Hs|].
  destruct (Nat.eq_dec (nchan o) 1) as [E|E].
  - (* with one channel the csd is never stored *)
    assert (Hinv : forall ops p, nchan p = 1%nat -> n_csd p = None -> n_csd (run_noises inv ops p) = None).
    { induction ops as [|op ops IH]; intros p Hp Hc; [exact Hc|]. cbn [run_noises fold_left].
      fold (run_noises inv ops (fst (run_noise inv op p))).
      assert (Hk : nchan (fst (run_noise inv op p)) = nchan p) by apply (nchan_run inv [op] p).
      apply IH; [congruence|].
      destruct op; cbn [run_noise]; try exact Hc.
      - unfold calculate_corrcoeff. rewrite Hp. exact Hc.
      - unfold calculate_csd. rewrite Hp. exact Hc.
      - unfold calculate_uncorr_noise. rewrite Hc. unfold calculate_csd. rewrite Hp. exact Hc. }
    left. apply (Hinv [OpCsd]); [rewrite <- E; apply nchan_run|]. now apply Hinv.
  - apply csd_current_after. change (nchan (run_noises inv pre o) <> 1%nat). now rewrite nchan_run.
Qed.

Lemma uncorr_history0 inv o post : n_csd o = None -> ~ In OpSlope post ->
  let h := run_noises inv post o in
  snd (run_noise inv OpUncorr h) = snd (run_noise inv OpUncorr (refreshed h)) /\
  (snd (run_noise inv OpUncorr h) = Ok tt ->
   same_result OpUncorr (fst (run_noise inv OpUncorr h)) (fst (run_noise inv OpUncorr (refreshed h)))).
Proof. intros Hn Hs h. apply uncorr_current. apply csd_current_run; [exact Hs|]. now left. Qed.
