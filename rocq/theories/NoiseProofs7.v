(** * Construction of Noise objects, cross spectral densities, number of traces *)
From Coq Require Import Reals Lra Lia.
From Coquelicot Require Import Complex.
From Verif Require Import Base Dft ListLemmas UtilsModel UtilsSpec UtilsProofs1 UtilsProofs2 UtilsProofs3 UtilsProofs4
  NoiseModel NoiseSpec NoiseProofs1 NoiseProofs2 NoiseProofs3 NoiseProofs4 NoiseProofs5.
Local Open Scope R_scope.

(** ** Cross spectral density *)
Lemma hann_sin n j : hann n j = sin (PI * INR j / INR n) ^ 2.
Proof.
  unfold hann. replace (2 * PI * INR j / INR n) with (2 * (PI * INR j / INR n)) by (unfold Rdiv; ring).
  rewrite cos_2a_sin. field.
Qed.

Lemma onesided_eq n k : onesided n k = if ((k =? 0)%nat || (2 * k =? n)%nat)%bool then 1 else 2.
Proof.
  unfold onesided. destruct (Nat.eqb_spec k 0); [reflexivity|]. cbn [orb].
  destruct (half_cases n) as [h [(E1 & E2 & E3 & _)|(E1 & E2 & E3 & _)]]; rewrite E2, E3; cbn [Nat.eqb andb].
  - destruct (Nat.eqb_spec k h); destruct (Nat.eqb_spec (2 * k) n); try reflexivity; lia.
  - destruct (Nat.eqb_spec (2 * k) n); [lia|reflexivity].
Qed.

Lemma csd_welch n fs x y k : scipy_csd n fs x y k = welch n fs x y k.
Proof.
  unfold scipy_csd, welch. rewrite onesided_eq.
  rewrite (rsum_ext n (fun j => hann n j ^ 2) (fun j => (sin (PI * INR j / INR n) ^ 2) ^ 2))
    by (intros; now rewrite hann_sin).
  assert (E : forall z, dft n (fun j => RtoC (windowed n z j)) (Z.of_nat k) =
     dft n (fun j => RtoC (sin (PI * INR j / INR n) ^ 2 * (z j - rsum n z / INR n))) (Z.of_nat k)).
  { intros z. apply dft_ext. intros j _. unfold windowed. now rewrite hann_sin. }
  rewrite !E. ring.
Qed.

Lemma std_over_eq (xs : list trace) f :
  std_over xs f = sample_std (length xs) (fun t => f (nth t xs zero_trace)).
Proof.
  unfold std_over, lvar, sample_std, sample_mean, lmean. rewrite !map_map, !map_length.
  rewrite !(lsum_map_nth _ _ zero_trace). f_equal. f_equal. apply rsum_ext. intros. ring.
Qed.

Lemma lenpsd_eq n : lenpsd n = (n / 2 + 1)%nat.
Proof.
  unfold lenpsd. destruct (half_cases n) as [h [(E1 & E2 & E3 & E4)|(E1 & E2 & E3 & E4)]]; rewrite E3; cbn [Nat.eqb].
  - reflexivity.
  - rewrite E2, E1. replace (2 * h + 1 + 1)%nat with ((h + 1) * 2)%nat by lia. now rewrite Nat.div_mul by lia.
Qed.

Lemma csd_stored o : nchan o <> 1%nat ->
  snd (calculate_csd o) = Ok tt /\
  exists c rc ic rs is,
    n_csd (fst (calculate_csd o)) = Some c /\
    n_real_csd (fst (calculate_csd o)) = Some rc /\ n_imag_csd (fst (calculate_csd o)) = Some ic /\
    n_real_csd_std (fst (calculate_csd o)) = Some rs /\ n_imag_csd_std (fst (calculate_csd o)) = Some is /\
    let m := length (traces o) in
    let bins := (nbins o / 2 + 1)%nat in
    forall i j,
      let S k t := welch (nbins o) (nfs o) (nth t (traces o) (fun _ _ => 0) i) (nth t (traces o) (fun _ _ => 0) j) k in
      (forall k, c i j k = (sample_mean m (fun t => fst (S k t)), sample_mean m (fun t => snd (S k t)))) /\
      rc i j = fill_negatives (mk bins (fun k => sample_mean m (fun t => fst (S k t)))) /\
      ic i j = fill_negatives (mk bins (fun k => sample_mean m (fun t => snd (S k t)))) /\
      rs i j = fill_negatives (mk bins (fun k => sample_std m (fun t => fst (S k t)))) /\
      is i j = fill_negatives (mk bins (fun k => sample_std m (fun t => snd (S k t)))).
Proof.
  intros Hc. unfold calculate_csd. destruct (Nat.eqb_spec (nchan o) 1); [contradiction|].
  split; [reflexivity|]. cbn [fst n_csd n_real_csd n_imag_csd n_real_csd_std n_imag_csd_std].
  do 5 eexists. do 5 (split; [reflexivity|]). cbn zeta. intros i j.
  assert (EM : forall (g : C -> R) k, mean_over (traces o) (fun x => g (scipy_csd (nbins o) (nfs o) (x i) (x j) k)) =
    sample_mean (length (traces o)) (fun t => g (welch (nbins o) (nfs o) (nth t (traces o) (fun _ _ => 0) i) (nth t (traces o) (fun _ _ => 0) j) k))).
  { intros g k. rewrite (mean_over_rsum _ zero_trace). unfold sample_mean. f_equal. apply rsum_ext. intros t _.
    now rewrite csd_welch. }
  assert (ES : forall (g : C -> R) k, std_over (traces o) (fun x => g (scipy_csd (nbins o) (nfs o) (x i) (x j) k)) =
    sample_std (length (traces o)) (fun t => g (welch (nbins o) (nfs o) (nth t (traces o) (fun _ _ => 0) i) (nth t (traces o) (fun _ _ => 0) j) k))).
  { intros g k. rewrite std_over_eq. unfold sample_std, sample_mean. f_equal. f_equal. apply rsum_ext. intros t _.
    rewrite csd_welch. do 2 f_equal. f_equal. apply rsum_ext. intros t' _. now rewrite csd_welch. }
  rewrite lenpsd_eq.
  split; [intros k; unfold csd_mean; now rewrite (EM fst), (EM snd)|].
  split; [f_equal; apply mk_ext; intros k _; apply (EM fst)|].
  split; [f_equal; apply mk_ext; intros k _; apply (EM snd)|].
  split; f_equal; apply mk_ext; intros k _; [apply (ES fst)|apply (ES snd)].
Qed.

(** ** Cauchy-Schwarz *)
Lemma cauchy_complex m (a b : nat -> C) :
  cn2 (csum m (fun t => Cconj (a t) * b t)%C) <= rsum m (fun t => cn2 (a t)) * rsum m (fun t => cn2 (b t)).
Proof.
  set (p := csum m (fun t => Cconj (a t) * b t)%C).
  set (q := rsum m (fun t => cn2 (a t))). set (r := rsum m (fun t => cn2 (b t))).
  assert (Hr : 0 <= r) by (apply rsum_nonneg; intros; apply cn2_nonneg).
  assert (Hq : 0 <= q) by (apply rsum_nonneg; intros; apply cn2_nonneg).
  assert (Hs : forall s, 0 <= q - 2 * s * cn2 p + s * s * cn2 p * r).
  { intros s.
    replace (q - 2 * s * cn2 p + s * s * cn2 p * r)
      with (rsum m (fun t => cn2 (a t - RtoC s * Cconj p * b t)%C)).
    - apply rsum_nonneg. intros. apply cn2_nonneg.
    - assert (Ep : cn2 p = fst (Cconj p * p)%C) by (unfold cn2; simpl; ring).
      unfold p at 3 in Ep. rewrite <- csum_scal_l, csum_fst in Ep. fold p in Ep.
      rewrite (rsum_ext m _ (fun t => cn2 (a t) - 2 * s * fst (Cconj p * (Cconj (a t) * b t))%C + s * s * cn2 p * cn2 (b t))).
      + rewrite rsum_plus, rsum_minus, !rsum_scal_l, <- Ep. reflexivity.
      + intros t _. generalize (a t) (b t). intros u v. unfold cn2. destruct p as [p1 p2]. simpl. ring. }
  destruct (Rle_lt_or_eq_dec 0 r Hr) as [Hr'|Hr'].
  - specialize (Hs (/ r)). apply (Rmult_le_compat_l r) in Hs; [|lra].
    replace (r * (q - 2 * / r * cn2 p + / r * / r * cn2 p * r)) with (q * r - cn2 p) in Hs by (field; lra). lra.
  - rewrite <- Hr' in *. assert (P := cn2_nonneg p).
    destruct (Rle_lt_or_eq_dec 0 _ P) as [P'|P']; [|rewrite <- P'; nra]. exfalso.
    specialize (Hs ((q + 1) / cn2 p)).
    replace (q - 2 * ((q + 1) / cn2 p) * cn2 p + (q + 1) / cn2 p * ((q + 1) / cn2 p) * cn2 p * 0) with (- q - 2) in Hs by (field; lra).
    lra.
Qed.

Lemma csd_coherence o i j k : 0 < nfs o ->
  Cmod (csd_mean o i j k) ^ 2 <= fst (csd_mean o i i k) * fst (csd_mean o j j k) /\
  0 <= fst (csd_mean o i i k).
Proof.
  intros Hf. assert (W := csd_weight_nonneg o k Hf). rewrite <- cn2_Cmod.
  rewrite !csd_mean_gram, !gram_diag. set (m := length (traces o)) in *. set (w := csd_weight o k) in *.
  rewrite csum_scal_r, (Cmult_comm _ (RtoC w)), cn2_scal. cbn [fst RtoC].
  assert (H := cauchy_complex m (fun t => csd_ft o k t i) (fun t => csd_ft o k t j)). split.
  - replace (w * rsum m (fun t => cn2 (csd_ft o k t i)) * (w * rsum m (fun t => cn2 (csd_ft o k t j))))
      with (w * w * (rsum m (fun t => cn2 (csd_ft o k t i)) * rsum m (fun t => cn2 (csd_ft o k t j)))) by ring.
    apply Rmult_le_compat_l; [nra|exact H].
  - apply Rmult_le_pos; [exact W|]. apply rsum_nonneg. intros. apply cn2_nonneg.
Qed.

(** ** Fewer equations than unknowns *)
Definition skip (p i : nat) : nat := if (i <? p)%nat then i else S i.

Lemma csum_skip n p f : (p <= n)%nat -> csum (S n) f = (f p + csum n (fun i => f (skip p i)))%C.
Proof.
  intros Hp. replace (S n) with (p + S (n - p))%nat by lia. replace n with (p + (n - p))%nat at 2 by lia.
  rewrite !csum_split, csum_S_first.
  rewrite (csum_ext p (fun i => f (skip p i)) f).
  2:{ intros i Hi. unfold skip. destruct (Nat.ltb_spec i p); [reflexivity|lia]. }
  rewrite (csum_ext (n - p) (fun k => f (skip p (p + k))) (fun k => f (p + S k)%nat)).
  2:{ intros i Hi. unfold skip. destruct (Nat.ltb_spec (p + i) p); [lia|]. f_equal. lia. }
  replace (p + 0)%nat with p by lia. ring.
Qed.

Lemma pivot_dec m (f : nat -> C) : (exists p, (p < m)%nat /\ f p <> RtoC 0) \/ (forall p, (p < m)%nat -> f p = RtoC 0).
Proof.
  induction m as [|m [(p & Hp & H)|H]].
  - right. intros; lia.
  - left. exists p. split; [lia|exact H].
  - destruct (Ceq_dec (f m) (RtoC 0)) as [E|E].
    + right. intros p Hp. destruct (Nat.eq_dec p m) as [->|]; [exact E|apply H; lia].
    + left. exists m. split; [lia|exact E].
Qed.

Lemma dependent T : forall g : nat -> nat -> C,
  exists u : nat -> C, (exists i, (i <= T)%nat /\ u i <> RtoC 0) /\
    forall t, (t < T)%nat -> csum (S T) (fun i => u i * g i t)%C = RtoC 0.
Proof.
  induction T as [|T IH]; intros g.
  - exists (fun _ => RtoC 1). split; [exists 0%nat; split; [lia|apply RtoC_neq; lra]|]. intros; lia.
  - destruct (pivot_dec (S (S T)) (fun i => g i T)) as [(p & Hp & Hg)|H0].
    + destruct (IH (fun i t => g (skip p i) t - g (skip p i) T / g p T * g p t)%C) as (u & (i & Hi & Hu) & H).
      set (up := (- csum (S T) (fun i => u i * (g (skip p i) T / g p T)))%C).
      exists (fun q => if (q =? p)%nat then up else if (q <? p)%nat then u q else u (q - 1)%nat).
      assert (Hs : forall i, (if (skip p i =? p)%nat then up else if (skip p i <? p)%nat then u (skip p i) else u (skip p i - 1)%nat) = u i).
      { intros l. unfold skip. destruct (Nat.ltb_spec l p).
        - destruct (Nat.eqb_spec l p); [lia|]. destruct (Nat.ltb_spec l p); [reflexivity|lia].
        - destruct (Nat.eqb_spec (S l) p); [lia|]. destruct (Nat.ltb_spec (S l) p); [lia|]. f_equal. lia. }
      split.
      { exists (skip p i). split; [unfold skip; destruct (i <? p)%nat; lia|]. now rewrite Hs. }
      intros t Ht. rewrite (csum_skip (S T) p) by lia. rewrite Nat.eqb_refl.
      rewrite (csum_ext (S T) _ (fun i => u i * g (skip p i) t)%C) by (intros; now rewrite Hs).
      assert (E : (up * g p t)%C = (- csum (S T) (fun i => u i * (g (skip p i) T / g p T * g p t)))%C).
      { unfold up. transitivity (- (csum (S T) (fun i => u i * (g (skip p i) T / g p T)) * g p t))%C; [ring|].
        f_equal. rewrite <- csum_scal_r. apply csum_ext. intros. ring. }
      rewrite E. clear E.
      destruct (Nat.eq_dec t T) as [->|Hne].
      * transitivity (csum (S T) (fun i => u i * g (skip p i) T) - csum (S T) (fun i => u i * (g (skip p i) T / g p T * g p T)))%C; [ring|].
        rewrite <- csum_minus. transitivity (csum (S T) (fun _ => RtoC 0)); [|apply csum_zero].
        apply csum_ext. intros l _. field. exact Hg.
      * rewrite <- (H t) by lia.
        transitivity (csum (S T) (fun i => u i * g (skip p i) t) - csum (S T) (fun i => u i * (g (skip p i) T / g p T * g p t)))%C; [ring|].
        rewrite <- csum_minus. apply csum_ext. intros l _. ring.
    + destruct (IH g) as (u & (i & Hi & Hu) & H).
      exists (fun q => if (q =? S T)%nat then RtoC 0 else u q). split.
      { exists i. split; [lia|]. destruct (Nat.eqb_spec i (S T)); [lia|exact Hu]. }
      intros t Ht. cbn [csum]. rewrite Nat.eqb_refl.
      destruct (Nat.eq_dec t T) as [->|Hne].
      * assert (E : forall i, (i < S (S T))%nat -> g i T = RtoC 0) by exact H0.
        transitivity (csum (S T) (fun _ => RtoC 0)); [|apply csum_zero]. cbn [csum].
        rewrite (E T) by lia. rewrite (csum_ext T _ (fun _ => RtoC 0)); [ring|].
        intros l Hl. rewrite (E l) by lia. ring.
      * transitivity (csum (S T) (fun i => u i * g i t))%C; [|apply H; lia]. cbn [csum].
        destruct (Nat.eqb_spec T (S T)); [lia|].
        rewrite (csum_ext T _ (fun i => u i * g i t)%C); [ring|].
        intros l Hl. destruct (Nat.eqb_spec l (S T)); [lia|reflexivity].
Qed.

Lemma few_traces_singular T c w (X : nat -> nat -> C) B : (T < c)%nat ->
  ~ right_inverse c (fun i j => csum T (fun t => Cconj (X t i) * X t j * RtoC w)%C) B.
Proof.
  intros Hc HB. destruct (dependent T (fun i t => Cconj (X t i))) as (u & (i & Hi & Hu) & H).
  set (v := fun q => if (q <=? T)%nat then u q else RtoC 0).
  assert (Hv : forall t, (t < T)%nat -> csum c (fun q => v q * Cconj (X t q))%C = RtoC 0).
  { intros t Ht. replace c with (S T + (c - S T))%nat by lia. rewrite csum_split.
    rewrite (csum_ext (S T) _ (fun q => u q * Cconj (X t q))%C).
    2:{ intros q Hq. unfold v. destruct (Nat.leb_spec q T); [reflexivity|lia]. }
    rewrite (H t Ht). rewrite (csum_ext (c - S T) _ (fun _ => RtoC 0)), csum_zero; [ring|].
    intros q Hq. unfold v. destruct (Nat.leb_spec (S T + q) T); [lia|ring]. }
  apply Hu. transitivity (v i); [unfold v; destruct (Nat.leb_spec i T); [reflexivity|lia]|].
  transitivity (csum c (fun q => v q * csum c (fun l => csum T (fun t => Cconj (X t q) * X t l * RtoC w) * B l i))%C).
  - symmetry. rewrite (csum_single c _ i); [|lia|].
    2:{ intros q Hq Hne. rewrite (HB q i) by lia. destruct (Nat.eqb_spec q i); [contradiction|ring]. }
    rewrite (HB i i) by lia. rewrite Nat.eqb_refl. ring.
  - rewrite (csum_ext c _ (fun q => csum T (fun t => v q * Cconj (X t q) * (RtoC w * csum c (fun l => X t l * B l i))))%C).
    + rewrite csum_swap. transitivity (csum T (fun _ => RtoC 0)); [|apply csum_zero]. apply csum_ext. intros t Ht.
      rewrite csum_scal_r, Hv by exact Ht. ring.
    + intros q _. rewrite (gram_apply T c w X B q i).
      rewrite <- csum_scal_l. apply csum_ext. intros t _. ring.
Qed.

Lemma too_few_traces inv o : correct_inversion inv -> n_csd o = None -> (1 < nchan o)%nat ->
  (length (traces o) < nchan o)%nat ->
  snd (calculate_uncorr_noise inv o) = Err LinAlgError.
Proof.
  intros Hinv Hn Hc Hl. unfold calculate_uncorr_noise. rewrite Hn.
  unfold calculate_csd. destruct (Nat.eqb_spec (nchan o) 1); [lia|].
  cbn [n_csd n_real_csd nbins nchan].
  rewrite lenpsd_eq. replace (nbins o / 2 + 1)%nat with (S (nbins o / 2)) by lia. cbn [seq invert_bins].
  destruct (inv (nchan o) (fun i j => csd_mean o i j 0)) as [B|] eqn:E; [|reflexivity].
  exfalso. apply Hinv in E.
  apply (few_traces_singular (length (traces o)) (nchan o) (csd_weight o 0) (csd_ft o 0) B Hl).
  intros i j Hi Hj. rewrite <- (E i j Hi Hj). apply csum_ext. intros l _. now rewrite csd_mean_gram.
Qed.

(** ** Real and imaginary spectra *)
Lemma psd_parts o :
  exists p re im, n_psd (calculate_psd o) = Some p /\ n_real_psd (calculate_psd o) = Some re /\
    n_imag_psd (calculate_psd o) = Some im /\
    length p = nchan o /\ length re = nchan o /\ length im = nchan o /\
    forall c, (c < nchan o)%nat ->
      length (nth c p []) = (nbins o / 2 + 1)%nat /\ length (nth c re []) = (nbins o / 2 + 1)%nat /\
      length (nth c im []) = (nbins o / 2 + 1)%nat /\
      forall k, (k < nbins o / 2 + 1)%nat ->
        let m := length (traces o) in
        let F t := dft (nbins o) (fun j => RtoC (nth t (traces o) (fun _ _ => 0) c j)) (Z.of_nat k) in
        let norm := INR (nbins o) * nfs o in
        nth k (nth c re []) 0 = 2 * sample_mean m (fun t => fst (F t) ^ 2) / norm /\
        nth k (nth c im []) 0 = 2 * sample_mean m (fun t => snd (F t) ^ 2) / norm /\
        nth k (nth c p []) 0 = nth k (nth c re []) 0 + nth k (nth c im []) 0.
Proof.
  unfold calculate_psd. cbn [n_psd n_real_psd n_imag_psd]. do 3 eexists. do 3 (split; [reflexivity|]).
  unfold spectra. rewrite !mk_length. do 3 (split; [reflexivity|]). intros c Hc.
  rewrite !mk_nth by exact Hc. rewrite !mk_length. do 3 (split; [reflexivity|]). intros k Hk. cbv zeta.
  rewrite !mk_nth by exact Hk.
  assert (E : forall g : C -> R, mean_over (traces o) (fun x => g (dft (nbins o) (fun j => RtoC (x c j)) (Z.of_nat k))) =
    sample_mean (length (traces o)) (fun t => g (dft (nbins o) (fun j => RtoC (nth t (traces o) (fun _ _ => 0) c j)) (Z.of_nat k)))).
  { intros g. exact (mean_over_rsum _ zero_trace _). }
  rewrite (E (fun z => fst z ^ 2)), (E (fun z => snd z ^ 2)), (E cn2).
  split; [unfold Rdiv; ring|]. split; [unfold Rdiv; ring|]. unfold sample_mean.
  rewrite (rsum_ext _ (fun t => cn2 _)
    (fun t => fst (dft (nbins o) (fun j => RtoC (nth t (traces o) (fun _ _ => 0) c j)) (Z.of_nat k)) ^ 2 +
              snd (dft (nbins o) (fun j => RtoC (nth t (traces o) (fun _ _ => 0) c j)) (Z.of_nat k)) ^ 2))
    by (intros; unfold cn2; ring).
  rewrite rsum_plus. unfold Rdiv. ring.
Qed.

(** ** Constructor *)
Lemma ok_inj {A} (a b : A) : Ok a = Ok b -> b = a.
Proof. congruence. Qed.

Lemma init_ok n inp fs nnames gain time o : noise_init n inp fs nnames gain time = Ok o ->
  nbins o = n /\ nchan o = nnames /\ nfs o = fs /\ fs <> 0 /\ (0 < n)%nat /\
  (forall j, ntime o j = match time with Some t => t j | None => INR j / fs end) /\
  match inp with
  | In1 => False
  | In2 xs => nnames = 1%nat /\ length (traces o) = length xs /\
      forall t c j, (t < length xs)%nat -> nth t (traces o) (fun _ _ => 0) c j = nth t xs (fun _ => 0) j / gain
  | In3 c xs => nnames = c /\ length (traces o) = length xs /\
      forall t c j, (t < length xs)%nat -> nth t (traces o) (fun _ _ => 0) c j = nth t xs (fun _ _ => 0) c j / gain
  end /\
  o = refreshed o.
Proof.
  unfold noise_init. destruct inp as [|xs|c xs]; [discriminate| |]; cbn [fst snd].
  - destruct (Nat.eqb_spec nnames 1) as [E|]; [|discriminate].
    destruct (Reqb_spec fs 0) as [|Hf]; [discriminate|]. destruct (Nat.eqb_spec n 0) as [|Hn]; [discriminate|]. cbn [orb]. intros H.
    assert (E' : o = fresh_noise n 1 fs (match time with Some t => t | None => fun j => INR j / fs end)
      (map (fun x c j => x c j / gain) (map (fun x (_ : nat) => x) xs))) by congruence. rewrite E'. clear H E'.
    cbn [nbins nchan nfs ntime traces fresh_noise]. repeat split; try congruence; try lia.
    + intros j. destruct time; reflexivity.
    + now rewrite !map_length.
    + intros t c j Ht. rewrite map_map.
      rewrite (nth_indep _ (fun _ _ => 0) ((fun (x : nat -> R) (_ j : nat) => x j / gain) (fun _ => 0))) by (rewrite map_length; exact Ht).
      now rewrite (map_nth (fun (x : nat -> R) (_ j : nat) => x j / gain)).
  - destruct (Nat.eqb_spec nnames c) as [E|]; [|discriminate].
    destruct (Reqb_spec fs 0) as [|Hf]; [discriminate|]. destruct (Nat.eqb_spec n 0) as [|Hn]; [discriminate|]. cbn [orb]. intros H.
    assert (E' : o = fresh_noise n c fs (match time with Some t => t | None => fun j => INR j / fs end)
      (map (fun x c j => x c j / gain) xs)) by congruence. rewrite E'. clear H E'.
    cbn [nbins nchan nfs ntime traces fresh_noise]. repeat split; try congruence; try lia.
    + intros j. destruct time; reflexivity.
    + now rewrite !map_length.
    + intros t c' j Ht.
      rewrite (nth_indep _ (fun _ _ => 0) ((fun (x : trace) (c j : nat) => x c j / gain) (fun _ _ => 0))) by (rewrite map_length; exact Ht).
      now rewrite (map_nth (fun (x : trace) (c j : nat) => x c j / gain)).
Qed.

Lemma init_fails n inp fs nnames gain time :
  (match inp with In1 => True | In2 _ => nnames <> 1%nat | In3 c _ => nnames <> c end) <->
  noise_init n inp fs nnames gain time = Err ValueError.
Proof.
  unfold noise_init. destruct inp as [|xs|c xs]; cbn [fst snd].
  - split; auto.
  - destruct (Nat.eqb_spec nnames 1); [destruct (Reqb fs 0 || (n =? 0)%nat)|]; split; intros H; try reflexivity; try contradiction; try discriminate; assumption.
  - destruct (Nat.eqb_spec nnames c); [destruct (Reqb fs 0 || (n =? 0)%nat)|]; split; intros H; try reflexivity; try contradiction; try discriminate; assumption.
Qed.

Lemma init_zero n inp fs nnames gain time :
  (match inp with In1 => False | In2 _ => nnames = 1%nat | In3 c _ => nnames = c end) /\ (fs = 0 \/ n = 0%nat) <->
  noise_init n inp fs nnames gain time = Err ZeroDivisionError.
Proof.
  unfold noise_init. destruct inp as [|xs|c xs]; cbn [fst snd]; [split; [intros []; contradiction|discriminate]| |];
    (destruct (_ =? _)%nat eqn:E; [apply Nat.eqb_eq in E|apply Nat.eqb_neq in E; split; [intros []; contradiction|discriminate]]);
    (destruct (Reqb_spec fs 0); [split; auto|]); (destruct (Nat.eqb_spec n 0); [split; auto|]); cbn [orb];
    (split; [intros [_ []]; contradiction|discriminate]).
Qed.

(** The gain divides the spectra quadratically. *)
Lemma init_gain n inp fs nnames gain time o1 og : gain <> 0 ->
  noise_init n inp fs nnames 1 time = Ok o1 -> noise_init n inp fs nnames gain time = Ok og ->
  forall p1 pg, n_psd (calculate_psd o1) = Some p1 -> n_psd (calculate_psd og) = Some pg ->
  pg = map (map (fun v => v / gain ^ 2)) p1.
Proof.
  intros Hg H1 H2 p1 pg E1 E2.
  assert (X : exists c xs tm, o1 = fresh_noise n c fs tm (map (fun (x : trace) c j => x c j / 1) xs) /\
                           og = fresh_noise n c fs tm (map (fun (x : trace) c j => x c j / gain) xs)).
  { revert H1 H2. unfold noise_init. destruct inp as [|xs|c xs]; [discriminate| |]; cbn [fst snd];
      destruct (nnames =? _)%nat; try discriminate; destruct (Reqb fs 0 || (n =? 0)%nat); try discriminate; intros H1 H2; apply ok_inj in H1; apply ok_inj in H2; rewrite H1, H2;
      do 3 eexists; split; reflexivity. }
  destruct X as (c & xs & tm & -> & ->). unfold calculate_psd, fresh_noise in E1, E2. cbn [n_psd] in E1, E2.
  assert (E1' : p1 = spectra cn2 (fresh_noise n c fs tm (map (fun (x : trace) c j => x c j / 1) xs))) by (unfold fresh_noise; congruence).
  assert (E2' : pg = spectra cn2 (fresh_noise n c fs tm (map (fun (x : trace) c j => x c j / gain) xs))) by (unfold fresh_noise; congruence).
  rewrite E1', E2'. clear. unfold spectra. cbn [nbins nchan nfs traces fresh_noise].
  rewrite mk_map. apply mk_ext. intros ch _. rewrite mk_map. apply mk_ext. intros k _.
  assert (M : forall g : R, mean_over (map (fun (x : trace) c j => x c j / g) xs)
      (fun x => cn2 (dft n (fun j => RtoC (x ch j)) (Z.of_nat k))) =
    mean_over xs (fun x => cn2 (dft n (fun j => RtoC (x ch j)) (Z.of_nat k))) * (/ g ^ 2)).
  { intros g. unfold mean_over. rewrite map_map, <- lmean_scal, map_map. f_equal. apply map_ext. intros x.
    rewrite (dft_ext n (fun j => RtoC (x ch j / g)) (fun j => RtoC (/ g) * RtoC (x ch j))%C).
    - rewrite dft_scal, cn2_scal. rewrite <- pow_inv. ring.
    - intros j _. rewrite <- RtoC_mult. f_equal. unfold Rdiv. ring. }
  rewrite !M. unfold Rdiv. rewrite pow1, Rinv_1. ring.
Qed.

Lemma csd_matrix o c : nchan o <> 1%nat -> 0 < nfs o -> n_csd (fst (calculate_csd o)) = Some c ->
  forall i j k, c j i k = Cconj (c i j k) /\ snd (c i i k) = 0 /\ 0 <= fst (c i i k) /\
    Cmod (c i j k) ^ 2 <= fst (c i i k) * fst (c j j k).
Proof.
  intros Hc Hf. unfold calculate_csd. destruct (Nat.eqb_spec (nchan o) 1); [contradiction|]. cbn [fst n_csd].
  intros H i j k. assert (E : c = csd_mean o) by congruence. rewrite E.
  split; [apply csd_hermitian|]. split; [apply csd_diag_real|].
  destruct (csd_coherence o i j k Hf). split; assumption.
Qed.
