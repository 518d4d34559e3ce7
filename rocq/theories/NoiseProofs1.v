(** * Proofs about foldpsd, calc_psd, gen_noise *)
From Coq Require Import Reals Lra Lia.
From Coquelicot Require Import Complex.
From Verif Require Import Base Dft ListLemmas UtilsModel NoiseModel NoiseSpec.
From Coq Require Import Reals Lra.
Local Open Scope R_scope.

Lemma power_sym n x k : (0 < k < n)%nat -> power n x (n - k) = power n x k.
Proof.
  intros H. unfold power.
  rewrite <- (dft_mod n _ (Z.of_nat (n - k))) by lia.
  rewrite <- (cn2_Cconj (dft n _ (Z.of_nat k))). rewrite <- dft_real_conj.
  rewrite <- (dft_mod n _ (- Z.of_nat k)) by lia. do 2 f_equal.
  replace (Z.of_nat (n - k)) with (- Z.of_nat k + 1 * Z.of_nat n)%Z by lia.
  apply Z.mod_add. lia.
Qed.

Lemma power_Cmod n x k : power n x k = Cmod (dft n (fun j => RtoC (x j)) (Z.of_nat k)) ^ 2.
Proof. apply cn2_Cmod. Qed.

Lemma double_slice_length lo hi a : length (double_slice lo hi a) = length a.
Proof. apply mk_length. Qed.

Lemma double_slice_mk lo hi m f :
  double_slice lo hi (mk m f) = mk m (fun i => if (lo <=? i)%nat && (i <? hi)%nat then 2 * f i else f i).
Proof.
  unfold double_slice. rewrite mk_length. apply mk_ext. intros k Hk. now rewrite mk_nth.
Qed.

Lemma firstn_mk {A} m n (f : nat -> A) : (m <= n)%nat -> firstn m (mk n f) = mk m f.
Proof.
  intros H. unfold mk. rewrite firstn_map. f_equal.
  replace n with (m + (n - m))%nat by lia. rewrite seq_app, firstn_app, seq_length.
  replace (m - m)%nat with 0%nat by lia. rewrite firstn_O, app_nil_r.
  rewrite <- (seq_length m 0) at 1. apply firstn_all.
Qed.

Lemma half_cases n : exists h, (n = 2 * h /\ n / 2 = h /\ n mod 2 = 0 /\ (n + 1) mod 2 = 1)%nat \/
  (n = 2 * h + 1 /\ n / 2 = h /\ n mod 2 = 1 /\ (n + 1) mod 2 = 0)%nat.
Proof.
  exists (n / 2)%nat. assert (H := Nat.div_mod n 2 ltac:(lia)). assert (n mod 2 < 2)%nat by (apply Nat.mod_upper_bound; lia).
  destruct (n mod 2) as [|[|]] eqn:E; [left|right|lia]; repeat split; try lia.
  - rewrite Nat.add_mod, E by lia. reflexivity.
  - rewrite Nat.add_mod, E by lia. reflexivity.
Qed.

(** Folding a symmetric spectrum is the specification [folded]. *)
Lemma double_is_folded n p k :
  symmetric_psd n p -> (k < n / 2 + 1)%nat -> (0 < n)%nat ->
  (if (1 <=? k)%nat && (k <? n / 2 + n mod 2)%nat then 2 * p k else p k) = folded n p k.
Proof.
  intros Hs Hk Hn. unfold folded.
  destruct (half_cases n) as [h [(E & E1 & E2 & _)|(E & E1 & E2 & _)]]; rewrite E1, E2 in *;
    destruct (Nat.leb_spec 1 k); destruct (Nat.ltb_spec k (h + n mod 2)); destruct (Nat.eqb_spec k 0);
    destruct (Nat.eqb_spec (2 * k) n); cbn [andb orb]; try lia; try reflexivity;
    try (rewrite Hs by lia; ring); rewrite E2 in *; 
    try (destruct (Nat.ltb_spec k (h + 0)); try lia); try (destruct (Nat.ltb_spec k (h + 1)); try lia);
    try lia; try reflexivity; try (rewrite Hs by lia; ring).
Qed.

Lemma hi_eq n : (n / 2 + 1 - (n + 1) mod 2 = n / 2 + n mod 2)%nat.
Proof. destruct (half_cases n) as [h [(E & E1 & E2 & E3)|(E & E1 & E2 & E3)]]; rewrite E1, E2, E3; lia. Qed.

Lemma lsum_mk n f : lsum (mk n f) = rsum n f.
Proof.
  induction n as [|n IH]; [reflexivity|]. rewrite mk_S, lsum_app, IH. simpl. ring.
Qed.

Lemma rsum_rev_sub m (f : nat -> R) (a : nat) :
  rsum m (fun k => f (a + k)%nat) = rsum m (fun k => f (a + (m - 1 - k))%nat).
Proof. apply (rsum_rev m (fun k => f (a + k)%nat)). Qed.

(** The total of the folded spectrum is the total of the two-sided one. *)
Lemma folded_total n p : (0 < n)%nat -> rsum (n / 2 + 1) (folded n p) = rsum n p.
Proof.
  intros Hn. destruct (half_cases n) as [h [(E & E1 & E2 & _)|(E & E1 & E2 & _)]]; rewrite E1.
  - (* n = 2h, h >= 1 *)
    destruct h as [|h]; [lia|].
    replace n with (1 + (h + (1 + h)))%nat at 2 by lia.
    replace (S h + 1)%nat with (1 + (h + 1))%nat by lia.
    rewrite !rsum_split.
    rewrite (rsum_ext 1 (folded n p) p).
    2:{ intros k Hk. unfold folded. replace k with 0%nat by lia. reflexivity. }
    rewrite (rsum_ext h _ (fun k => p (1 + k)%nat + p (1 + (h + (1 + (h - 1 - k))))%nat)).
    2:{ intros k Hk. unfold folded. destruct (Nat.eqb_spec (1 + k) 0); [lia|].
        destruct (Nat.eqb_spec (2 * (1 + k)) n); [lia|]. cbn [orb]. do 2 f_equal. lia. }
    rewrite rsum_plus.
    rewrite (rsum_rev_sub h (fun i => p (1 + (h + i))%nat) 1).
    assert (Hl : rsum 1 (fun k => folded n p (1 + (h + k))) = rsum 1 (fun k => p (1 + (h + k))%nat)).
    { apply rsum_ext. intros k Hk. unfold folded. replace k with 0%nat by lia.
      destruct (Nat.eqb_spec (2 * (1 + (h + 0))) n); [|lia]. now rewrite orb_true_r. }
    rewrite Hl. ring.
  - replace n with (1 + (h + h))%nat at 2 by lia.
    replace (h + 1)%nat with (1 + h)%nat by lia.
    rewrite !rsum_split.
    rewrite (rsum_ext 1 (folded n p) p).
    2:{ intros k Hk. unfold folded. replace k with 0%nat by lia. reflexivity. }
    rewrite (rsum_ext h _ (fun k => p (1 + k)%nat + p (1 + (h + (h - 1 - k)))%nat)).
    2:{ intros k Hk. unfold folded. destruct (Nat.eqb_spec (1 + k) 0); [lia|].
        destruct (Nat.eqb_spec (2 * (1 + k)) n); [lia|]. cbn [orb]. do 2 f_equal. lia. }
    rewrite rsum_plus.
    rewrite (rsum_rev_sub h (fun i => p (1 + i)%nat) h). ring.
Qed.

(** The psd function of one- and two-dimensional input. *)
Definition raw_psd (n : nat) (fs : R) (x : ndarr) (k : nat) : R :=
  match x with
  | Arr1 x => power n x k / (fs * INR n)
  | Arr2 xs => mean_over xs (fun x => power n x k) / (fs * INR n)
  | Arr3 _ _ => 0
  end.
Definition flat_arr (x : ndarr) : Prop := match x with Arr3 _ _ => False | _ => True end.

Lemma calc_psd_unfolded n x fs : (0 < n)%nat -> flat_arr x ->
  calc_psd n x fs false = Ok (mk n (fftfreq n fs), P1 (mk n (raw_psd n fs x))).
Proof.
  intros Hn Hx. unfold calc_psd. destruct (Nat.eqb_spec n 0); [lia|].
  destruct x; [reflexivity|reflexivity|contradiction].
Qed.
Lemma calc_psd_folded n x fs : (0 < n)%nat -> flat_arr x ->
  calc_psd n x fs true = Ok (rfftfreq n fs, P1 (double_slice 1 (n / 2 + n mod 2) (mk (n / 2 + 1) (raw_psd n fs x)))).
Proof.
  intros Hn Hx. unfold calc_psd. destruct (Nat.eqb_spec n 0); [lia|]. rewrite hi_eq.
  destruct x; [reflexivity|reflexivity|contradiction].
Qed.

Lemma mean_over_ext {A} (xs : list A) f g : (forall x, In x xs -> f x = g x) -> mean_over xs f = mean_over xs g.
Proof. intros H. unfold mean_over. f_equal. apply map_ext_in. exact H. Qed.

Lemma raw_sym n fs x : flat_arr x -> symmetric_psd n (raw_psd n fs x).
Proof.
  intros Hx k Hk. destruct x as [x|xs|]; [| |contradiction]; cbn [raw_psd].
  - now rewrite power_sym.
  - f_equal. apply mean_over_ext. intros x _. now apply power_sym.
Qed.

Lemma foldpsd_mk n p fs : (0 < n)%nat ->
  foldpsd (mk n p) fs = Ok (rfftfreq n fs, double_slice 1 (n / 2 + n mod 2) (mk (n / 2 + 1) p)).
Proof.
  intros Hn. unfold foldpsd. rewrite mk_length. destruct (Nat.eqb_spec n 0); [lia|].
  rewrite firstn_mk; [reflexivity|]. assert (n / 2 < n)%nat by (apply Nat.div_lt; lia). lia.
Qed.

Lemma fold_agrees n x fs f p : flat_arr x ->
  calc_psd n x fs false = Ok (f, P1 p) ->
  exists f' p', foldpsd p fs = Ok (f', p') /\ calc_psd n x fs true = Ok (f', P1 p').
Proof.
  intros Hx H. destruct (Nat.eq_dec n 0) as [->|Hn].
  - cbn in H. discriminate.
  - rewrite calc_psd_unfolded in H by (try lia; exact Hx). injection H as <- <-.
    rewrite foldpsd_mk, calc_psd_folded by (try lia; exact Hx). do 2 eexists. split; reflexivity.
Qed.

Lemma foldpsd_spec n p fs : (0 < n)%nat -> symmetric_psd n p ->
  foldpsd (mk n p) fs = Ok (mk (n / 2 + 1) (fun k => INR k * fs / INR n), mk (n / 2 + 1) (folded n p)).
Proof.
  intros Hn Hs. rewrite foldpsd_mk by exact Hn. unfold rfftfreq. rewrite double_slice_mk. do 2 f_equal.
  apply mk_ext. intros k Hk. now apply double_is_folded.
Qed.

Lemma foldpsd_total n p fs f q : (0 < n)%nat -> symmetric_psd n p ->
  foldpsd (mk n p) fs = Ok (f, q) -> lsum q = rsum n p.
Proof.
  intros Hn Hs. rewrite foldpsd_spec by assumption. intros [= <- <-].
  rewrite lsum_mk. now apply folded_total.
Qed.

Lemma lmean_scal (l : list R) c : lmean (map (fun v => v * c) l) = lmean l * c.
Proof.
  unfold lmean. rewrite map_length. unfold Rdiv.
  replace (lsum (map (fun v => v * c) l)) with (lsum l * c); [ring|].
  induction l as [|v l IH]; simpl; [ring|]. rewrite <- IH. ring.
Qed.

Lemma rsum_mean_over {A} n (xs : list A) (f : A -> nat -> R) :
  rsum n (fun k => mean_over xs (fun x => f x k)) = mean_over xs (fun x => rsum n (f x)).
Proof.
  unfold mean_over, lmean.
  rewrite (rsum_ext n _ (fun k => lsum (map (fun x => f x k) xs) * / INR (length xs))).
  2:{ intros k _. now rewrite map_length. }
  rewrite rsum_scal_r, map_length. unfold Rdiv. f_equal.
  induction xs as [|x xs IH]; simpl; [apply rsum_zero|]. rewrite rsum_plus, IH. reflexivity.
Qed.

Lemma power_total n x : (0 < n)%nat ->
  rsum n (power n x) = INR n * rsum n (fun j => x j ^ 2).
Proof.
  intros Hn. unfold power. rewrite parseval by exact Hn. f_equal. apply rsum_ext. intros j Hj.
  unfold cn2, RtoC. simpl. ring.
Qed.

(** Parseval for the two-sided psd. *)
Lemma psd_integral n x fs f p : (0 < n)%nat -> fs <> 0 ->
  calc_psd n x fs false = Ok (f, P1 p) ->
  lsum p * (fs / INR n) =
  match x with Arr1 x => mean_square n x | Arr2 xs => lmean (map (mean_square n) xs) | Arr3 _ _ => 0 end.
Proof.
  intros Hn Hfs. assert (HN := INR_neq0 n Hn). destruct x as [x|xs|c xs].
  - rewrite calc_psd_unfolded by (try lia; exact I). intros [= <- <-].
    rewrite lsum_mk. rewrite (rsum_ext n _ (fun k => power n x k * / (fs * INR n))) by reflexivity.
    rewrite rsum_scal_r. change (fun k : nat => power n x k) with (power n x). rewrite power_total by exact Hn.
    unfold mean_square. field. split; assumption.
  - rewrite calc_psd_unfolded by (try lia; exact I). intros [= <- <-].
    rewrite lsum_mk.
    rewrite (rsum_ext n _ (fun k => mean_over xs (fun x => power n x k) * / (fs * INR n))) by reflexivity.
    rewrite rsum_scal_r, rsum_mean_over. unfold mean_over.
    rewrite (map_ext (fun x => rsum n (power n x)) (fun x => mean_square n x * (INR n * INR n))).
    2:{ intros x. rewrite power_total by exact Hn. unfold mean_square. field. exact HN. }
    rewrite <- (map_map (mean_square n) (fun v => v * (INR n * INR n))), lmean_scal. field. split; assumption.
  - unfold calc_psd. destruct (Nat.eqb_spec n 0); [lia|]. discriminate.
Qed.

(** The values of the two-sided psd. *)
Lemma psd_values n x fs : (0 < n)%nat ->
  calc_psd n (Arr1 x) fs false = Ok (mk n (fftfreq n fs), P1 (mk n (psd_bin n fs x))).
Proof.
  intros Hn. rewrite calc_psd_unfolded by (try lia; exact I). do 3 f_equal. apply mk_ext. intros k Hk.
  cbn [raw_psd]. now rewrite power_Cmod.
Qed.

(** ** Three-dimensional input *)
Lemma calc3_unfolded n c xs fs : (0 < n)%nat ->
  calc_psd n (Arr3 c xs) fs false =
  Ok (mk n (fftfreq n fs), P2 (mk c (fun ch => mk n (raw_psd n fs (Arr2 (map (fun x => x ch) xs)))))).
Proof.
  intros Hn. unfold calc_psd. destruct (Nat.eqb_spec n 0); [lia|]. do 3 f_equal.
  apply mk_ext. intros ch _. apply mk_ext. intros k _. cbn [raw_psd]. unfold mean_over. now rewrite map_map.
Qed.

(** ** gen_noise *)
Lemma nonnegb_true x : nonnegb x = true <-> 0 <= x.
Proof. unfold nonnegb. destruct (Rle_dec 0 x); split; intros; try easy. Qed.

Lemma dft_hermitian_real n F : (0 < n)%nat ->
  snd (F 0%nat) = 0 -> (forall k, (0 < k < n)%nat -> F (n - k)%nat = Cconj (F k)) ->
  forall j, snd (idft n F (Z.of_nat j)) = 0.
Proof.
  intros Hn H0 H j. unfold idft.
  assert (E : Cconj (csum n (fun k => F k * tw n (Z.of_nat k * Z.of_nat j))%C) = csum n (fun k => F k * tw n (Z.of_nat k * Z.of_nat j))%C).
  { rewrite csum_conj.
    destruct n as [|m]; [lia|].
    rewrite (csum_S_first m), (csum_S_first m). f_equal.
    - change (Z.of_nat 0 * Z.of_nat j)%Z with 0%Z. rewrite tw_0. apply Ceq; simpl; rewrite ?H0; ring.
    - transitivity (csum m (fun k => F (S (m - 1 - k))%nat * tw (S m) (Z.of_nat (S (m - 1 - k)) * Z.of_nat j))%C).
      2:{ apply Ceq; rewrite ?csum_fst, ?csum_snd;
          symmetry; [apply (rsum_rev m (fun k => fst (F (S k) * tw (S m) (Z.of_nat (S k) * Z.of_nat j))%C))
                    |apply (rsum_rev m (fun k => snd (F (S k) * tw (S m) (Z.of_nat (S k) * Z.of_nat j))%C))]. }
      apply csum_ext. intros k Hk. rewrite Cconj_mult, <- tw_opp.
      replace (S (m - 1 - k)) with (S m - S k)%nat by lia. rewrite H by lia. f_equal.
      apply tw_eqm; [lia|].
      replace (Z.of_nat (S m - S k) * Z.of_nat j)%Z with (- (Z.of_nat (S k) * Z.of_nat j) + Z.of_nat j * Z.of_nat (S m))%Z by lia.
      now rewrite Z.mod_add by lia. }
  assert (E2 := f_equal snd E). cbn [Cconj snd] in E2.
  set (S := csum n _) in *. simpl. simpl in E2. assert (snd S = 0) by lra. rewrite H1. ring.
Qed.

Lemma colour_spec n psd fs vals out :
  (0 < n)%nat -> 0 < fs -> symmetric_psd n psd -> (forall k, (k < n)%nat -> 0 <= psd k) ->
  colour n (fun k => Some (psd k)) fs vals = Some out ->
  forall k, (k < n)%nat ->
    dft n (fun j => RtoC (out j)) (Z.of_nat k)
    = (dft n (fun j => RtoC (vals j)) (Z.of_nat k) * RtoC (sqrt (psd k * fs)))%C.
Proof.
  intros Hn Hfs Hs Hp. unfold colour. destruct (forallb _ _); [|discriminate]. intros [= <-] k Hk.
  set (G := fun k0 : nat => (dft n (fun i => RtoC (vals i)) (Z.of_nat k0) * RtoC (sqrt (psd k0 * fs)))%C).
  assert (Hre : forall j, RtoC (fst (idft n G (Z.of_nat j))) = idft n G (Z.of_nat j)).
  { intros j. apply Ceq; [reflexivity|]. symmetry. apply dft_hermitian_real; [exact Hn| |].
    - unfold G. set (E := dft_real_conj n vals 0). apply (f_equal snd) in E. cbn [Cconj snd] in E.
      change (- 0)%Z with 0%Z in E. simpl Z.of_nat. generalize dependent (dft n (fun i => RtoC (vals i)) 0).
      intros z E. simpl. simpl in E. assert (snd z = 0) by lra. rewrite H. ring.
    - intros k' Hk'. unfold G. rewrite Cconj_mult, Cconj_R. rewrite <- dft_real_conj. f_equal.
      + rewrite <- (dft_mod n _ (Z.of_nat (n - k'))), <- (dft_mod n _ (- Z.of_nat k')) by lia. f_equal.
        replace (Z.of_nat (n - k')) with (- Z.of_nat k' + 1 * Z.of_nat n)%Z by lia. apply Z.mod_add. lia.
      + now rewrite Hs. }
  rewrite (dft_ext n _ (fun j => idft n G (Z.of_nat j))) by (intros j _; apply Hre).
  now rewrite dft_idft.
Qed.

Lemma gen_noise_psd n psd fs vals out :
  (0 < n)%nat -> 0 < fs -> symmetric_psd n psd -> (forall k, (k < n)%nat -> 0 <= psd k) ->
  colour n (fun k => Some (psd k)) fs vals = Some out ->
  forall k, (k < n)%nat -> psd_bin n fs out k = psd_bin n 1 vals k * psd k.
Proof.
  intros Hn Hfs Hs Hp Hc k Hk. assert (HN := INR_neq0 n Hn). unfold psd_bin.
  rewrite (colour_spec n psd fs vals out Hn Hfs Hs Hp Hc k Hk).
  rewrite Cmod_mult, Cmod_R, Rpow_mult_distr.
  replace (Rabs (sqrt (psd k * fs)) ^ 2) with (psd k * fs).
  - field. split; lra.
  - rewrite pow2_abs. rewrite <- Rsqr_pow2. symmetry. apply Rsqr_sqrt.
    apply Rmult_le_pos; [now apply Hp|lra].
Qed.

Lemma colour_some n psd fs vals : 0 < fs -> (forall k, (k < n)%nat -> 0 <= psd k) ->
  exists out, colour n (fun k => Some (psd k)) fs vals = Some out.
Proof.
  intros Hfs Hp. unfold colour. assert (forallb (fun k => nonnegb (psd k * fs)) (seq 0 n) = true) as ->.
  - apply forallb_forall. intros k Hk. apply in_seq in Hk. apply nonnegb_true. apply Rmult_le_pos; [apply Hp; lia|lra].
  - eexists. reflexivity.
Qed.

Lemma gen_noise_finite psd p0 r fs draws :
  psd = Some p0 :: r -> exists tr, gen_noise psd fs draws = Ok (psd, tr) /\ length tr = length draws.
Proof. intros ->. cbn. eexists. split; [reflexivity|]. now rewrite map_length. Qed.

Lemma gen_noise_mutates r fs draws :
  exists tr, gen_noise (None :: r) fs draws = Ok (Some 0 :: r, tr).
Proof. cbn. eexists. reflexivity. Qed.

Lemma forallb_ext_in {A} (f g : A -> bool) l : (forall x, In x l -> f x = g x) -> forallb f l = forallb g l.
Proof. induction l as [|x l IH]; intros H; cbn; [reflexivity|]. rewrite H by now left. rewrite IH; [reflexivity|]. intros; apply H; now right. Qed.

Lemma mk_map {A B} n (f : nat -> A) (g : A -> B) : map g (mk n f) = mk n (fun k => g (f k)).
Proof. unfold mk. now rewrite map_map. Qed.

Lemma gen_noise_full n psd fs draws :
  (0 < n)%nat -> 0 < fs -> symmetric_psd n psd -> (forall k, (k < n)%nat -> 0 <= psd k) ->
  exists trs, gen_noise (mk n (fun k => Some (psd k))) fs draws = Ok (mk n (fun k => Some (psd k)), map Some trs) /\
    length trs = length draws /\
    forall t k, (t < length draws)%nat -> (k < n)%nat ->
      psd_bin n fs (nth t trs (fun _ => 0)) k = psd_bin n 1 (nth t draws (fun _ => 0)) k * psd k.
Proof.
  intros Hn Hfs Hs Hp.
  destruct n as [|m]; [lia|]. set (n := S m) in *.
  assert (E : clear_dc (mk n (fun k => Some (psd k))) = Ok (mk n (fun k => Some (psd k)))) by reflexivity.
  unfold gen_noise. rewrite E. cbn [bind]. rewrite mk_length.
  assert (Ec : forall v, colour n (fun k => nth k (mk n (fun k => Some (psd k))) (Some 0)) fs v = colour n (fun k => Some (psd k)) fs v).
  { intros v. unfold colour.
    replace (forallb _ _) with (forallb (fun k => nonnegb (psd k * fs)) (seq 0 n)).
    - destruct (forallb _ _) eqn:Ef; [|reflexivity]. f_equal.
      apply FunctionalExtensionality.functional_extensionality. intros j. f_equal. apply idft_ext.
      intros k Hk. now rewrite mk_nth.
    - apply forallb_ext_in. intros k Hk. apply in_seq in Hk. rewrite mk_nth by lia. reflexivity. }
  set (P := mk n (fun k => Some (psd k))) in *.
  assert (H : exists trs, map (colour n (fun k => nth k P (Some 0)) fs) draws = map Some trs /\
    length trs = length draws /\
    forall t k, (t < length draws)%nat -> (k < n)%nat ->
      psd_bin n fs (nth t trs (fun _ => 0)) k = psd_bin n 1 (nth t draws (fun _ => 0)) k * psd k).
  { induction draws as [|v draws IH].
    - exists []. cbn. repeat split. intros; lia.
    - destruct IH as (trs & E1 & E2 & E3).
      destruct (colour_some n psd fs v Hfs Hp) as [out Hout].
      exists (out :: trs). split; [|split].
      + cbn [map]. rewrite E1, Ec, Hout. reflexivity.
      + cbn. now rewrite E2.
      + intros [|t] k Ht Hk; cbn [nth].
        * exact (gen_noise_psd n psd fs v out Hn Hfs Hs Hp Hout k Hk).
        * apply E3; [cbn in Ht; lia|exact Hk]. }
  destruct H as (trs & E1 & E2 & E3). exists trs. split; [|split; assumption]. now rewrite E1.
Qed.
