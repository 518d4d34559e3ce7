(** * Complex sums and the discrete Fourier transform

    numpy/scipy's [fft], [ifft] and [fftfreq] are modelled by the exact sums they
    approximate.  Used by the models of qetpy/core/_fitting.py, _noise.py,
    _of_nsmb.py and didv/_base_didv.py. *)
From Verif Require Import Base.
From Coquelicot Require Export Complex.
Local Open Scope R_scope.

(** ** Complex helpers *)

(** [np.abs(z)**2] *)
Definition cn2 (z : C) : R := fst z * fst z + snd z * snd z.

(** [np.exp(1j*x)] for real [x] *)
Definition cis (x : R) : C := (cos x, sin x).

(** [np.sum] of a complex sequence *)
Fixpoint csum (n : nat) (f : nat -> C) : C :=
  match n with
  | O => RtoC 0
  | S k => Cplus (csum k f) (f k)
  end.

Lemma Ceq (z w : C) : fst z = fst w -> snd z = snd w -> z = w.
Proof. intros. now apply injective_projections. Qed.

Ltac ceq := apply Ceq; simpl; try ring.

Lemma csum_fst n f : fst (csum n f) = rsum n (fun k => fst (f k)).
Proof. induction n as [|n IH]; simpl; [reflexivity|]. now rewrite IH. Qed.
Lemma csum_snd n f : snd (csum n f) = rsum n (fun k => snd (f k)).
Proof. induction n as [|n IH]; simpl; [reflexivity|]. now rewrite IH. Qed.

Lemma csum_ext n f g : (forall k, (k < n)%nat -> f k = g k) -> csum n f = csum n g.
Proof.
  intros H. apply Ceq; rewrite ?csum_fst, ?csum_snd; apply rsum_ext; intros k Hk;
    now rewrite H.
Qed.

Lemma csum_plus n f g : csum n (fun k => f k + g k)%C = (csum n f + csum n g)%C.
Proof. induction n as [|n IH]; simpl; [ring|]. rewrite IH. ring. Qed.
Lemma csum_minus n f g : csum n (fun k => f k - g k)%C = (csum n f - csum n g)%C.
Proof. induction n as [|n IH]; simpl; [ring|]. rewrite IH. ring. Qed.
Lemma csum_scal_l n (c : C) f : csum n (fun k => c * f k)%C = (c * csum n f)%C.
Proof. induction n as [|n IH]; simpl; [ring|]. rewrite IH. ring. Qed.
Lemma csum_scal_r n (c : C) f : csum n (fun k => f k * c)%C = (csum n f * c)%C.
Proof. induction n as [|n IH]; simpl; [ring|]. rewrite IH. ring. Qed.
Lemma csum_zero n : csum n (fun _ => RtoC 0) = RtoC 0.
Proof. induction n as [|n IH]; simpl; [reflexivity|]. rewrite IH. ring. Qed.
Lemma csum_const n (c : C) : csum n (fun _ => c) = (RtoC (INR n) * c)%C.
Proof.
  apply Ceq; rewrite ?csum_fst, ?csum_snd, rsum_const; simpl; ring.
Qed.

Lemma csum_split n m f :
  csum (n + m) f = (csum n f + csum m (fun k => f (n + k)%nat))%C.
Proof.
  apply Ceq; simpl; rewrite ?csum_fst, ?csum_snd; apply rsum_split.
Qed.
Lemma csum_S_first n f : csum (S n) f = (f 0%nat + csum n (fun k => f (S k)))%C.
Proof. change (S n) with (1 + n)%nat. rewrite csum_split. simpl. ring. Qed.

Lemma csum_swap n m (f : nat -> nat -> C) :
  csum n (fun i => csum m (fun j => f i j)) = csum m (fun j => csum n (fun i => f i j)).
Proof.
  induction n as [|n IH]; simpl.
  - now rewrite csum_zero.
  - rewrite IH, <- csum_plus. reflexivity.
Qed.

Lemma csum_single n f i :
  (i < n)%nat -> (forall k, (k < n)%nat -> k <> i -> f k = RtoC 0) -> csum n f = f i.
Proof.
  intros Hi H. apply Ceq; rewrite ?csum_fst, ?csum_snd.
  - apply (rsum_single n (fun k => fst (f k)) i Hi).
    intros k Hk Hne. now rewrite H.
  - apply (rsum_single n (fun k => snd (f k)) i Hi).
    intros k Hk Hne. now rewrite H.
Qed.

Lemma csum_conj n f : Cconj (csum n f) = csum n (fun k => Cconj (f k)).
Proof.
  apply Ceq; simpl; rewrite ?csum_fst, ?csum_snd; simpl.
  - reflexivity.
  - now rewrite <- rsum_opp.
Qed.

Lemma csum_RtoC n (f : nat -> R) : csum n (fun k => RtoC (f k)) = RtoC (rsum n f).
Proof.
  apply Ceq; rewrite ?csum_fst, ?csum_snd; simpl; [reflexivity|apply rsum_zero].
Qed.

(** *** Conjugation and squared modulus *)
Lemma Cconj_plus a b : Cconj (a + b)%C = (Cconj a + Cconj b)%C.
Proof. ceq. Qed.
Lemma Cconj_minus a b : Cconj (a - b)%C = (Cconj a - Cconj b)%C.
Proof. ceq. Qed.
Lemma Cconj_mult a b : Cconj (a * b)%C = (Cconj a * Cconj b)%C.
Proof. ceq. Qed.
Lemma Cconj_inv a : Cconj (/ a)%C = (/ Cconj a)%C.
Proof.
  unfold Cinv, Cconj; apply Ceq; cbn [fst snd].
  - f_equal. ring.
  - replace ((- snd a) ^ 2) with (snd a ^ 2) by ring. unfold Rdiv. ring.
Qed.
Lemma Cconj_conj a : Cconj (Cconj a) = a.
Proof. ceq. Qed.
Lemma Cconj_R (x : R) : Cconj (RtoC x) = RtoC x.
Proof. ceq. Qed.
Lemma cn2_conj a : RtoC (cn2 a) = (a * Cconj a)%C.
Proof. unfold cn2. ceq. Qed.
Lemma cn2_nonneg a : 0 <= cn2 a.
Proof. unfold cn2. nra. Qed.
Lemma cn2_mult a b : cn2 (a * b)%C = cn2 a * cn2 b.
Proof. unfold cn2; simpl; ring. Qed.
Lemma cn2_Cmod a : cn2 a = Cmod a ^ 2.
Proof.
  unfold cn2, Cmod. rewrite <- Rsqr_pow2, Rsqr_sqrt.
  - ring.
  - nra.
Qed.
Lemma cn2_zero a : cn2 a = 0 -> a = RtoC 0.
Proof. unfold cn2. intros H. apply Ceq; simpl; nra. Qed.
Lemma cn2_Cconj a : cn2 (Cconj a) = cn2 a.
Proof. unfold cn2; simpl; ring. Qed.
Lemma cn2_scal (x : R) a : cn2 (RtoC x * a)%C = x * x * cn2 a.
Proof. unfold cn2; simpl; ring. Qed.
Lemma cn2_opp a : cn2 (- a)%C = cn2 a.
Proof. unfold cn2; simpl; ring. Qed.
Lemma cn2_minus a b :
  cn2 (a - b)%C = cn2 a - 2 * fst (Cconj b * a)%C + cn2 b.
Proof. unfold cn2; simpl; ring. Qed.
Lemma cn2_pos a : a <> RtoC 0 -> 0 < cn2 a.
Proof.
  intros H. destruct (Rle_lt_or_eq_dec _ _ (cn2_nonneg a)) as [h|h]; [exact h|].
  exfalso. apply H, cn2_zero. auto.
Qed.
Lemma RtoC_neq (x : R) : x <> 0 -> RtoC x <> RtoC 0.
Proof. intros H E. apply H. now apply RtoC_inj. Qed.
Lemma cn2_inv a : a <> RtoC 0 -> cn2 (/ a)%C = / cn2 a.
Proof.
  intros H. assert (Hp := cn2_pos a H). unfold cn2 in *. unfold Cinv; simpl.
  field. nra.
Qed.

(** *** [cis] *)
Lemma cis_plus a b : cis (a + b) = (cis a * cis b)%C.
Proof. unfold cis. apply Ceq; simpl; [rewrite cos_plus|rewrite sin_plus]; ring. Qed.
Lemma cis_0 : cis 0 = RtoC 1.
Proof. unfold cis. now rewrite cos_0, sin_0. Qed.
Lemma cis_opp a : cis (- a) = Cconj (cis a).
Proof. unfold cis, Cconj. now rewrite cos_neg, sin_neg. Qed.
Lemma cis_n2 a : cn2 (cis a) = 1.
Proof. unfold cn2, cis; simpl. generalize (sin2_cos2 a). unfold Rsqr. lra. Qed.
Lemma cis_conj_mult a : (cis a * Cconj (cis a))%C = RtoC 1.
Proof. rewrite <- cn2_conj, cis_n2. reflexivity. Qed.
Lemma cis_2PI_Z (m : Z) : cis (2 * PI * IZR m) = RtoC 1.
Proof.
  assert (Hp : forall k : nat, cis (2 * PI * INR k) = RtoC 1).
  { intros k. induction k as [|k IH].
    - simpl. rewrite Rmult_0_r. apply cis_0.
    - rewrite S_INR, Rmult_plus_distr_l, cis_plus, IH, Rmult_1_r.
      unfold cis. rewrite cos_2PI, sin_2PI. ceq. }
  destruct (Z_le_gt_dec 0 m) as [H|H].
  - rewrite <- (Z2Nat.id m H), <- INR_IZR_INZ. apply Hp.
  - replace m with (- Z.of_nat (Z.to_nat (- m)))%Z by lia.
    rewrite opp_IZR, <- INR_IZR_INZ.
    replace (2 * PI * - INR (Z.to_nat (- m))) with (- (2 * PI * INR (Z.to_nat (- m)))) by ring.
    rewrite cis_opp, Hp. ceq.
Qed.

(** ** Twiddle factors *)

(** [np.exp(2j*pi*m/n)] *)
Definition tw (n : nat) (m : Z) : C := cis (2 * PI * IZR m / INR n).

Lemma tw_plus n a b : tw n (a + b) = (tw n a * tw n b)%C.
Proof.
  unfold tw. rewrite <- cis_plus. f_equal. rewrite plus_IZR. unfold Rdiv. ring.
Qed.
Lemma tw_0 n : tw n 0 = RtoC 1.
Proof.
  unfold tw. rewrite <- cis_0. f_equal. unfold Rdiv. ring.
Qed.
Lemma tw_opp n a : tw n (- a) = Cconj (tw n a).
Proof.
  unfold tw. rewrite <- cis_opp. f_equal. rewrite opp_IZR. unfold Rdiv. ring.
Qed.
Lemma tw_n2 n a : cn2 (tw n a) = 1.
Proof. apply cis_n2. Qed.
Lemma tw_mul_n n m : (0 < n)%nat -> tw n (Z.of_nat n * m) = RtoC 1.
Proof.
  intros Hn. unfold tw. rewrite <- (cis_2PI_Z m). f_equal.
  rewrite mult_IZR, <- INR_IZR_INZ. field. apply not_0_INR. lia.
Qed.
Lemma tw_mod n m : (0 < n)%nat -> tw n (m mod Z.of_nat n) = tw n m.
Proof.
  intros Hn. rewrite (Z.div_mod m (Z.of_nat n)) at 2 by lia.
  rewrite tw_plus, tw_mul_n by exact Hn. ring.
Qed.
Lemma tw_eqm n a b : (0 < n)%nat -> (a mod Z.of_nat n = b mod Z.of_nat n)%Z -> tw n a = tw n b.
Proof. intros Hn H. rewrite <- (tw_mod n a), <- (tw_mod n b) by exact Hn. now rewrite H. Qed.
Lemma tw_neq_0 n a : tw n a <> RtoC 0.
Proof.
  intros E. assert (H := tw_n2 n a). rewrite E in H. unfold cn2 in H. simpl in H. lra.
Qed.

Lemma cis_neq_1 x : 0 < x < 2 * PI -> cis x <> RtoC 1.
Proof.
  intros [H1 H2] E. apply (f_equal fst) in E. simpl in E.
  replace x with (2 * (x / 2)) in E by field.
  rewrite cos_2a_sin in E.
  assert (0 < sin (x / 2)) by (apply sin_gt_0; lra). nra.
Qed.

Lemma tw_neq_1 n m : (0 < n)%nat -> (m mod Z.of_nat n <> 0)%Z -> tw n m <> RtoC 1.
Proof.
  intros Hn Hm. rewrite <- tw_mod by exact Hn.
  assert (Hb := Z.mod_pos_bound m (Z.of_nat n) ltac:(lia)).
  set (r := (m mod Z.of_nat n)%Z) in *.
  unfold tw. apply cis_neq_1.
  assert (0 < INR n) by (apply lt_0_INR; lia).
  assert (0 < IZR r) by (apply IZR_lt; lia).
  assert (IZR r < INR n) by (rewrite INR_IZR_INZ; apply IZR_lt; lia).
  assert (HPI := PI_RGT_0).
  split.
  - apply Rdiv_lt_0_compat; [|lra]. nra.
  - apply Rmult_lt_reg_r with (INR n); [lra|].
    unfold Rdiv. rewrite Rmult_assoc, Rinv_l by lra. nra.
Qed.


Lemma tw_geom n m N :
  ((tw n m - 1) * csum N (fun k => tw n (Z.of_nat k * m)))%C = (tw n (Z.of_nat N * m) - 1)%C.
Proof.
  induction N as [|N IH].
  - simpl. rewrite tw_0. ring.
  - cbn [csum]. rewrite Cmult_plus_distr_l, IH.
    replace (Z.of_nat (S N) * m)%Z with (m + Z.of_nat N * m)%Z by lia.
    rewrite tw_plus. ring.
Qed.

(** Orthogonality of the Fourier basis *)
Lemma tw_orth n m :
  (0 < n)%nat ->
  csum n (fun k => tw n (Z.of_nat k * m)) =
  if (m mod Z.of_nat n =? 0)%Z then RtoC (INR n) else RtoC 0.
Proof.
  intros Hn. destruct (Z.eqb_spec (m mod Z.of_nat n) 0) as [H|H].
  - rewrite (csum_ext n _ (fun _ => RtoC 1)).
    + rewrite csum_const. ring.
    + intros k Hk. rewrite <- (tw_0 n). apply tw_eqm; [exact Hn|].
      rewrite Z.mul_mod, H by lia. now rewrite Z.mul_0_r, !Z.mod_0_l by lia.
  - assert (Hg := tw_geom n m n). rewrite tw_mul_n in Hg by exact Hn.
    replace (1 - 1)%C with (RtoC 0) in Hg by ring.
    destruct (Ceq_dec (csum n (fun k => tw n (Z.of_nat k * m))) 0) as [E|E]; [exact E|].
    exfalso. revert Hg. apply Cmult_neq_0; [|exact E].
    intros E1. apply (tw_neq_1 n m Hn H).
    replace (tw n m) with ((tw n m - 1) + 1)%C by ring. rewrite E1. ring.
Qed.

(** ** The DFT *)

(** [np.fft.fft(f)[k]] for an [n]-sample signal (also used with [k] outside
    [0..n-1], where it is the periodic extension, i.e. negative frequencies) *)
Definition dft (n : nat) (f : nat -> C) (k : Z) : C :=
  csum n (fun j => f j * tw n (- (Z.of_nat j * k)))%C.

(** [np.fft.ifft(F)[j]] *)
Definition idft (n : nat) (F : nat -> C) (j : Z) : C :=
  (csum n (fun k => F k * tw n (Z.of_nat k * j)) * RtoC (/ INR n))%C.

Lemma dft_ext n f g k : (forall j, (j < n)%nat -> f j = g j) -> dft n f k = dft n g k.
Proof. intros H. apply csum_ext. intros j Hj. now rewrite H. Qed.
Lemma idft_ext n f g k : (forall j, (j < n)%nat -> f j = g j) -> idft n f k = idft n g k.
Proof. intros H. unfold idft. f_equal. apply csum_ext. intros j Hj. now rewrite H. Qed.

Lemma dft_mod n f k : (0 < n)%nat -> dft n f (k mod Z.of_nat n) = dft n f k.
Proof.
  intros Hn. apply csum_ext. intros j Hj. f_equal. apply tw_eqm; [exact Hn|].
  rewrite <- !Z.mul_opp_l. now rewrite Z.mul_mod_idemp_r by lia.
Qed.
Lemma idft_mod n f k : (0 < n)%nat -> idft n f (k mod Z.of_nat n) = idft n f k.
Proof.
  intros Hn. unfold idft. f_equal. apply csum_ext. intros j Hj. f_equal.
  apply tw_eqm; [exact Hn|]. now rewrite Z.mul_mod_idemp_r by lia.
Qed.

Lemma INR_neq0 n : (0 < n)%nat -> INR n <> 0.
Proof. intros. apply not_0_INR. lia. Qed.

Lemma mod_diff_eq (n i j : nat) :
  (i < n)%nat -> (j < n)%nat -> ((Z.of_nat j - Z.of_nat i) mod Z.of_nat n = 0)%Z -> i = j.
Proof.
  intros Hi Hj H. apply Z.mod_divide in H; [|lia]. destruct H as [q Hq].
  assert (q = 0)%Z.
  { destruct (Z.lt_trichotomy q 0) as [h|[h|h]]; [exfalso|exact h|exfalso].
    - assert (q * Z.of_nat n <= -1 * Z.of_nat n)%Z by (apply Z.mul_le_mono_nonneg_r; lia). lia.
    - assert (1 * Z.of_nat n <= q * Z.of_nat n)%Z by (apply Z.mul_le_mono_nonneg_r; lia). lia. }
  subst q. lia.
Qed.

(** [ifft(fft(f)) == f] *)
Lemma idft_dft n f j :
  (j < n)%nat -> idft n (fun k => dft n f (Z.of_nat k)) (Z.of_nat j) = f j.
Proof.
  intros Hj. assert (Hn : (0 < n)%nat) by lia.
  unfold idft, dft.
  rewrite (csum_ext n _ (fun k => csum n (fun i => f i * tw n (Z.of_nat k * (Z.of_nat j - Z.of_nat i)))%C)).
  2:{ intros k Hk. rewrite <- csum_scal_r. apply csum_ext. intros i Hi.
      rewrite <- Cmult_assoc, <- tw_plus. do 2 f_equal. lia. }
  rewrite csum_swap.
  rewrite (csum_ext n _ (fun i => f i * (if (Z.eqb (Z.of_nat i) (Z.of_nat j)) then RtoC (INR n) else 0))%C).
  2:{ intros i Hi. rewrite csum_scal_l, tw_orth by exact Hn. f_equal.
      destruct (Z.eqb_spec (Z.of_nat i) (Z.of_nat j)) as [E|E].
      - rewrite E, Z.sub_diag, Z.mod_0_l by lia. reflexivity.
      - destruct (Z.eqb_spec ((Z.of_nat j - Z.of_nat i) mod Z.of_nat n) 0) as [E'|E']; [|reflexivity].
        exfalso. apply E. f_equal. first [apply (mod_diff_eq n i j) | symmetry; apply (mod_diff_eq n k i)]; assumption. }
  rewrite (csum_single n _ j Hj).
  - rewrite Z.eqb_refl. rewrite <- Cmult_assoc, <- RtoC_mult, Rinv_r by now apply INR_neq0.
    ring.
  - intros k Hk Hne. destruct (Z.eqb_spec (Z.of_nat k) (Z.of_nat j)) as [E|E]; [lia|]. ring.
Qed.

(** [fft(ifft(F)) == F] *)
Lemma dft_idft n F k :
  (k < n)%nat -> dft n (fun j => idft n F (Z.of_nat j)) (Z.of_nat k) = F k.
Proof.
  intros Hk. assert (Hn : (0 < n)%nat) by lia.
  unfold idft, dft.
  rewrite (csum_ext n _ (fun j => csum n (fun i => (F i * RtoC (/ INR n)) * tw n (Z.of_nat j * (Z.of_nat i - Z.of_nat k)))%C)).
  2:{ intros j Hj. rewrite <- Cmult_assoc, <- csum_scal_r. apply csum_ext. intros i Hi.
      replace (Z.of_nat j * (Z.of_nat i - Z.of_nat k))%Z
        with (Z.of_nat i * Z.of_nat j + - (Z.of_nat j * Z.of_nat k))%Z by lia.
      rewrite tw_plus. ring. }
  rewrite csum_swap.
  rewrite (csum_ext n _ (fun i => F i * RtoC (/ INR n) * (if (Z.eqb (Z.of_nat i) (Z.of_nat k)) then RtoC (INR n) else 0))%C).
  2:{ intros i Hi. rewrite csum_scal_l, tw_orth by exact Hn. f_equal.
      destruct (Z.eqb_spec (Z.of_nat i) (Z.of_nat k)) as [E|E].
      - rewrite E, Z.sub_diag, Z.mod_0_l by lia. reflexivity.
      - destruct (Z.eqb_spec ((Z.of_nat i - Z.of_nat k) mod Z.of_nat n) 0) as [E'|E']; [|reflexivity].
        exfalso. apply E. f_equal. first [apply (mod_diff_eq n i j) | symmetry; apply (mod_diff_eq n k i)]; assumption. }
  rewrite (csum_single n _ k Hk).
  - rewrite Z.eqb_refl. rewrite <- Cmult_assoc, <- RtoC_mult, Rinv_l by now apply INR_neq0.
    ring.
  - intros i Hi Hne. destruct (Z.eqb_spec (Z.of_nat i) (Z.of_nat k)) as [E|E]; [lia|]. ring.
Qed.

(** Hermitian symmetry of the DFT of a real signal *)
Lemma dft_real_conj n (f : nat -> R) k :
  dft n (fun j => RtoC (f j)) (- k) = Cconj (dft n (fun j => RtoC (f j)) k).
Proof.
  unfold dft. rewrite csum_conj. apply csum_ext. intros j Hj.
  rewrite Cconj_mult, Cconj_R, <- tw_opp. do 2 f_equal. lia.
Qed.

(** Parseval / Plancherel: [sum(fft(f)*conj(fft(g))) == n*sum(f*conj(g))] *)
Lemma plancherel n f g :
  (0 < n)%nat ->
  csum n (fun k => dft n f (Z.of_nat k) * Cconj (dft n g (Z.of_nat k)))%C
  = (RtoC (INR n) * csum n (fun j => f j * Cconj (g j)))%C.
Proof.
  intros Hn.
  rewrite (csum_ext n _ (fun k => csum n (fun j => Cconj (g j) * (dft n f (Z.of_nat k) * tw n (Z.of_nat k * Z.of_nat j)))%C)).
  2:{ intros k Hk. unfold dft at 2. rewrite csum_conj, <- csum_scal_l.
      apply csum_ext. intros j Hj. rewrite Cconj_mult, <- tw_opp.
      replace (- - (Z.of_nat j * Z.of_nat k))%Z with (Z.of_nat k * Z.of_nat j)%Z by lia. ring. }
  rewrite csum_swap, <- csum_scal_l. apply csum_ext. intros j Hj.
  rewrite csum_scal_l.
  assert (H := idft_dft n f j Hj). unfold idft in H.
  rewrite <- H.
  set (S := csum n _).
  transitivity (Cconj (g j) * (S * (RtoC (/ INR n) * RtoC (INR n))))%C.
  - rewrite <- RtoC_mult, Rinv_l by now apply INR_neq0. ring.
  - ring.
Qed.

Lemma parseval n f :
  (0 < n)%nat ->
  rsum n (fun k => cn2 (dft n f (Z.of_nat k))) = INR n * rsum n (fun j => cn2 (f j)).
Proof.
  intros Hn. apply RtoC_inj. rewrite RtoC_mult, <- !csum_RtoC.
  rewrite (csum_ext n _ (fun k => dft n f (Z.of_nat k) * Cconj (dft n f (Z.of_nat k)))%C)
    by (intros; apply cn2_conj).
  rewrite plancherel by exact Hn. f_equal. apply csum_ext. intros. now rewrite cn2_conj.
Qed.

(** ** Circular shifts *)

(** [np.roll(f, d)]: sample [i] of the result is sample [(i-d) mod n] of [f]. *)
Definition roll {A} (n : nat) (d : Z) (f : nat -> A) : nat -> A :=
  fun i => f (Z.to_nat ((Z.of_nat i - d) mod Z.of_nat n)).

(** Sum of an [n]-periodic function over any full period. *)
Lemma csum_periodic_shift1 n (g : Z -> C) :
  (0 < n)%nat -> (forall z, g (z + Z.of_nat n)%Z = g z) ->
  csum n (fun k => g (Z.of_nat k + 1)%Z) = csum n (fun k => g (Z.of_nat k)).
Proof.
  intros Hn Hper. destruct n as [|n]; [lia|].
  rewrite (csum_S_first n (fun k => g (Z.of_nat k))). cbn [csum].
  replace (Z.of_nat n + 1)%Z with (0 + Z.of_nat (S n))%Z by lia.
  rewrite Hper, Cplus_comm. f_equal.
  apply csum_ext. intros k Hk. f_equal. lia.
Qed.

Lemma csum_periodic n (g : Z -> C) (s : Z) :
  (0 < n)%nat -> (forall z, g (z + Z.of_nat n)%Z = g z) ->
  csum n (fun k => g (Z.of_nat k + s)%Z) = csum n (fun k => g (Z.of_nat k)).
Proof.
  intros Hn Hper.
  assert (Hpos : forall (t : nat) (h : Z -> C), (forall z, h (z + Z.of_nat n)%Z = h z) ->
             csum n (fun k => h (Z.of_nat k + Z.of_nat t)%Z) = csum n (fun k => h (Z.of_nat k))).
  { intros t. induction t as [|t IH]; intros h Hh.
    - apply csum_ext. intros k Hk. f_equal. lia.
    - rewrite <- (IH h Hh).
      rewrite <- (csum_periodic_shift1 n (fun z => h (z + Z.of_nat t)%Z)); try assumption.
      + apply csum_ext. intros k Hk. f_equal. lia.
      + intros z. rewrite <- (Hh (z + Z.of_nat t)%Z). f_equal. lia. }
  destruct (Z_le_gt_dec 0 s) as [H|H].
  - rewrite <- (Z2Nat.id s H). now apply Hpos.
  - symmetry. rewrite <- (Hpos (Z.to_nat (- s)) (fun z => g (z + s)%Z)).
    + apply csum_ext. intros k Hk. f_equal. lia.
    + intros z. rewrite <- (Hper (z + s)%Z). f_equal. lia.
Qed.

Lemma rsum_periodic n (g : Z -> R) (s : Z) :
  (0 < n)%nat -> (forall z, g (z + Z.of_nat n)%Z = g z) ->
  rsum n (fun k => g (Z.of_nat k + s)%Z) = rsum n (fun k => g (Z.of_nat k)).
Proof.
  intros Hn Hper. apply RtoC_inj. rewrite <- !csum_RtoC.
  apply (csum_periodic n (fun z => RtoC (g z))); [exact Hn|].
  intros z. now rewrite Hper.
Qed.

(** Periodic extension of an [n]-sample array *)
Definition ext {A} (n : nat) (f : nat -> A) (z : Z) : A := f (Z.to_nat (z mod Z.of_nat n)).

Lemma ext_per {A} n (f : nat -> A) z : (0 < n)%nat -> ext n f (z + Z.of_nat n) = ext n f z.
Proof.
  intros Hn. unfold ext. do 2 f_equal.
  replace (z + Z.of_nat n)%Z with (z + 1 * Z.of_nat n)%Z by lia.
  now rewrite Z.mod_add by lia.
Qed.
Lemma ext_nat {A} n (f : nat -> A) k : (k < n)%nat -> ext n f (Z.of_nat k) = f k.
Proof. intros H. unfold ext. rewrite Z.mod_small by lia. now rewrite Nat2Z.id. Qed.

(** Shift theorem: [fft(roll(f,d))[k] == fft(f)[k] * exp(-2j*pi*d*k/n)] *)
Lemma dft_roll n f d k :
  (0 < n)%nat -> dft n (roll n d f) k = (dft n f k * tw n (- (d * k)))%C.
Proof.
  intros Hn. unfold dft. rewrite <- csum_scal_r.
  assert (Hper : forall z, (fun z => ext n f z * tw n (- (z * k)) * tw n (- (d * k)))%C (z + Z.of_nat n)%Z
                 = (ext n f z * tw n (- (z * k)) * tw n (- (d * k)))%C).
  { intros z. cbv beta. rewrite ext_per by exact Hn. do 2 f_equal.
    apply tw_eqm; [exact Hn|].
    replace (- ((z + Z.of_nat n) * k))%Z with (- (z * k) + (- k) * Z.of_nat n)%Z by lia.
    now rewrite Z.mod_add by lia. }
  rewrite (csum_ext n (fun j => f j * _ * _)%C
             (fun j => ext n f (Z.of_nat j) * tw n (- (Z.of_nat j * k)) * tw n (- (d * k)))%C)
    by (intros j Hj; now rewrite ext_nat).
  rewrite <- (csum_periodic n _ (- d) Hn Hper).
  apply csum_ext. intros j Hj. unfold roll, ext.
  replace (Z.of_nat j + - d)%Z with (Z.of_nat j - d)%Z by lia.
  rewrite <- Cmult_assoc, <- tw_plus. do 2 f_equal. lia.
Qed.

(** Linearity *)
Lemma dft_plus n f g k : dft n (fun j => f j + g j)%C k = (dft n f k + dft n g k)%C.
Proof.
  unfold dft. rewrite <- csum_plus. apply csum_ext. intros. ring.
Qed.
Lemma dft_minus n f g k : dft n (fun j => f j - g j)%C k = (dft n f k - dft n g k)%C.
Proof.
  unfold dft. rewrite <- csum_minus. apply csum_ext. intros. ring.
Qed.
Lemma dft_scal n (c : C) f k : dft n (fun j => c * f j)%C k = (c * dft n f k)%C.
Proof.
  unfold dft. rewrite <- csum_scal_l. apply csum_ext. intros. ring.
Qed.
Lemma idft_scal n (c : C) f k : idft n (fun j => c * f j)%C k = (c * idft n f k)%C.
Proof.
  unfold idft. rewrite Cmult_assoc, <- csum_scal_l. f_equal. apply csum_ext. intros. ring.
Qed.

(** ** Frequencies *)

(** Signed frequency number of bin [k]: [np.fft.fftfreq(n, d=1/fs)[k] == fs*freqnum n k/n]. *)
Definition freqnum (n k : nat) : Z :=
  if (2 * Z.of_nat k <? Z.of_nat n)%Z then Z.of_nat k else (Z.of_nat k - Z.of_nat n)%Z.

(** [np.fft.fftfreq(n, d=1/fs)[k]] *)
Definition fftfreq (n : nat) (fs : R) (k : nat) : R := IZR (freqnum n k) * fs / INR n.

Lemma freqnum_mod n k : (k < n)%nat -> (freqnum n k mod Z.of_nat n = Z.of_nat k)%Z.
Proof.
  intros H. unfold freqnum. destruct (Z.ltb_spec (2 * Z.of_nat k) (Z.of_nat n)).
  - apply Z.mod_small. lia.
  - replace (Z.of_nat k - Z.of_nat n)%Z with (Z.of_nat k + (-1) * Z.of_nat n)%Z by lia.
    rewrite Z.mod_add by lia. apply Z.mod_small. lia.
Qed.

Lemma tw_freqnum n k d : (k < n)%nat -> tw n (d * freqnum n k) = tw n (d * Z.of_nat k).
Proof.
  intros H. apply tw_eqm; [lia|].
  rewrite Z.mul_mod, freqnum_mod by lia.
  rewrite (Z.mul_mod d (Z.of_nat k)) by lia. f_equal. f_equal.
  now rewrite (Z.mod_small (Z.of_nat k)) by lia.
Qed.
