(** * Correlation coefficients; witnesses about the class Noise *)
From Coq Require Import Reals Lra Lia.
From Coquelicot Require Import Complex.
From Verif Require Import Base Dft ListLemmas UtilsModel UtilsSpec UtilsProofs1 UtilsProofs2 UtilsProofs3 UtilsProofs4 NoiseModel NoiseSpec NoiseProofs1 NoiseProofs2 NoiseProofs3 NoiseProofs4.
Local Open Scope R_scope.

(** ** Correlation coefficients *)
Lemma cov_rsum {A} (l : list A) d (f g : A -> R) :
  let m := length l in let mean h := rsum m (fun t => h (nth t l d)) / INR m in
  cov_rows (map f l) (map g l) = rsum m (fun t => (f (nth t l d) - mean f) * (g (nth t l d) - mean g)).
Proof.
  cbv zeta. unfold cov_rows, lmean. rewrite !map_length.
  replace (combine (map f l) (map g l)) with (map (fun x => (f x, g x)) l).
  2:{ induction l as [|a l IH]; [reflexivity|]. cbn. now rewrite IH. }
  rewrite map_map, (lsum_map_nth _ _ d). rewrite !(lsum_map_nth _ _ d). reflexivity.
Qed.

Lemma cauchy m (a b : nat -> R) :
  rsum m (fun t => a t * b t) ^ 2 <= rsum m (fun t => a t ^ 2) * rsum m (fun t => b t ^ 2).
Proof.
  set (p := rsum m (fun t => a t * b t)). set (q := rsum m (fun t => a t ^ 2)). set (r := rsum m (fun t => b t ^ 2)).
  assert (Hq : forall l, 0 <= q + 2 * l * p + l * l * r).
  { intros l. replace (q + 2 * l * p + l * l * r) with (rsum m (fun t => (a t + l * b t) ^ 2)).
    - apply rsum_nonneg. intros. apply pow2_ge_0.
    - unfold q, p, r. rewrite <- !rsum_scal_l, <- !rsum_plus. apply rsum_ext. intros. ring. }
  assert (Hr : 0 <= r) by (apply rsum_nonneg; intros; apply pow2_ge_0).
  assert (Hq0 : 0 <= q) by (apply rsum_nonneg; intros; apply pow2_ge_0).
  destruct Hr as [Hr|Hr].
  - specialize (Hq (- p / r)). apply (Rmult_le_compat_l r) in Hq; [|lra].
    replace (r * (q + 2 * (- p / r) * p + - p / r * (- p / r) * r)) with (q * r - p ^ 2) in Hq by (field; lra). lra.
  - rewrite <- Hr. assert (p = 0); [|subst p; nra].
    destruct (Req_dec p 0); [assumption|]. exfalso.
    specialize (Hq (- (q + 1) / (2 * p))). rewrite <- Hr in Hq.
    replace (q + 2 * (- (q + 1) / (2 * p)) * p + - (q + 1) / (2 * p) * (- (q + 1) / (2 * p)) * 0) with (-1) in Hq by (field; lra). lra.
Qed.

Lemma spread_pos m (a : nat -> R) : (exists i j, (i < m)%nat /\ (j < m)%nat /\ a i <> a j) ->
  0 < rsum m (fun t => (a t - rsum m a / INR m) ^ 2).
Proof.
  intros H. assert (Hm : (0 < m)%nat) by (destruct H as (i & j & Hi & _); lia).
  pose proof (sxx_two m a Hm H) as Hn. unfold sxx, xm in Hn.
  assert (0 <= rsum m (fun t => (a t - rsum m a / INR m) ^ 2)) by (apply rsum_nonneg; intros; apply pow2_ge_0). lra.
Qed.

Lemma corrcoeff_pearson o c1 c2 k :
  corr_rows (fft_row o c1 k) (fft_row o c2 k) =
  pearson (length (traces o)) (fun t => Cmod (dft (nbins o) (fun j => RtoC (nth t (traces o) zero_trace c1 j)) (Z.of_nat k)))
    (fun t => Cmod (dft (nbins o) (fun j => RtoC (nth t (traces o) zero_trace c2 j)) (Z.of_nat k))).
Proof.
  unfold corr_rows, fft_row, pearson. rewrite !(cov_rsum _ zero_trace). cbv zeta.
  assert (E : forall (x : trace) c, sqrt (power (nbins o) (x c) k) = Cmod (dft (nbins o) (fun j => RtoC (x c j)) (Z.of_nat k))).
  { intros x c. rewrite power_Cmod. apply sqrt_pow2, Cmod_ge_0. }
  assert (E2 : forall c, rsum (length (traces o)) (fun t => sqrt (power (nbins o) (nth t (traces o) zero_trace c) k)) =
     rsum (length (traces o)) (fun t => Cmod (dft (nbins o) (fun j => RtoC (nth t (traces o) zero_trace c j)) (Z.of_nat k)))).
  { intros c. apply rsum_ext. intros. apply E. }
  rewrite !E2. rewrite <- sqrt_mult_alt.
  - f_equal; [apply rsum_ext; intros; now rewrite !E|]. f_equal.
    f_equal; apply rsum_ext; intros; rewrite !E; ring.
  - apply rsum_nonneg. intros. apply Rle_0_sqr.
Qed.

Lemma pearson_sym m u v : pearson m u v = pearson m v u.
Proof.
  unfold pearson. f_equal; [apply rsum_ext; intros; ring|]. now rewrite Rmult_comm.
Qed.
Lemma pearson_diag m u : (exists i j, (i < m)%nat /\ (j < m)%nat /\ u i <> u j) -> pearson m u u = 1.
Proof.
  intros H. pose proof (spread_pos m u H) as Hp. unfold pearson. cbv zeta. rewrite sqrt_square by lra.
  replace (rsum m (fun t => (u t - rsum m u / INR m) * (u t - rsum m u / INR m)))
    with (rsum m (fun t => (u t - rsum m u / INR m) ^ 2)) by (apply rsum_ext; intros; ring).
  field. lra.
Qed.
Lemma pearson_bound m u v :
  (exists i j, (i < m)%nat /\ (j < m)%nat /\ u i <> u j) -> (exists i j, (i < m)%nat /\ (j < m)%nat /\ v i <> v j) ->
  -1 <= pearson m u v <= 1.
Proof.
  intros H1 H2. pose proof (spread_pos m u H1) as P1. pose proof (spread_pos m v H2) as P2.
  pose proof (cauchy m (fun t => u t - rsum m u / INR m) (fun t => v t - rsum m v / INR m)) as Hc. cbv beta in Hc.
  unfold pearson. cbv zeta.
  set (S := rsum m (fun t => (u t - rsum m u / INR m) ^ 2) * rsum m (fun t => (v t - rsum m v / INR m) ^ 2)) in *.
  set (p := rsum m (fun t => (u t - rsum m u / INR m) * (v t - rsum m v / INR m))) in *.
  assert (HS : 0 < S) by (apply Rmult_lt_0_compat; assumption).
  assert (Hs : 0 < sqrt S) by now apply sqrt_lt_R0.
  assert (Ha : Rabs p <= sqrt S).
  { rewrite <- sqrt_Rsqr_abs. apply sqrt_le_1_alt. unfold Rsqr. lra. }
  assert (Ha' := Rle_abs p). assert (Hb := Rle_abs (- p)). rewrite Rabs_Ropp in Hb.
  split.
  - apply Rmult_le_reg_r with (sqrt S); [assumption|]. unfold Rdiv. rewrite Rmult_assoc, Rinv_l by lra. lra.
  - apply Rmult_le_reg_r with (sqrt S); [assumption|]. unfold Rdiv. rewrite Rmult_assoc, Rinv_l by lra. lra.
Qed.

(** The magnitudes of one channel's spectrum in one bin, trace by trace. *)
Lemma corrcoeff_spec o : nchan o <> 1%nat ->
  snd (calculate_corrcoeff o) = Ok tt /\
  exists M, n_corrcoeff (fst (calculate_corrcoeff o)) = Some M /\
    let mag c k t := Cmod (dft (nbins o) (fun j => RtoC (nth t (traces o) zero_trace c j)) (Z.of_nat k)) in
    let varies c k := exists i j, (i < length (traces o))%nat /\ (j < length (traces o))%nat /\ mag c k i <> mag c k j in
    forall c1 c2 k, (c1 < nchan o)%nat -> (c2 < nchan o)%nat ->
      M c1 c2 k = pearson (length (traces o)) (mag c1 k) (mag c2 k) /\ M c1 c2 k = M c2 c1 k /\
      (varies c1 k -> M c1 c1 k = 1) /\ (varies c1 k -> varies c2 k -> -1 <= M c1 c2 k <= 1).
Proof.
  intros H. unfold calculate_corrcoeff. destruct (Nat.eqb_spec (nchan o) 1); [contradiction|].
  split; [reflexivity|]. eexists. split; [reflexivity|]. cbv beta zeta. intros c1 c2 k _ _.
  rewrite !corrcoeff_pearson. split; [apply pearson_sym|]. split; [apply pearson_sym|].
  split; [apply pearson_diag|]. intros V1 V2. now apply pearson_bound.
Qed.

(** ** Two-channel witness *)
Definition wit_trace (a b : R) : trace := fun c j => if (j =? 1)%nat then (if (c =? 0)%nat then a else b) else 0.
Definition wit_noise : noise := fresh_noise 2 2 1 (fun j => INR j / 1) [wit_trace 2 0; wit_trace 0 2].

(** A correct inversion of 2 x 2 matrices: the adjugate over the determinant. *)
Definition det2 (A : nat -> nat -> C) : C := (A 0%nat 0%nat * A 1%nat 1%nat - A 0%nat 1%nat * A 1%nat 0%nat)%C.
Definition inv2 (c : nat) (A : nat -> nat -> C) : option (nat -> nat -> C) :=
  if (c =? 2)%nat then
    if Ceq_dec (det2 A) (RtoC 0) then None else
    Some (fun i j => match i, j with
          | O, O => A 1%nat 1%nat / det2 A | O, _ => - A 0%nat 1%nat / det2 A
          | _, O => - A 1%nat 0%nat / det2 A | _, _ => A 0%nat 0%nat / det2 A end)%C
  else None.

Lemma inv2_correct : correct_inversion inv2.
Proof.
  intros c A B H. unfold inv2 in H. destruct (Nat.eqb_spec c 2) as [->|]; [|discriminate].
  destruct (Ceq_dec (det2 A) (RtoC 0)) as [|Hd]; [discriminate|].
  assert (HB := f_equal (fun r => match r with Some b => b | None => A end) H). cbv iota beta in HB. rewrite <- HB. clear HB H.
  intros i j Hi Hj. 
  assert (Hi' : i = 0%nat \/ i = 1%nat) by lia. assert (Hj' : j = 0%nat \/ j = 1%nat) by lia.
  destruct Hi' as [-> | ->]; destruct Hj' as [-> | ->]; cbn [csum Nat.eqb]; unfold det2 in *; field; exact Hd.
Qed.
Lemma inv2_complete : complete_inversion2 inv2.
Proof.
  intros A B H. unfold inv2. cbn [Nat.eqb]. destruct (Ceq_dec (det2 A) (RtoC 0)) as [E|]; [|discriminate].
  exfalso.
  pose proof (H 0%nat 0%nat ltac:(lia) ltac:(lia)) as H00. pose proof (H 0%nat 1%nat ltac:(lia) ltac:(lia)) as H01.
  pose proof (H 1%nat 0%nat ltac:(lia) ltac:(lia)) as H10. pose proof (H 1%nat 1%nat ltac:(lia) ltac:(lia)) as H11.
  cbn [csum Nat.eqb] in H00, H01, H10, H11.
  assert (D : (det2 A * det2 B)%C = RtoC 1).
  { unfold det2.
    transitivity ((RtoC 0 + A 0%nat 0%nat * B 0%nat 0%nat + A 0%nat 1%nat * B 1%nat 0%nat) * (RtoC 0 + A 1%nat 0%nat * B 0%nat 1%nat + A 1%nat 1%nat * B 1%nat 1%nat)
      - (RtoC 0 + A 0%nat 0%nat * B 0%nat 1%nat + A 0%nat 1%nat * B 1%nat 1%nat) * (RtoC 0 + A 1%nat 0%nat * B 0%nat 0%nat + A 1%nat 1%nat * B 1%nat 0%nat))%C; [ring|].
    rewrite H00, H01, H10, H11. ring. }
  rewrite E, Cmult_0_l in D. injection D. lra.
Qed.

Lemma hann2 : hann 2 0 = 0 /\ hann 2 1 = 1.
Proof.
  unfold hann. cbn [INR]. split.
  - replace (2 * PI * 0 / (1 + 1)) with 0 by field. rewrite cos_0. lra.
  - replace (2 * PI * 1 / (1 + 1)) with PI by field. rewrite cos_PI. lra.
Qed.

Lemma tw2 : tw 2 0 = RtoC 1 /\ tw 2 (-1) = RtoC (-1).
Proof.
  split; [apply tw_0|]. unfold tw. cbn [INR].
  replace (2 * PI * -1 / (1 + 1)) with (- PI) by field. unfold cis. rewrite cos_neg, sin_neg, cos_PI, sin_PI.
  apply Ceq; simpl; ring.
Qed.

Lemma ft2 (x : nat -> R) k : (k < 2)%nat ->
  dft 2 (fun j => RtoC (windowed 2 x j)) (Z.of_nat k) = RtoC ((if (k =? 0)%nat then 1 else -1) * (x 1%nat - x 0%nat) / 2).
Proof.
  intros Hk. destruct hann2 as [H0 H1]. destruct tw2 as [T0 T1].
  unfold dft, windowed. cbn [csum rsum]. rewrite H0, H1.
  assert (Hk' : k = 0%nat \/ k = 1%nat) by lia. destruct Hk' as [-> | ->]; cbn [Nat.eqb];
    change (- (Z.of_nat 0 * Z.of_nat 0))%Z with 0%Z; change (- (Z.of_nat 1 * Z.of_nat 0))%Z with 0%Z;
    change (- (Z.of_nat 0 * Z.of_nat 1))%Z with 0%Z; change (- (Z.of_nat 1 * Z.of_nat 1))%Z with (-1)%Z;
    rewrite ?T0, ?T1; apply Ceq; simpl; field.
Qed.

Lemma csd_two o i j k a0 b0 a1 b1 : nbins o = 2%nat -> nfs o = 1 -> (k < 2)%nat ->
  (i < 2)%nat -> (j < 2)%nat ->
  (exists x y, traces o = [x; y] /\ x 0%nat 1%nat - x 0%nat 0%nat = 2 * a0 /\ x 1%nat 1%nat - x 1%nat 0%nat = 2 * b0 /\
               y 0%nat 1%nat - y 0%nat 0%nat = 2 * a1 /\ y 1%nat 1%nat - y 1%nat 0%nat = 2 * b1) ->
  csd_mean o i j k = RtoC (((if (i =? 0)%nat then a0 else b0) * (if (j =? 0)%nat then a0 else b0)
                          + (if (i =? 0)%nat then a1 else b1) * (if (j =? 0)%nat then a1 else b1)) / 2).
Proof.
  intros Hn Hf Hk Hi Hj (x & y & Ht & E1 & E2 & E3 & E4).
  rewrite csd_mean_gram. unfold csd_ft, csd_weight. rewrite Hn, Hf, Ht. cbn [length csum nth].
  rewrite !ft2 by exact Hk. destruct hann2 as [H0 H1]. cbn [rsum]. rewrite H0, H1.
  assert (Ho : onesided 2 k = 1).
  { unfold onesided. assert (Hk' : k = 0%nat \/ k = 1%nat) by lia. destruct Hk' as [-> | ->]; reflexivity. }
  rewrite Ho.
  assert (Hs : (if (k =? 0)%nat then 1 else -1) * (if (k =? 0)%nat then 1 else -1) = 1) by (destruct (k =? 0)%nat; ring).
  set (s := if (k =? 0)%nat then 1 else -1) in *.
  assert (Hi' : i = 0%nat \/ i = 1%nat) by lia. assert (Hj' : j = 0%nat \/ j = 1%nat) by lia.
  assert (F : forall u v, s * (2 * u) / 2 * (s * (2 * v) / 2) = u * v).
  { intros u v. transitivity (s * s * (u * v)); [field|rewrite Hs; ring]. }
  assert (Z : forall u v c : R, (Cconj (RtoC u) * RtoC v * RtoC c)%C = RtoC (u * v * c)).
  { intros. apply Ceq; simpl; ring. }
  destruct Hi' as [-> | ->]; destruct Hj' as [-> | ->]; cbn [Nat.eqb]; rewrite ?E1, ?E2, ?E3, ?E4, !Z, !F;
    apply Ceq; simpl; field.
Qed.

Lemma invert_two inv A (d : cmatrix) : inv 2%nat (fun i j => A i j 0%nat) <> None -> inv 2%nat (fun i j => A i j 1%nat) <> None ->
  exists l, invert_bins inv 2 A (seq 0 2) = Ok l.
Proof.
  intros H0 H1. cbn [seq invert_bins]. destruct (inv 2%nat (fun i j => A i j 0%nat)); [|contradiction].
  destruct (inv 2%nat (fun i j => A i j 1%nat)); [|contradiction]. eexists. reflexivity.
Qed.

Lemma wit_csd i j k : (i < 2)%nat -> (j < 2)%nat -> (k < 2)%nat ->
  csd_mean wit_noise i j k = if (i =? j)%nat then RtoC (1 / 2) else RtoC 0.
Proof.
  intros Hi Hj Hk. rewrite (csd_two wit_noise i j k 1 0 0 1); try reflexivity; try assumption.
  - assert (Hi' : i = 0%nat \/ i = 1%nat) by lia. assert (Hj' : j = 0%nat \/ j = 1%nat) by lia.
    destruct Hi' as [-> | ->]; destruct Hj' as [-> | ->]; cbn [Nat.eqb]; f_equal; field.
  - do 2 eexists. split; [reflexivity|]. unfold wit_trace. cbn [Nat.eqb]. repeat split; ring.
Qed.

Lemma wit_invertible inv k : complete_inversion2 inv -> (k < 2)%nat -> inv 2%nat (fun i j => csd_mean wit_noise i j k) <> None.
Proof.
  intros Hc Hk. apply (Hc _ (fun i j => if (i =? j)%nat then RtoC 2 else RtoC 0)).
  intros i j Hi Hj. cbn [csum]. rewrite !wit_csd by (assumption || lia).
  assert (Hi' : i = 0%nat \/ i = 1%nat) by lia. assert (Hj' : j = 0%nat \/ j = 1%nat) by lia.
  destruct Hi' as [-> | ->]; destruct Hj' as [-> | ->]; cbn [Nat.eqb]; apply Ceq; simpl; field.
Qed.

Lemma wit_uncorr_ok inv o : complete_inversion2 inv -> nbins o = 2%nat -> nchan o = 2%nat ->
  n_csd o = Some (csd_mean wit_noise) -> n_real_csd o <> None ->
  snd (calculate_uncorr_noise inv o) = Ok tt.
Proof.
  intros Hc Hn Hch H1 H2. unfold calculate_uncorr_noise. rewrite H1. rewrite H1.
  destruct (n_real_csd o) as [rc|]; [|contradiction]. cbv zeta. rewrite Hn, Hch. change (lenpsd 2) with 2%nat.
  destruct (invert_two inv (csd_mean wit_noise) (fun _ _ => RtoC 0)) as [l ->];
    try (apply wit_invertible; [assumption|lia]). reflexivity.
Qed.

Lemma wit_fresh_ok inv : complete_inversion2 inv -> snd (calculate_uncorr_noise inv wit_noise) = Ok tt.
Proof.
  intros Hc. unfold calculate_uncorr_noise. cbn [n_csd wit_noise fresh_noise].
  change (calculate_csd wit_noise) with (fst (calculate_csd wit_noise), @Ok unit tt).
  change (snd (calculate_uncorr_noise inv (fst (calculate_csd wit_noise))) = Ok tt).
  apply wit_uncorr_ok; try reflexivity; [assumption|discriminate].
Qed.

Lemma stale_csd inv : correct_inversion inv -> complete_inversion2 inv ->
  let h := run_noises inv [OpCsd; OpSlope] wit_noise in
  snd (run_noise inv OpUncorr h) = Ok tt /\ snd (run_noise inv OpUncorr (refreshed h)) = Err LinAlgError.
Proof.
  intros Hi Hc h. split.
  - cbn [run_noise]. apply wit_uncorr_ok; try reflexivity; [assumption|discriminate].
  - cbn [run_noise].
    assert (Hz : forall i j, (i < 2)%nat -> (j < 2)%nat -> csd_mean (refreshed h) i j 0 = RtoC 0).
    { intros i j Hi' Hj'. rewrite (csd_two (refreshed h) i j 0 0 0 0 0); try reflexivity; try assumption; try lia.
      - destruct (i =? 0)%nat, (j =? 0)%nat; f_equal; field.
      - exists (fun c => noslope 2 (fun j => INR j / 1) (wit_trace 2 0 c)), (fun c => noslope 2 (fun j => INR j / 1) (wit_trace 0 2 c)).
        split; [reflexivity|].
        assert (Hs : forall y, noslope 2 (fun j => INR j / 1) y 1 - noslope 2 (fun j => INR j / 1) y 0 = 0).
        { intros y. unfold noslope. rewrite slope_mk by lia. unfold sxx, xm. cbn [rsum INR]. field. }
        rewrite !Hs. repeat split; ring. }
    assert (Hno : inv 2%nat (fun i j => csd_mean (refreshed h) i j 0%nat) = None).
    { destruct (inv 2%nat _) as [B|] eqn:E; [|reflexivity]. exfalso. specialize (Hi _ _ _ E 0%nat 0%nat ltac:(lia) ltac:(lia)).
      cbn [csum Nat.eqb] in Hi. rewrite !Hz in Hi by lia. rewrite !Cmult_0_l, !Cplus_0_l in Hi. injection Hi. lra. }
    unfold calculate_uncorr_noise. cbn [n_csd refreshed fresh_noise].
    change (calculate_csd (refreshed h)) with (fst (calculate_csd (refreshed h)), @Ok unit tt).
    cbv iota beta. change (n_csd (fst (calculate_csd (refreshed h)))) with (Some (csd_mean (refreshed h))).
    cbv iota. change (n_real_csd (fst (calculate_csd (refreshed h)))) with
      (Some (fun i j => fill_negatives (mk (lenpsd 2) (fun k => mean_over (traces (refreshed h)) (fun x => fst (scipy_csd 2 1 (x i) (x j) k)))))).
    cbv iota zeta. change (nchan (fst (calculate_csd (refreshed h)))) with 2%nat.
    change (seq 0 (lenpsd (nbins (fst (calculate_csd (refreshed h)))))) with [0%nat; 1%nat].
    cbn [invert_bins]. rewrite Hno. reflexivity.
Qed.
