(** * Optimum filters: the weighted inner product and its relation to the model *)
From Verif Require Import Base UtilsModel Dft WindowModel OFModel OFSpec.
Local Open Scope R_scope.

Lemma rsum_ge_term n f i : (i < n)%nat -> (forall k, (k < n)%nat -> 0 <= f k) -> f i <= rsum n f.
Proof.
  induction n as [|n IH]; intros Hi H; [lia|]. simpl.
  assert (H0 : 0 <= rsum n f) by (apply rsum_nonneg; intros; apply H; lia).
  assert (Hn := H n ltac:(lia)).
  destruct (Nat.eq_dec i n) as [->|Hne]; [lra|].
  assert (f i <= rsum n f) by (apply IH; [lia|]; intros; apply H; lia). lra.
Qed.

Definition F (n : nat) (x : nat -> R) (k : nat) : C := dft n (fun j => RtoC (x j)) (Z.of_nat k).

Definition wip (n : nat) (w : nat -> R) (x y : nat -> R) : R :=
  rsum n (fun k => w k * fst (Cconj (F n x k) * F n y k)%C).

Lemma wip_sym n w x y : wip n w x y = wip n w y x.
Proof. apply rsum_ext. intros k _. simpl. ring. Qed.

Lemma F_lin n x y a k : F n (fun i => x i + a * y i) k = (F n x k + RtoC a * F n y k)%C.
Proof.
  unfold F. rewrite <- dft_scal, <- dft_plus. apply dft_ext. intros j _. ceq.
Qed.

Lemma F_ext n x y k : (forall i, (i < n)%nat -> x i = y i) -> F n x k = F n y k.
Proof. intros H. apply dft_ext. intros j Hj. now rewrite H. Qed.

Lemma wip_ext n w x x' y y' : (forall i, (i < n)%nat -> x i = x' i) ->
  (forall i, (i < n)%nat -> y i = y' i) -> wip n w x y = wip n w x' y'.
Proof.
  intros H1 H2. apply rsum_ext. intros k _. now rewrite (F_ext n x x'), (F_ext n y y').
Qed.

Lemma wip_lin n w x y a z :
  wip n w (fun i => x i + a * y i) z = wip n w x z + a * wip n w y z.
Proof.
  unfold wip. rewrite <- rsum_scal_l, <- rsum_plus. apply rsum_ext. intros k _.
  rewrite F_lin. simpl. ring.
Qed.

Lemma wip_lin_r n w x y a z :
  wip n w z (fun i => x i + a * y i) = wip n w z x + a * wip n w z y.
Proof. now rewrite wip_sym, wip_lin, (wip_sym _ _ x), (wip_sym _ _ y). Qed.

Lemma wip_nonneg n w x : (forall k, (k < n)%nat -> 0 <= w k) -> 0 <= wip n w x x.
Proof.
  intros H. apply rsum_nonneg. intros k Hk. apply Rmult_le_pos; [now apply H|].
  replace (fst (Cconj (F n x k) * F n x k)%C) with (cn2 (F n x k)) by (unfold cn2; simpl; ring).
  apply cn2_nonneg.
Qed.

Lemma wchi2_wip n fs p ac r : wchi2 n fs p ac r = wip n (bin_weight n fs p ac) r r.
Proof.
  apply rsum_ext. intros k _. f_equal. fold (F n r k). unfold cn2; simpl; ring.
Qed.

Lemma wchi2_ext n fs p ac r r' : (forall i, (i < n)%nat -> r i = r' i) ->
  wchi2 n fs p ac r = wchi2 n fs p ac r'.
Proof. intros H. rewrite !wchi2_wip. now apply wip_ext. Qed.

Lemma F_roll n x d k : (0 < n)%nat -> F n (roll n d x) k = (F n x k * tw n (- (d * Z.of_nat k)))%C.
Proof. intros Hn. unfold F. exact (dft_roll n (fun j => RtoC (x j)) d (Z.of_nat k) Hn). Qed.

Lemma wip_roll n w x y d : (0 < n)%nat -> wip n w (roll n d x) (roll n d y) = wip n w x y.
Proof.
  intros Hn. apply rsum_ext. intros k _. f_equal. rewrite !F_roll by exact Hn.
  assert (E := tw_n2 n (- (d * Z.of_nat k))). unfold cn2 in E.
  set (u := tw n _) in *. clearbody u.
  generalize dependent (F n x k). generalize dependent (F n y k). intros Y X. simpl.
  transitivity ((fst X * fst Y + snd X * snd Y)
                * (fst u * fst u + snd u * snd u)); [ring|]. rewrite E. ring.
Qed.

Lemma weight_nonneg n fs p ac k : (0 < n)%nat -> 0 < fs -> positive_psd n p -> (k < n)%nat ->
  0 <= bin_weight n fs p ac k.
Proof.
  intros Hn Hf Hp Hk. unfold bin_weight. destruct (ac && (k =? 0)%nat)%bool; [lra|].
  left. apply Rinv_0_lt_compat. specialize (Hp k Hk).
  assert (0 < INR n) by (apply lt_0_INR; lia). apply Rmult_lt_0_compat; [|exact Hf].
  now apply Rmult_lt_0_compat.
Qed.

Lemma wchi2_nonneg n fs p ac r : (0 < n)%nat -> 0 < fs -> positive_psd n p -> 0 <= wchi2 n fs p ac r.
Proof.
  intros Hn Hf Hp. rewrite wchi2_wip. apply wip_nonneg. intros k Hk. now apply weight_nonneg.
Qed.

Lemma wip_pos n fs p ac t : (0 < n)%nat -> 0 < fs -> positive_psd n p -> visible n ac t ->
  0 < wip n (bin_weight n fs p ac) t t.
Proof.
  intros Hn Hf Hp (k & Hk & Hac & Hne).
  apply Rlt_le_trans with (bin_weight n fs p ac k * cn2 (F n t k)).
  - unfold bin_weight. rewrite Hac. apply Rmult_lt_0_compat.
    + apply Rinv_0_lt_compat. specialize (Hp k Hk).
      assert (0 < INR n) by (apply lt_0_INR; lia). apply Rmult_lt_0_compat; [|exact Hf].
      now apply Rmult_lt_0_compat.
    + now apply cn2_pos.
  - unfold wip.
    rewrite (rsum_ext n _ (fun k => bin_weight n fs p ac k * cn2 (F n t k)))
      by (intros; f_equal; unfold cn2; simpl; ring).
    apply (rsum_ge_term n (fun k => bin_weight n fs p ac k * cn2 (F n t k)) k Hk).
    intros i Hi. apply Rmult_le_pos; [now apply weight_nonneg|apply cn2_nonneg].
Qed.

(** ** Bridges from the model *)

Lemma RtoC_neq0 (x : R) : x <> 0 -> RtoC x <> RtoC 0.
Proof. apply RtoC_neq. Qed.

Lemma fftnorm_F n fs x k : (0 < n)%nat -> fs <> 0 ->
  fftnorm n (fs / INR n) x k = (RtoC (/ fs) * F n x k)%C.
Proof.
  intros Hn Hf. unfold fftnorm. fold (F n x k).
  assert (INR n <> 0) by (apply INR_neq0; lia).
  rewrite RtoC_div, RtoC_inv by auto. field. split; apply RtoC_neq; auto.
Qed.

Lemma F_scale n a x k : F n (fun i => a * x i) k = (RtoC a * F n x k)%C.
Proof. unfold F. rewrite <- dft_scal. apply dft_ext. intros j _. ceq. Qed.

Lemma F_zero_bin n x : F n x 0 = RtoC (rsum n x).
Proof.
  unfold F, dft. rewrite <- csum_RtoC. apply csum_ext. intros j _.
  rewrite Z.mul_0_r. simpl Z.opp. rewrite tw_0. ring.
Qed.

Lemma template_ft_F n fs t inorm k : (0 < n)%nat -> fs <> 0 -> (inorm = true -> rsum n t <> 0) ->
  template_ft n (fs / INR n) t inorm k = (RtoC (/ fs) * F n (used_template n fs t inorm) k)%C.
Proof.
  intros Hn Hf Hs. unfold template_ft, used_template. destruct inorm.
  - specialize (Hs eq_refl). rewrite !fftnorm_F by assumption. rewrite F_scale, F_zero_bin.
    rewrite RtoC_inv, RtoC_div by assumption. field. split; apply RtoC_neq; assumption.
  - now apply fftnorm_F.
Qed.

Lemma cdivp_coupled z ac p k : p k <> 0 ->
  cdivp z (coupled_psd ac p k) = (RtoC (if (ac && (k =? 0)%nat)%bool then 0 else / p k) * z)%C.
Proof.
  intros H. unfold coupled_psd. destruct (ac && (k =? 0)%nat)%bool; simpl.
  - ring.
  - rewrite RtoC_inv by exact H. unfold Cdiv. ring.
Qed.

Lemma rdivp_coupled x ac p k :
  rdivp x (coupled_psd ac p k) = (if (ac && (k =? 0)%nat)%bool then 0 else / p k) * x.
Proof.
  unfold coupled_psd. destruct (ac && (k =? 0)%nat)%bool; simpl; [ring|]. unfold Rdiv. ring.
Qed.

Lemma weight_split n fs p ac k : (0 < n)%nat -> fs <> 0 -> p k <> 0 ->
  (if (ac && (k =? 0)%nat)%bool then 0 else / p k) * (/ fs * / fs) * (fs / INR n) = bin_weight n fs p ac k.
Proof.
  intros Hn Hf Hp. unfold bin_weight. assert (INR n <> 0) by (apply INR_neq0; lia).
  destruct (ac && (k =? 0)%nat)%bool; [ring|]. field. auto.
Qed.

Lemma cis_tw n fs d k : (0 < n)%nat -> fs <> 0 -> (k < n)%nat ->
  cis (2 * PI * (IZR d / fs) * fftfreq n fs k) = tw n (d * Z.of_nat k).
Proof.
  intros Hn Hf Hk. rewrite <- tw_freqnum by exact Hk. unfold tw, fftfreq. f_equal.
  rewrite mult_IZR. field. split; [apply INR_neq0; lia|exact Hf].
Qed.

Lemma fst_cancel (N : R) (x y t : C) : N <> 0 -> (x * t)%C = y ->
  fst (x * RtoC N * t * RtoC (/ N))%C = fst y.
Proof.
  intros H <-. f_equal. rewrite RtoC_inv by exact H. field. now apply RtoC_neq.
Qed.

Section Fresh.
  Variables (n : nat) (signal template p : nat -> R) (fs0 : R) (ac inorm : bool).
  Hypothesis Hfit : fit_problem n template p fs0 ac inorm.
  Let T := used_template n fs0 template inorm.
  Let w := bin_weight n fs0 p ac.
  Let o := of_init n signal template p fs0 ac inorm.

  Let Hn : (0 < n)%nat. Proof. apply Hfit. Qed.
  Let Hf : 0 < fs0. Proof. apply Hfit. Qed.
  Let Hf0 : fs0 <> 0. Proof. lra. Qed.
  Let Hp : forall k, (k < n)%nat -> p k <> 0.
  Proof. intros k Hk. destruct Hfit as (_ & _ & H & _). specialize (H k Hk). lra. Qed.
  Let Hsum : inorm = true -> rsum n template <> 0. Proof. apply Hfit. Qed.
  Let HNn : INR n <> 0. Proof. apply INR_neq0, Hn. Qed.

  Lemma s_F k : s o k = (RtoC (/ fs0) * F n T k)%C.
  Proof. apply template_ft_F; auto. Qed.
  Lemma v_F k : v o k = (RtoC (/ fs0) * F n signal k)%C.
  Proof. apply fftnorm_F; auto. Qed.

  Lemma phi_F k : (k < n)%nat ->
    phi o k = (RtoC (if (ac && (k =? 0)%nat)%bool then 0 else / p k) * Cconj (s o k))%C.
  Proof. intros Hk. apply (cdivp_coupled (Cconj (s o k)) ac p k (Hp k Hk)). Qed.

  Lemma visible_used : visible n ac T.
  Proof.
    destruct Hfit as (_ & _ & _ & Hv & Hs). subst T. unfold used_template. destruct inorm; [|exact Hv].
    destruct Hv as (k & Hk & Ha & Hne). exists k. split; [exact Hk|]. split; [exact Ha|].
    change (F n (fun i => fs0 / rsum n template * template i) k <> RtoC 0).
    rewrite F_scale. apply Cmult_neq_0; [|exact Hne]. apply RtoC_neq.
    specialize (Hs eq_refl). unfold Rdiv. apply Rmult_integral_contrapositive_currified; [lra|].
    now apply Rinv_neq_0_compat.
  Qed.

  Lemma df_def : df o = fs0 / INR n. Proof. reflexivity. Qed.

  (** Every sum the filter forms is a weighted inner product. *)
  Lemma sum_wip (c x : nat -> C) X Y :
    (forall k, (k < n)%nat -> (c k * x k)%C =
       (RtoC ((if (ac && (k =? 0)%nat)%bool then 0 else / p k) * (/ fs0 * / fs0)) * (Cconj (F n X k) * F n Y k))%C) ->
    fst (csum n (fun k => c k * x k)%C) * (fs0 / INR n) = wip n w X Y.
  Proof.
    intros H. rewrite csum_fst, <- rsum_scal_r. apply rsum_ext. intros k Hk. rewrite H by exact Hk.
    change (w k) with (bin_weight n fs0 p ac k).
    rewrite <- (weight_split n fs0 p ac k Hn Hf0 (Hp k Hk)).
    simpl. ring.
  Qed.

  Lemma norm_wip : norm o = wip n w T T.
  Proof.
    change (norm o) with (fst (cdot n (phi o) (s o)) * (fs0 / INR n)).
    apply sum_wip. intros k Hk. rewrite phi_F, s_F by exact Hk.
    rewrite Cconj_mult, Cconj_R, !RtoC_mult. ring.
  Qed.

  Lemma norm_pos : 0 < norm o.
  Proof.
    rewrite norm_wip. apply wip_pos; [exact Hn|exact Hf|apply Hfit|apply visible_used].
  Qed.

  Lemma chi0_wip : fst (cdot n (fun k => cdivp (Cconj (v o k)) (psd o k)) (v o)) * df o
    = wchi2 n fs0 p ac signal.
  Proof.
    rewrite wchi2_wip. apply sum_wip. intros k Hk.
    change (psd o k) with (coupled_psd ac p k). rewrite cdivp_coupled by auto. rewrite v_F.
    rewrite Cconj_mult, Cconj_R, !RtoC_mult. ring.
  Qed.

  Lemma chi0_wip2 : fst (cdot n (fun k => cdivp (Cconj (v o k)) (psd o k)) (v o) * RtoC (df o))%C
    = wchi2 n fs0 p ac signal.
  Proof. rewrite <- chi0_wip. simpl. ring. Qed.

  Lemma chi0_sum : rsum n (fun k => rdivp (cn2 (v o k)) (psd o k)) * df o = wchi2 n fs0 p ac signal.
  Proof.
    rewrite wchi2_wip, <- rsum_scal_r. apply rsum_ext. intros k Hk.
    change (psd o k) with (coupled_psd ac p k). rewrite rdivp_coupled, v_F.
    rewrite cn2_scal. rewrite <- (weight_split n fs0 p ac k Hn Hf0 (Hp k Hk)).
    change (df o) with (fs0 / INR n). unfold cn2. simpl. ring.
  Qed.

  Lemma norm_neq : RtoC (norm o) <> RtoC 0.
  Proof. apply RtoC_neq. generalize norm_pos. lra. Qed.

  (** The filtered signal at delay [d]. *)
  Lemma filt_wip d :
    fst (csum n (fun k => signalfilt o k * tw n (d * Z.of_nat k))%C) * (fs0 / INR n)
    = wip n w (roll n d T) signal / norm o.
  Proof.
    assert (HN := norm_pos).
    replace (fst (csum n (fun k => signalfilt o k * tw n (d * Z.of_nat k))%C))
      with (fst (csum n (fun k => (phi o k * tw n (d * Z.of_nat k)) * v o k)%C) / norm o).
    - unfold Rdiv at 1. rewrite Rmult_assoc, (Rmult_comm (/ norm o)), <- Rmult_assoc.
      fold (Rdiv (fst (csum n (fun k => (phi o k * tw n (d * Z.of_nat k)) * v o k)%C) * (fs0 / INR n)) (norm o)).
      f_equal. apply sum_wip. intros k Hk.
      rewrite phi_F, s_F, v_F, F_roll, !Cconj_mult, Cconj_R, RtoC_mult, RtoC_mult by auto.
      rewrite <- tw_opp, Z.opp_involutive. ring.
    - unfold Rdiv. rewrite !csum_fst, <- rsum_scal_r. apply rsum_ext. intros k Hk.
      change (signalfilt o k) with (phi o k * v o k / RtoC (norm o))%C.
      unfold Cdiv. rewrite <- RtoC_inv by lra. simpl. ring.
  Qed.

  Lemma sftd_wip j : ifft_td n (df o) (signalfilt o) j = wip n w (roll n (Z.of_nat j) T) signal / norm o.
  Proof.
    rewrite <- filt_wip. unfold ifft_td, idft. change (df o) with (fs0 / INR n). f_equal.
    rewrite csum_fst. rewrite <- csum_scal_r, csum_fst. apply rsum_ext. intros k _.
    apply fst_cancel; [exact HNn|]. now rewrite (Z.mul_comm (Z.of_nat j)).
  Qed.

  Lemma template_td_wip d j : template_td n (df o) (phi o) (s o) (fftfreq n fs0) (IZR d / fs0) j
    = wip n w (roll n (Z.of_nat j) T) (roll n d T).
  Proof.
    unfold template_td, ifft_td, idft. change (df o) with (fs0 / INR n).
    rewrite <- (sum_wip (fun k => phi o k * tw n (Z.of_nat j * Z.of_nat k))%C
                 (fun k => tw n (- (d * Z.of_nat k)) * s o k)%C).
    - f_equal. rewrite <- csum_scal_r, !csum_fst. apply rsum_ext. intros k Hk.
      replace (-2 * PI * fftfreq n fs0 k * (IZR d / fs0)) with
        (2 * PI * (IZR (- d) / fs0) * fftfreq n fs0 k) by (rewrite opp_IZR; field; exact Hf0).
      rewrite cis_tw by auto. rewrite Z.mul_opp_l, (Z.mul_comm (Z.of_nat j)).
      apply fst_cancel; [exact HNn|]. ring.
    - intros k Hk. rewrite phi_F, s_F, !F_roll, !Cconj_mult, Cconj_R, RtoC_mult, RtoC_mult by auto.
      rewrite <- (tw_opp n (- (Z.of_nat j * Z.of_nat k))), Z.opp_involutive. ring.
  Qed.

  Lemma template_td0_wip j : ifft_td n (df o) (fun k => phi o k * s o k)%C j
    = wip n w (roll n (Z.of_nat j) T) T.
  Proof.
    unfold ifft_td, idft. change (df o) with (fs0 / INR n).
    rewrite <- (sum_wip (fun k => phi o k * tw n (Z.of_nat j * Z.of_nat k))%C (s o)).
    - f_equal. rewrite <- csum_scal_r, !csum_fst. apply rsum_ext. intros k Hk.
      rewrite (Z.mul_comm (Z.of_nat j)). apply fst_cancel; [exact HNn|]. ring.
    - intros k Hk. rewrite phi_F, s_F, F_roll, !Cconj_mult, Cconj_R, RtoC_mult, RtoC_mult by auto.
      rewrite <- (tw_opp n (- (Z.of_nat j * Z.of_nat k))), Z.opp_involutive. ring.
  Qed.
End Fresh.
