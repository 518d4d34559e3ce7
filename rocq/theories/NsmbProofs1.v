(** * Least squares in a finite-dimensional semi-inner-product space *)
From Coq Require Import Reals ZArith List Lia Lra.
From Verif Require Import Base Dft NsmbModel NsmbSpec.
From Coquelicot Require Import Coquelicot.
Import ListNotations.
Local Open Scope R_scope.

Lemma mv_ext k A B u v i : (forall j, (j < k)%nat -> A i j = B i j) -> (forall j, (j < k)%nat -> u j = v j) -> mv k A u i = mv k B v i.
Proof. intros H1 H2. apply rsum_ext. intros j Hj. now rewrite H1, H2. Qed.
Lemma vdot_ext k a b u v : (forall j, (j < k)%nat -> a j = u j) -> (forall j, (j < k)%nat -> b j = v j) -> vdot k a b = vdot k u v.
Proof. intros H1 H2. apply rsum_ext. intros j Hj. now rewrite H1, H2. Qed.
Lemma vdot_comm k a b : vdot k a b = vdot k b a.
Proof. apply rsum_ext. intros; ring. Qed.
Lemma mv_sub k A u v i : mv k A (fun j => u j - v j) i = mv k A u i - mv k A v i.
Proof. unfold mv. rewrite <- rsum_minus. apply rsum_ext. intros; ring. Qed.
Lemma mv_plus k A u v i : mv k A (fun j => u j + v j) i = mv k A u i + mv k A v i.
Proof. unfold mv. rewrite <- rsum_plus. apply rsum_ext. intros; ring. Qed.
Lemma vdot_sub_l k a b v : vdot k (fun j => a j - b j) v = vdot k a v - vdot k b v.
Proof. unfold vdot. rewrite <- rsum_minus. apply rsum_ext. intros; ring. Qed.
Lemma vdot_sub_r k a b v : vdot k v (fun j => a j - b j) = vdot k v a - vdot k v b.
Proof. unfold vdot. rewrite <- rsum_minus. apply rsum_ext. intros; ring. Qed.
Lemma vdot_mv_sym k A u v : (forall i j, (i < k)%nat -> (j < k)%nat -> A i j = A j i) -> vdot k u (mv k A v) = vdot k v (mv k A u).
Proof.
  intros H. unfold vdot, mv.
  rewrite (rsum_ext k (fun i => u i * _) (fun i => rsum k (fun j => u i * A i j * v j))).
  2: { intros i Hi. rewrite <- rsum_scal_l. apply rsum_ext. intros; ring. }
  rewrite rsum_swap. apply rsum_ext. intros j Hj. rewrite <- rsum_scal_l. apply rsum_ext. intros i Hi. rewrite (H i j Hi Hj). ring.
Qed.

(** A matrix that satisfies the first Penrose equation solves every consistent symmetric system. *)
Lemma penrose_solves k A X q : (forall i j, (i < k)%nat -> (j < k)%nat -> A i j = A j i) -> penrose k A X ->
  (forall u, (forall i, (i < k)%nat -> mv k A u i = 0) -> vdot k u q = 0) ->
  forall i, (i < k)%nat -> mv k A (mv k X q) i = q i.
Proof.
  intros HS HP HQ i Hi.
  set (u := fun l => (if (l =? i)%nat then 1 else 0) - rsum k (fun p => A i p * X p l)).
  assert (E : vdot k u q = 0).
  { apply HQ. intros j Hj. unfold mv, u.
    rewrite (rsum_ext k _ (fun l => (if (l =? i)%nat then A j i else 0) - rsum k (fun p => A i p * X p l) * A l j)).
    2: { intros l Hl. rewrite (HS j l Hj Hl). destruct (Nat.eqb_spec l i) as [->|]; [|ring]. rewrite (HS i j Hi Hj). ring. }
    rewrite rsum_minus, (rsum_single k _ i Hi).
    2: { intros l Hl Hn. destruct (Nat.eqb_spec l i); [contradiction|reflexivity]. }
    rewrite Nat.eqb_refl, (HP i j Hi Hj), (HS i j Hi Hj). ring. }
  unfold vdot, u in E.
  rewrite (rsum_ext k _ (fun l => (if (l =? i)%nat then q i else 0) - rsum k (fun p => A i p * X p l) * q l)) in E.
  2: { intros l Hl. destruct (Nat.eqb_spec l i) as [->|]; ring. }
  rewrite rsum_minus, (rsum_single k _ i Hi) in E.
  2: { intros l Hl Hn. destruct (Nat.eqb_spec l i); [contradiction|reflexivity]. }
  rewrite Nat.eqb_refl in E.
  replace (mv k A (mv k X q) i) with (rsum k (fun l => rsum k (fun p => A i p * X p l) * q l)); [lra|].
  unfold mv.
  rewrite (rsum_ext k (fun l => _ * q l) (fun l => rsum k (fun p => A i p * X p l * q l))).
  2: { intros l Hl. now rewrite <- rsum_scal_r. }
  rewrite rsum_swap. apply rsum_ext. intros p Hp. rewrite <- rsum_scal_l. apply rsum_ext. intros; ring.
Qed.

(** ** The weighted inner product of transforms *)
Section Gram.
Variables (nt : nat) (J : nat -> R).
Hypothesis HJ : forall f, (f < nt)%nat -> 0 < J f.

Definition ip (x y : nat -> C) : R := rsum nt (fun f => (fst (x f) * fst (y f) + snd (x f) * snd (y f)) / J f).
Definition lin (k : nat) (m : nat -> nat -> C) (a : nat -> R) (f : nat) : C := csum k (fun i => RtoC (a i) * m i f)%C.
Definition csub (x y : nat -> C) (f : nat) : C := (x f - y f)%C.

Lemma ip_sym x y : ip x y = ip y x.
Proof. apply rsum_ext. intros; unfold Rdiv; ring. Qed.
Lemma ip_ext x y x' y' : (forall f, (f < nt)%nat -> x f = x' f) -> (forall f, (f < nt)%nat -> y f = y' f) -> ip x y = ip x' y'.
Proof. intros H1 H2. apply rsum_ext. intros f Hf. now rewrite H1, H2. Qed.
Lemma ip_sub_l x y z : ip (csub x y) z = ip x z - ip y z.
Proof.
  unfold ip. rewrite <- rsum_minus. apply rsum_ext. intros f Hf. unfold csub. cbn [fst snd Cminus Cplus Copp]. unfold Rdiv. ring.
Qed.
Lemma ip_sub_r x y z : ip z (csub x y) = ip z x - ip z y.
Proof. rewrite ip_sym, ip_sub_l. now rewrite (ip_sym x), (ip_sym y). Qed.
Lemma ip_lin_l k m a y : ip (lin k m a) y = vdot k a (fun i => ip (m i) y).
Proof.
  unfold ip, lin, vdot.
  rewrite (rsum_ext nt _ (fun f => rsum k (fun i => a i * ((fst (m i f) * fst (y f) + snd (m i f) * snd (y f)) / J f)))).
  - rewrite rsum_swap. apply rsum_ext. intros i Hi. now rewrite rsum_scal_l.
  - intros f Hf. rewrite csum_fst, csum_snd. unfold Rdiv. rewrite <- !rsum_scal_r, <- rsum_plus, <- rsum_scal_r.
    apply rsum_ext. intros i Hi. unfold Cmult, RtoC. cbn [fst snd]. ring.
Qed.
Lemma ip_lin_r k m a y : ip y (lin k m a) = vdot k a (fun i => ip y (m i)).
Proof. rewrite ip_sym, ip_lin_l. apply vdot_ext; intros; [reflexivity|apply ip_sym]. Qed.
Lemma ip_self x : ip x x = rsum nt (fun f => cn2 (x f) / J f).
Proof. reflexivity. Qed.
Lemma ip_self_nonneg x : 0 <= ip x x.
Proof. apply rsum_nonneg. intros f Hf. apply Rmult_le_pos; [apply cn2_nonneg|left; now apply Rinv_0_lt_compat, HJ]. Qed.
Lemma ip_null x y : ip x x = 0 -> ip x y = 0.
Proof.
  intros H. assert (Z : forall f, (f < nt)%nat -> x f = RtoC 0).
  { intros f Hf. apply cn2_zero.
    assert (E := rsum_nonneg_zero nt (fun f => cn2 (x f) / J f)).
    assert (P : forall k, (k < nt)%nat -> 0 <= cn2 (x k) / J k).
    { intros k Hk. apply Rmult_le_pos; [apply cn2_nonneg|left; now apply Rinv_0_lt_compat, HJ]. }
    specialize (E P H f Hf). specialize (HJ f Hf). apply Rmult_integral in E. destruct E as [E|E]; [exact E|].
    exfalso. assert (0 < / J f) by now apply Rinv_0_lt_compat. lra. }
  unfold ip. rewrite (rsum_ext nt _ (fun _ => 0)); [apply rsum_zero|]. intros f Hf. rewrite (Z f Hf). cbn [fst snd RtoC]. unfold Rdiv. ring.
Qed.

Variables (k : nat) (m : nat -> nat -> C).
Definition gram (i j : nat) : R := ip (m i) (m j).

Lemma gram_sym i j : gram i j = gram j i.
Proof. apply ip_sym. Qed.
Lemma gram_lin a : vdot k a (mv k gram a) = ip (lin k m a) (lin k m a).
Proof.
  rewrite ip_lin_l. apply vdot_ext; [reflexivity|]. intros i Hi. rewrite ip_lin_r. unfold mv, vdot, gram. apply rsum_ext. intros; ring.
Qed.
Lemma gram_psd : psd_matrix k gram.
Proof.
  split; [intros; apply gram_sym|]. intros v. assert (H := gram_lin v). unfold vdot, mv in H. rewrite H. apply ip_self_nonneg.
Qed.

Lemma psd_ext A B : (forall i j, (i < k)%nat -> (j < k)%nat -> A i j = B i j) -> psd_matrix k A -> psd_matrix k B.
Proof.
  intros H [S P]. split.
  - intros i j Hi Hj. rewrite <- !H by assumption. now apply S.
  - intros v. specialize (P v). rewrite (rsum_ext k _ (fun i => v i * rsum k (fun j => B i j * v j))) in P; [exact P|].
    intros i Hi. f_equal. apply rsum_ext. intros j Hj. now rewrite H.
Qed.

(** The normal equations of a Gram matrix *)
Lemma gram_solves X D A : (forall i j, (i < k)%nat -> (j < k)%nat -> A i j = gram i j) -> penrose k A X ->
  forall q, (forall i, (i < k)%nat -> q i = ip (m i) D) ->
  forall i, (i < k)%nat -> mv k gram (mv k X q) i = q i.
Proof.
  intros HA HP q Hq i Hi.
  rewrite <- (penrose_solves k A X q); [|intros a b Ha Hb; rewrite !HA by assumption; apply gram_sym|exact HP| |exact Hi].
  - apply mv_ext; [|reflexivity]. intros j Hj. now rewrite HA.
  - intros u Hu. rewrite (vdot_ext k u q u (fun i => ip (m i) D)); [|reflexivity|exact Hq].
    rewrite <- ip_lin_l. apply ip_null. rewrite <- gram_lin.
    rewrite (vdot_ext k u _ u (fun _ => 0)); [|reflexivity|].
    + unfold vdot. rewrite (rsum_ext k _ (fun _ => 0)); [apply rsum_zero|intros; ring].
    + intros j Hj. rewrite <- (Hu j Hj). apply mv_ext; [|reflexivity]. intros l Hl. symmetry. now apply HA.
Qed.

Variable D : nat -> C.
Definition nq (i : nat) : R := ip (m i) D.
Definition err (a : nat -> R) : R := ip (csub D (lin k m a)) (csub D (lin k m a)).

Lemma err_expand a : err a = ip D D - 2 * vdot k a nq + vdot k a (mv k gram a).
Proof.
  unfold err. rewrite ip_sub_l, !ip_sub_r, (ip_sym D (lin k m a)), <- gram_lin.
  rewrite ip_lin_l. change (fun i => ip (m i) D) with nq. ring.
Qed.
(** Difference of two errors: a square and the gradient term *)
Lemma err_diff a b : err b - err a =
  vdot k (fun i => b i - a i) (mv k gram (fun i => b i - a i)) - 2 * vdot k (fun i => b i - a i) (fun i => nq i - mv k gram a i).
Proof.
  rewrite !err_expand.
  rewrite (vdot_ext k (fun i => b i - a i) (mv k gram (fun i => b i - a i)) (fun i => b i - a i) (fun i => mv k gram b i - mv k gram a i)).
  2: reflexivity. 2: intros; apply mv_sub.
  rewrite !vdot_sub_l, !vdot_sub_r.
  rewrite (vdot_mv_sym k gram a b) by (intros; apply gram_sym). ring.
Qed.
Lemma err_min a : (forall i, (i < k)%nat -> mv k gram a i = nq i) -> forall b, err a <= err b.
Proof.
  intros H b. assert (E := err_diff a b).
  rewrite (vdot_ext k _ (fun i => nq i - mv k gram a i) (fun i => b i - a i) (fun _ => 0)) in E; [|reflexivity|intros i Hi; rewrite H by assumption; ring].
  rewrite gram_lin in E. assert (Z : vdot k (fun i => b i - a i) (fun _ => 0) = 0).
  { unfold vdot. rewrite (rsum_ext k _ (fun _ => 0)); [apply rsum_zero|intros; ring]. }
  rewrite Z in E. assert (P := ip_self_nonneg (lin k m (fun i => b i - a i))). lra.
Qed.
Lemma err_value a : (forall i, (i < k)%nat -> mv k gram a i = nq i) -> err a = ip D D - vdot k a nq.
Proof.
  intros H. rewrite err_expand. rewrite (vdot_ext k a (mv k gram a) a nq); [ring|reflexivity|exact H].
Qed.
(** Optimality under sign constraints *)
Lemma err_kkt a : forall con : nat -> R,
  (forall i, (i < k)%nat -> (a i - 0) * (nq i - mv k gram a i) = 0) ->
  (forall i, (i < k)%nat -> nq i - mv k gram a i <> 0 -> con i = 1 /\ nq i - mv k gram a i < 0 \/ con i = -1 /\ 0 < nq i - mv k gram a i) ->
  forall b, (forall i, (i < k)%nat -> obeys (con i) (b i)) -> err a <= err b.
Proof.
  intros con H1 H2 b Hb. assert (E := err_diff a b). rewrite gram_lin in E.
  assert (P := ip_self_nonneg (lin k m (fun i => b i - a i))).
  assert (G : vdot k (fun i => b i - a i) (fun i => nq i - mv k gram a i) <= 0).
  { unfold vdot. rewrite <- (rsum_zero k). apply rsum_le. intros i Hi. specialize (H1 i Hi). specialize (Hb i Hi).
    destruct (Req_dec (nq i - mv k gram a i) 0) as [Z|Z]; [rewrite Z; lra|].
    replace ((b i - a i) * (nq i - mv k gram a i)) with (b i * (nq i - mv k gram a i)) by lra.
    destruct (H2 i Hi Z) as [[C N]|[C N]]; destruct Hb as [B1 B2].
    - specialize (B1 C). nra.
    - specialize (B2 C). nra. }
  lra.
Qed.
End Gram.
