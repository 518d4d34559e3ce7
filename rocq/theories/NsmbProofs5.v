(** * A generalised inverse, and worked inputs with flat noise *)
From Coq Require Import Reals ZArith List Lia Lra Bool.
From Verif Require Import Base ListLemmas Dft WindowModel WindowProofs OFFreeModel OFProofs8 NsmbModel NsmbSpec NsmbProofs1 NsmbProofs2 NsmbProofs3 NsmbProofs4.
From Coquelicot Require Import Coquelicot.
Import ListNotations.
Local Open Scope R_scope.

(** ** A generalised inverse of positive semi-definite matrices, by elimination of the last row *)
Definition schur (k : nat) (A : nat -> nat -> R) (i j : nat) : R := A i j - A i k * A k j / A k k.
Fixpoint ginv (k : nat) (A : nat -> nat -> R) (i j : nat) : R :=
  match k with
  | O => 0
  | S k =>
      if Reqb (A k k) 0 then
        (if ((i =? k)%nat || (j =? k)%nat) then 0 else ginv k A i j)
      else
        let Y := ginv k (schur k A) in
        if (i =? k)%nat then
          if (j =? k)%nat then / A k k + rsum k (fun p => rsum k (fun l => A k p * Y p l * A l k)) / (A k k * A k k)
          else - rsum k (fun p => A k p * Y p j) / A k k
        else if (j =? k)%nat then - rsum k (fun l => Y i l * A l k) / A k k
        else Y i j
  end.

Definition indic (n : nat) (x : R) (i : nat) : R := if (i =? n)%nat then x else 0.
Lemma rsum_indic K n x g : (n < K)%nat -> rsum K (fun i => g i * indic n x i) = g n * x.
Proof.
  intros H. rewrite (rsum_single K _ n H); unfold indic.
  - now rewrite Nat.eqb_refl.
  - intros k Hk Hn. destruct (Nat.eqb_spec k n); [contradiction|ring].
Qed.
Lemma psd_two k A i n x y : psd_matrix k A -> (i < k)%nat -> (n < k)%nat ->
  0 <= A i i * x * x + 2 * A i n * x * y + A n n * y * y.
Proof.
  intros [Hs Hp] Hi Hn. specialize (Hp (fun j => indic i x j + indic n y j)).
  assert (R1 : forall r, rsum k (fun j => A r j * (indic i x j + indic n y j)) = A r i * x + A r n * y).
  { intros r. rewrite (rsum_ext k _ (fun j => A r j * indic i x j + A r j * indic n y j)) by (intros; ring).
    rewrite rsum_plus, !rsum_indic by assumption. reflexivity. }
  rewrite (rsum_ext k _ (fun r => (A r i * x + A r n * y) * indic i x r + (A r i * x + A r n * y) * indic n y r)) in Hp
    by (intros; rewrite R1; ring).
  rewrite rsum_plus, !rsum_indic in Hp by assumption. rewrite (Hs n i Hn Hi) in Hp. lra.
Qed.
Lemma psd_zero_col k A i n : psd_matrix k A -> (i < k)%nat -> (n < k)%nat -> A n n = 0 -> A i n = 0.
Proof.
  intros HA Hi Hn Z. destruct (Req_dec (A i n) 0) as [|NE]; [assumption|exfalso].
  assert (P := psd_two k A i n 1 (- (A i i + 1) / (2 * A i n)) HA Hi Hn). rewrite Z in P.
  replace (A i i * 1 * 1 + 2 * A i n * 1 * (- (A i i + 1) / (2 * A i n)) + 0 * (- (A i i + 1) / (2 * A i n)) * (- (A i i + 1) / (2 * A i n)))
    with (-1) in P by (field; exact NE). lra.
Qed.
Lemma psd_sub k A : psd_matrix (S k) A -> psd_matrix k A.
Proof.
  intros [Hs Hp]. split; [intros; apply Hs; lia|]. intros v.
  specialize (Hp (fun i => if (i =? k)%nat then 0 else v i)). cbn [rsum] in Hp. rewrite Nat.eqb_refl in Hp.
  rewrite (rsum_ext k _ (fun i => v i * rsum k (fun j => A i j * v j))) in Hp; [lra|].
  intros i Hi. destruct (Nat.eqb_spec i k); [lia|]. f_equal. rewrite Rmult_0_r, Rplus_0_r. apply rsum_ext. intros j Hj. destruct (Nat.eqb_spec j k); [lia|reflexivity].
Qed.
Lemma psd_schur k A : psd_matrix (S k) A -> A k k <> 0 -> psd_matrix k (schur k A).
Proof.
  intros [Hs Hp] NZ. split.
  - intros i j Hi Hj. unfold schur. rewrite (Hs i j), (Hs i k), (Hs k j) by lia. unfold Rdiv. ring.
  - intros v. set (c := rsum k (fun j => A k j * v j)). specialize (Hp (fun i => if (i =? k)%nat then - c / A k k else v i)).
    cbn [rsum] in Hp. rewrite Nat.eqb_refl in Hp.
    assert (R1 : forall i, rsum k (fun j => A i j * (if (j =? k)%nat then - c / A k k else v j)) = rsum k (fun j => A i j * v j)).
    { intros i. apply rsum_ext. intros j Hj. destruct (Nat.eqb_spec j k); [lia|reflexivity]. }
    rewrite R1 in Hp. fold c in Hp.
    rewrite (rsum_ext k _ (fun i => v i * rsum k (fun j => A i j * v j) + (A k i * v i) * (- c / A k k))) in Hp.
    + rewrite rsum_plus, rsum_scal_r in Hp. fold c in Hp.
      rewrite (rsum_ext k _ (fun i => v i * rsum k (fun j => A i j * v j) + (A k i * v i) * (- c / A k k))).
      * rewrite rsum_plus, rsum_scal_r. fold c. replace (- c / A k k * (c + A k k * (- c / A k k))) with 0 in Hp by (field; exact NZ). lra.
      * intros i Hi. unfold schur. rewrite (rsum_ext k _ (fun j => A i j * v j + (A k j * v j) * (- A i k / A k k))).
        -- rewrite rsum_plus, rsum_scal_r. fold c. rewrite (Hs i k) by lia. unfold Rdiv. ring.
        -- intros j Hj. unfold Rdiv. ring.
    + intros i Hi. destruct (Nat.eqb_spec i k); [lia|]. rewrite R1, (Hs i k) by lia. ring.
Qed.

Lemma mulmul k (A X B : nat -> nat -> R) i j :
  rsum k (fun l => rsum k (fun p => A i p * X p l) * B l j) = rsum k (fun p => A i p * rsum k (fun l => X p l * B l j)).
Proof.
  rewrite (rsum_ext k _ (fun l => rsum k (fun p => A i p * X p l * B l j))) by (intros; symmetry; apply rsum_scal_r).
  rewrite rsum_swap. apply rsum_ext. intros p Hp. rewrite <- rsum_scal_l. apply rsum_ext. intros; ring.
Qed.

Lemma ginv_ok : pinv_ok ginv.
Proof.
  unfold pinv_ok. induction k as [|k IH]; intros A HA; [intros i j Hi; lia|].
  intros i j Hi Hj. rewrite mulmul. cbn [ginv]. destruct (Reqb_spec (A k k) 0) as [Z|NZ].
  - (* zero row *)
    assert (ZC : forall i, (i < S k)%nat -> A i k = 0) by (intros r Hr; apply (psd_zero_col (S k) A r k HA); [exact Hr|lia|exact Z]).
    assert (ZR : forall j, (j < S k)%nat -> A k j = 0) by (intros c Hc; rewrite (proj1 HA k c) by lia; now apply ZC).
    cbn [rsum]. rewrite (ZC i Hi), Rmult_0_l, Rplus_0_r.
    specialize (IH A (psd_sub k A HA)). unfold penrose in IH.
    rewrite (rsum_ext k _ (fun p => A i p * rsum k (fun l => ginv k A p l * A l j))).
    + destruct (Nat.eq_dec i k) as [->|Ni].
      * rewrite (ZR j Hj). rewrite (rsum_ext k _ (fun _ => 0)); [apply rsum_zero|]. intros p Hp. rewrite (ZR p) by lia. ring.
      * destruct (Nat.eq_dec j k) as [->|Nj].
        -- rewrite (ZC i Hi). rewrite (rsum_ext k _ (fun _ => 0)); [apply rsum_zero|]. intros p Hp.
           rewrite (rsum_ext k _ (fun _ => 0)); [rewrite rsum_zero; ring|]. intros l Hl. rewrite (ZC l) by lia. ring.
        -- rewrite <- mulmul. apply IH; lia.
    + intros p Hp. f_equal. destruct (Nat.eqb_spec p k); [lia|]. cbn [orb]. rewrite Nat.eqb_refl, Rmult_0_l, Rplus_0_r.
      apply rsum_ext. intros l Hl. destruct (Nat.eqb_spec l k); [lia|]. reflexivity.
  - set (Y := ginv k (schur k A)). set (al := A k k) in *. specialize (IH (schur k A) (psd_schur k A HA NZ)). fold Y in IH.
    set (YS := fun p j => rsum k (fun l => Y p l * schur k A l j)).
    assert (HYS : forall i j, (i < k)%nat -> (j < k)%nat -> rsum k (fun p => schur k A i p * YS p j) = schur k A i j).
    { intros r c Hr Hc. unfold YS. rewrite <- mulmul. now apply IH. }
    set (X := fun p l : nat => if (p =? k)%nat then
          if (l =? k)%nat then / al + rsum k (fun p0 => rsum k (fun l0 => A k p0 * Y p0 l0 * A l0 k)) / (al * al)
          else - rsum k (fun p0 => A k p0 * Y p0 l) / al
        else if (l =? k)%nat then - rsum k (fun l0 => Y p l0 * A l0 k) / al else Y p l).
    change (rsum (S k) (fun p => A i p * rsum (S k) (fun l => X p l * A l j)) = A i j).
    (* X A, row by row *)
    assert (Yc : forall p, rsum k (fun l => Y p l * A l j) - rsum k (fun l => Y p l * A l k) / al * A k j = YS p j).
    { intros p. unfold YS, Rdiv. rewrite !Rmult_assoc, <- rsum_scal_r, <- rsum_minus. apply rsum_ext. intros l Hl. unfold schur, Rdiv. fold al. ring. }
    assert (top : forall p, (p < k)%nat -> rsum (S k) (fun l => X p l * A l j) = YS p j).
    { intros p Hp. cbn [rsum]. unfold X at 2. destruct (Nat.eqb_spec p k); [lia|]. rewrite Nat.eqb_refl. rewrite <- (Yc p).
      rewrite (rsum_ext k _ (fun l => Y p l * A l j)); [unfold Rdiv; ring|]. intros l Hl. unfold X.
      destruct (Nat.eqb_spec p k); [lia|]. destruct (Nat.eqb_spec l k); [lia|reflexivity]. }
    assert (bot : rsum (S k) (fun l => X k l * A l j) = A k j / al - rsum k (fun p => A k p * YS p j) / al).
    { cbn [rsum]. unfold X at 2. rewrite !Nat.eqb_refl.
      rewrite (rsum_ext k _ (fun l => (- / al) * rsum k (fun p0 => A k p0 * Y p0 l * A l j))).
      - rewrite rsum_scal_l, rsum_swap.
        rewrite (rsum_ext k (fun p => A k p * YS p j) (fun p => rsum k (fun l => A k p * Y p l * A l j) - rsum k (fun l => A k p * Y p l * A l k) * (/ al * A k j))).
        + rewrite rsum_minus, rsum_scal_r. field. exact NZ.
        + intros p Hp. rewrite <- (Yc p). rewrite Rmult_minus_distr_l. f_equal.
          * rewrite <- rsum_scal_l. apply rsum_ext. intros; ring.
          * unfold Rdiv. rewrite Rmult_assoc, <- Rmult_assoc. f_equal. rewrite <- rsum_scal_l. apply rsum_ext. intros; ring.
      - intros l Hl. unfold X. rewrite Nat.eqb_refl. destruct (Nat.eqb_spec l k); [lia|]. rewrite rsum_scal_r. unfold Rdiv. ring. }
    cbn [rsum] in *. rewrite (rsum_ext k _ (fun p => A i p * YS p j)) by (intros p Hp; now rewrite top). rewrite bot.
    assert (YSk : j = k -> forall p, YS p j = 0).
    { intros -> p. unfold YS. rewrite (rsum_ext k _ (fun _ => 0)); [apply rsum_zero|]. intros l Hl. unfold schur. fold al. field. exact NZ. }
    destruct (Nat.eq_dec i k) as [->|Ni].
    + fold al. field. exact NZ.
    + destruct (Nat.eq_dec j k) as [E|Nj].
      * assert (Z : forall r, rsum k (fun p => A r p * YS p j) = 0).
        { intros r. rewrite (rsum_ext k _ (fun _ => 0)); [apply rsum_zero|]. intros p Hp. rewrite (YSk E). ring. }
        rewrite !Z, E. fold al. field. exact NZ.
      * assert (H := HYS i j ltac:(lia) ltac:(lia)). unfold schur in H at 1 2. fold al in H.
        rewrite (rsum_ext k _ (fun p => A i p * YS p j - (A k p * YS p j) * (A i k / al))) in H by (intros; unfold Rdiv; ring).
        rewrite rsum_minus, rsum_scal_r in H.
        replace (rsum k (fun p => A i p * YS p j) + A i k * (A k j / al - rsum k (fun p => A k p * YS p j) / al))
          with (rsum k (fun p => A i p * YS p j) - rsum k (fun p => A k p * YS p j) * (A i k / al) + A i k * A k j / al) by (unfold Rdiv; ring).
        rewrite H. ring.
Qed.

(** Quadratic interpolation *)
Definition lagrange (x y : list R) : R * R * R :=
  let x0 := nth 0 x 0 in let x1 := nth 1 x 0 in let x2 := nth 2 x 0 in
  let y0 := nth 0 y 0 in let y1 := nth 1 y 0 in let y2 := nth 2 y 0 in
  let c0 := y0 / ((x0 - x1) * (x0 - x2)) in
  let c1 := y1 / ((x1 - x0) * (x1 - x2)) in
  let c2 := y2 / ((x2 - x0) * (x2 - x1)) in
  (c0 + c1 + c2, - (c0 * (x1 + x2) + c1 * (x0 + x2) + c2 * (x0 + x1)), c0 * x1 * x2 + c1 * x0 * x2 + c2 * x0 * x1).
Lemma lagrange_ok : polyfit_ok lagrange.
Proof. intros x0 x1 x2 y0 y1 y2 H1 H2 H3. unfold lagrange. cbn [nth]. repeat split; field; repeat split; lra. Qed.

(** ** Flat noise and a constant signal: inner products in the time domain *)
Section Flat.
Variables (pinv : nat -> (nat -> nat -> R) -> nat -> nat -> R) (nt : nat) (bs : list (nat -> R)).
Hypothesis Hnt : (2 <= nt)%nat.
Hypothesis Hpinv : pinv_ok pinv.
Let s : nat -> R := fun _ => 1.
Let psd : nat -> R := fun _ => 1.
Let fs := INR nt.
Let J := jnoise nt psd fs.
Let T := tvec nt s bs.
Let K := (1 + length bs)%nat.

Lemma flat_fs : 0 < fs.
Proof. apply lt_0_INR. lia. Qed.
Lemma flat_J f : J f = 1.
Proof. unfold J, jnoise, dnu, psd. assert (H := flat_fs). fold fs. field. lra. Qed.
Lemma ip_time x y : ip nt J (fftn nt x) (fftn nt y) = rsum nt (fun t => x t * y t) / INR nt.
Proof.
  assert (H := flat_fs). unfold fs in H. unfold ip.
  rewrite (rsum_ext nt _ (fun f => fst (dft nt (fun t => RtoC (x t)) (Z.of_nat f) * Cconj (dft nt (fun t => RtoC (y t)) (Z.of_nat f)))%C * (/ INR nt * / INR nt))).
  - rewrite rsum_scal_r. assert (P := plancherel nt (fun t => RtoC (x t)) (fun t => RtoC (y t)) ltac:(lia)).
    apply (f_equal fst) in P. rewrite csum_fst in P. rewrite P. cbn [fst Cmult RtoC].
    rewrite csum_fst. rewrite (rsum_ext nt _ (fun t => x t * y t)); [|intros; unfold Cmult, Cconj, RtoC; simpl; ring].
    unfold Cmult, RtoC; simpl. field. lra.
  - intros f Hf. rewrite flat_J. unfold fftn. destruct (dft nt (fun t => RtoC (x t)) _) as [a b]. destruct (dft nt (fun t => RtoC (y t)) _) as [c d].
    unfold Cdiv. rewrite <- RtoC_inv by lra. unfold Cmult, Cconj, RtoC. simpl. field. lra.
Qed.
Lemma tvec_flat d k f : (f < nt)%nat -> T d k f = fftn nt (sb_time s bs k) f.
Proof.
  intros Hf. unfold T, tvec. destruct (Nat.ltb_spec k ns) as [L|L]; [|reflexivity].
  assert (k = 0)%nat by (unfold ns in L; lia). subst k.
  assert (E := fftn_model nt s bs Hnt (fun k => if (k =? 0)%nat then 1 else 0) d f).
  unfold lin in E. rewrite csum_first in E. unfold tvec in E at 1. cbn [Nat.eqb Nat.ltb Nat.leb ns] in E.
  rewrite (csum_ext (length bs) _ (fun _ => RtoC 0)) in E by (intros; cbn [Nat.eqb]; apply Cmult_0_l).
  rewrite csum_zero, Cplus_0_r, Cmult_1_l in E. etransitivity; [symmetry; exact E|]. apply fftn_ext. intros t Ht. unfold sb_model. cbn [Nat.eqb sb_time].
  rewrite (rsum_ext _ _ (fun _ => 0)) by (intros; ring). rewrite rsum_zero. unfold s. ring.
Qed.
Lemma gram_flat d i j : gram nt J (T d) i j = rsum nt (fun t => sb_time s bs i t * sb_time s bs j t) / INR nt.
Proof. rewrite <- ip_time. apply ip_ext; intros; now apply tvec_flat. Qed.
Lemma nq_flat pulse d i : nq nt J (T d) (fftn nt pulse) i = rsum nt (fun t => sb_time s bs i t * pulse t) / INR nt.
Proof. unfold nq. rewrite <- ip_time. apply ip_ext; intros; [now apply tvec_flat|reflexivity]. Qed.
End Flat.
