(** * Shared conventions: Python exceptions as values, Python slices, finite sums

    This file models no function of /repo by itself; it fixes the vocabulary in
    which the models are written. *)
From Coq Require Export List ZArith Bool Lia.
From Coq Require Export Reals Lra.
Export ListNotations.

(** ** Exceptions as values *)

(** The Python exceptions that occur on the modelled paths. *)
Inductive exn : Set :=
| ValueError | IndexError | TypeError | NameError | AttributeError
| ZeroDivisionError | KeyError | LinAlgError.

(** Outcome of a Python call: a value, or a raised exception. *)
Inductive res (A : Type) : Type :=
| Ok (a : A)
| Err (e : exn).
Arguments Ok {A} a.
Arguments Err {A} e.

(** Sequencing of Python statements: an exception aborts what follows. *)
Definition bind {A B} (m : res A) (f : A -> res B) : res B :=
  match m with Ok a => f a | Err e => Err e end.
Notation "'do' x <- m ; f" := (bind m (fun x => f))
  (at level 200, x name, m at level 100, f at level 200).

(** ** Python slices [l[lo:hi]] with possibly negative bounds *)

(** Clamping of one slice bound, as CPython's [PySlice_AdjustIndices] does. *)
Definition slice_bound (n i : Z) : Z :=
  if (i <? 0)%Z then Z.max 0 (i + n) else Z.min i n.

(** [l[lo:hi]] *)
Definition pyslice {A} (l : list A) (lo hi : Z) : list A :=
  let n := Z.of_nat (length l) in
  let a := slice_bound n lo in
  let b := slice_bound n hi in
  firstn (Z.to_nat (b - a)) (skipn (Z.to_nat a) l).

(** [l[i]] with Python's negative index convention. *)
Definition pyindex {A} (l : list A) (i : Z) : res A :=
  let n := Z.of_nat (length l) in
  let j := if (i <? 0)%Z then (i + n)%Z else i in
  if (j <? 0)%Z then Err IndexError
  else match nth_error l (Z.to_nat j) with Some a => Ok a | None => Err IndexError end.

(** [np.array([f(0), ..., f(n-1)])] *)
Definition mk {A} (n : nat) (f : nat -> A) : list A := map f (seq 0 n).

Lemma mk_length {A} n (f : nat -> A) : length (mk n f) = n.
Proof. unfold mk; now rewrite map_length, seq_length. Qed.

Lemma mk_nth_error {A} n (f : nat -> A) k :
  nth_error (mk n f) k = if (k <? n)%nat then Some (f k) else None.
Proof.
  unfold mk. rewrite nth_error_map.
  destruct (Nat.ltb_spec k n) as [H|H].
  - rewrite (nth_error_nth' _ 0%nat) by now rewrite seq_length.
    rewrite seq_nth by exact H. reflexivity.
  - destruct (nth_error (seq 0 n) k) eqn:E; [|reflexivity].
    exfalso. assert (nth_error (seq 0 n) k <> None) as E' by congruence.
    apply nth_error_Some in E'. rewrite seq_length in E'. lia.
Qed.

Lemma mk_nth {A} n (f : nat -> A) k d : (k < n)%nat -> nth k (mk n f) d = f k.
Proof.
  intros H. unfold mk.
  rewrite (nth_indep _ d (f 0%nat)) by now rewrite map_length, seq_length.
  rewrite map_nth. now rewrite seq_nth.
Qed.

Lemma mk_ext {A} n (f g : nat -> A) :
  (forall k, (k < n)%nat -> f k = g k) -> mk n f = mk n g.
Proof.
  intros H. unfold mk. apply map_ext_in. intros k Hk.
  apply in_seq in Hk. apply H. lia.
Qed.

Lemma mk_S {A} n (f : nat -> A) : mk (S n) f = mk n f ++ [f n].
Proof. unfold mk. rewrite seq_S, map_app. reflexivity. Qed.

Lemma mk_of_list {A} (l : list A) d : l = mk (length l) (fun k => nth k l d).
Proof.
  apply nth_ext with (d := d) (d' := d).
  - now rewrite mk_length.
  - intros k Hk. now rewrite mk_nth.
Qed.

(** ** Finite sums of reals *)

(** [sum(f(k) for k in range(n))] *)
Fixpoint rsum (n : nat) (f : nat -> R) : R :=
  match n with
  | O => 0
  | S k => rsum k f + f k
  end%R.

(** [np.sum] of a real array *)
Definition lsum (l : list R) : R := fold_right Rplus 0%R l.

(** [np.mean] of a real array (nan for an empty one in numpy; 0/0 here, all uses
    exclude the empty array by hypothesis or by an explicit branch). *)
Definition lmean (l : list R) : R := (lsum l / INR (length l))%R.

Local Open Scope R_scope.

Lemma rsum_ext n f g : (forall k, (k < n)%nat -> f k = g k) -> rsum n f = rsum n g.
Proof.
  induction n as [|n IH]; intros H; simpl; [reflexivity|].
  rewrite IH by (intros k Hk; apply H; lia). rewrite H by lia. reflexivity.
Qed.

Lemma rsum_plus n f g : rsum n (fun k => f k + g k) = rsum n f + rsum n g.
Proof. induction n as [|n IH]; simpl; [ring|]. rewrite IH. ring. Qed.

Lemma rsum_minus n f g : rsum n (fun k => f k - g k) = rsum n f - rsum n g.
Proof. induction n as [|n IH]; simpl; [ring|]. rewrite IH. ring. Qed.

Lemma rsum_scal_l n c f : rsum n (fun k => c * f k) = c * rsum n f.
Proof. induction n as [|n IH]; simpl; [ring|]. rewrite IH. ring. Qed.

Lemma rsum_scal_r n c f : rsum n (fun k => f k * c) = rsum n f * c.
Proof. induction n as [|n IH]; simpl; [ring|]. rewrite IH. ring. Qed.

Lemma rsum_opp n f : rsum n (fun k => - f k) = - rsum n f.
Proof. induction n as [|n IH]; simpl; [ring|]. rewrite IH. ring. Qed.

Lemma rsum_const n c : rsum n (fun _ => c) = INR n * c.
Proof. induction n as [|n IH]; simpl rsum; [simpl; ring|]. rewrite IH, S_INR. ring. Qed.

Lemma rsum_zero n : rsum n (fun _ => 0) = 0.
Proof. rewrite rsum_const. ring. Qed.

Lemma rsum_nonneg n f : (forall k, (k < n)%nat -> 0 <= f k) -> 0 <= rsum n f.
Proof.
  induction n as [|n IH]; intros H; simpl; [lra|].
  assert (0 <= rsum n f) by (apply IH; intros; apply H; lia).
  assert (0 <= f n) by (apply H; lia). lra.
Qed.

Lemma rsum_le n f g : (forall k, (k < n)%nat -> f k <= g k) -> rsum n f <= rsum n g.
Proof.
  induction n as [|n IH]; intros H; simpl; [lra|].
  assert (rsum n f <= rsum n g) by (apply IH; intros; apply H; lia).
  assert (f n <= g n) by (apply H; lia). lra.
Qed.

Lemma rsum_nonneg_zero n f :
  (forall k, (k < n)%nat -> 0 <= f k) -> rsum n f = 0 ->
  forall k, (k < n)%nat -> f k = 0.
Proof.
  induction n as [|n IH]; intros H H0 k Hk; [lia|].
  simpl in H0.
  assert (0 <= rsum n f) by (apply rsum_nonneg; intros; apply H; lia).
  assert (0 <= f n) by (apply H; lia).
  destruct (Nat.eq_dec k n) as [->|Hne]; [lra|].
  apply IH; [intros; apply H; lia | lra | lia].
Qed.

Lemma rsum_split n m f : rsum (n + m) f = rsum n f + rsum m (fun k => f (n + k)%nat).
Proof.
  induction m as [|m IH]; simpl.
  - rewrite Nat.add_0_r. ring.
  - rewrite Nat.add_succ_r. simpl. rewrite IH. ring.
Qed.

Lemma rsum_S_first n f : rsum (S n) f = f 0%nat + rsum n (fun k => f (S k)).
Proof. change (S n) with (1 + n)%nat. rewrite rsum_split. simpl. ring. Qed.

Lemma rsum_swap n m (f : nat -> nat -> R) :
  rsum n (fun i => rsum m (fun j => f i j)) = rsum m (fun j => rsum n (fun i => f i j)).
Proof.
  induction n as [|n IH]; simpl.
  - now rewrite rsum_zero.
  - rewrite IH, <- rsum_plus. reflexivity.
Qed.

Lemma rsum_rev n f : rsum n f = rsum n (fun k => f (n - 1 - k)%nat).
Proof.
  revert f. induction n as [|n IH]; intros f; [reflexivity|].
  rewrite rsum_S_first. simpl. rewrite IH.
  rewrite Rplus_comm. f_equal.
  - apply rsum_ext. intros k Hk. f_equal. lia.
  - f_equal. lia.
Qed.

Lemma rsum_single n f i :
  (i < n)%nat -> (forall k, (k < n)%nat -> k <> i -> f k = 0) -> rsum n f = f i.
Proof.
  induction n as [|n IH]; intros Hi H; [lia|]. simpl.
  destruct (Nat.eq_dec i n) as [->|Hne].
  - rewrite (rsum_ext n f (fun _ => 0)) by (intros; apply H; lia).
    rewrite rsum_zero. ring.
  - rewrite IH by (try lia; intros; apply H; lia). rewrite (H n) by lia. ring.
Qed.

Lemma lsum_app a b : lsum (a ++ b) = lsum a + lsum b.
Proof. induction a as [|x a IH]; simpl; [ring|]. rewrite IH. ring. Qed.

Lemma lsum_mk n f : lsum (mk n f) = rsum n f.
Proof.
  induction n as [|n IH]; [reflexivity|].
  rewrite mk_S, lsum_app, IH. simpl. ring.
Qed.

Lemma lsum_nth l : lsum l = rsum (length l) (fun k => nth k l 0).
Proof. rewrite (mk_of_list l 0) at 1. apply lsum_mk. Qed.

Lemma lsum_map_nth {A} (f : A -> R) (l : list A) d :
  lsum (map f l) = rsum (length l) (fun k => f (nth k l d)).
Proof.
  induction l as [|a l IH]; [reflexivity|].
  simpl map. simpl lsum. simpl length. rewrite rsum_S_first, IH. reflexivity.
Qed.

(** Squares and weighted squares *)
Lemma sqr_nonneg (x : R) : 0 <= x * x.
Proof. nra. Qed.

(** ** Decidable comparisons used by the models *)

(** [x < y] on doubles (no NaN) *)
Definition Rltb (x y : R) : bool := if Rlt_dec x y then true else false.
(** [x <= y] on doubles (no NaN) *)
Definition Rleb (x y : R) : bool := if Rle_dec x y then true else false.
(** [x == y] on doubles (no NaN) *)
Definition Reqb (x y : R) : bool := if Req_EM_T x y then true else false.

Lemma Rltb_spec x y : reflect (x < y) (Rltb x y).
Proof. unfold Rltb. destruct (Rlt_dec x y); constructor; assumption. Qed.
Lemma Rleb_spec x y : reflect (x <= y) (Rleb x y).
Proof. unfold Rleb. destruct (Rle_dec x y); constructor; assumption. Qed.
Lemma Reqb_spec x y : reflect (x = y) (Reqb x y).
Proof. unfold Reqb. destruct (Req_EM_T x y); constructor; assumption. Qed.

Lemma Rltb_true x y : x < y -> Rltb x y = true.
Proof. intros; destruct (Rltb_spec x y); auto; contradiction. Qed.
Lemma Rltb_false x y : y <= x -> Rltb x y = false.
Proof. intros; destruct (Rltb_spec x y); auto; lra. Qed.
Lemma Rleb_true x y : x <= y -> Rleb x y = true.
Proof. intros; destruct (Rleb_spec x y); auto; contradiction. Qed.
Lemma Rleb_false x y : y < x -> Rleb x y = false.
Proof. intros; destruct (Rleb_spec x y); auto; lra. Qed.
Lemma Reqb_true x y : x = y -> Reqb x y = true.
Proof. intros; destruct (Reqb_spec x y); auto; contradiction. Qed.
Lemma Reqb_false x y : x <> y -> Reqb x y = false.
Proof. intros; destruct (Reqb_spec x y); auto; contradiction. Qed.
