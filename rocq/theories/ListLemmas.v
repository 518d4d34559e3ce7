(** * List lemmas used throughout (no model content) *)
From Verif Require Import Base.

Lemma nth_error_firstn {A} k (l : list A) i :
  nth_error (firstn k l) i = if (i <? k)%nat then nth_error l i else None.
Proof.
  revert l i. induction k as [|k IH]; intros l i; simpl.
  - destruct i; reflexivity.
  - destruct l as [|a l]; simpl.
    + destruct i; simpl; [reflexivity|]. destruct (S i <? S k)%nat; reflexivity.
    + destruct i as [|i]; simpl; [reflexivity|]. rewrite IH. reflexivity.
Qed.

Lemma nth_error_skipn {A} k (l : list A) i : nth_error (skipn k l) i = nth_error l (k + i)%nat.
Proof.
  revert l. induction k as [|k IH]; intros l; simpl; [reflexivity|].
  destruct l as [|a l]; simpl; [destruct i; reflexivity|]. apply IH.
Qed.

Lemma nth_error_map_const {A B} (c : B) (l : list A) i :
  nth_error (map (fun _ => c) l) i = if (i <? length l)%nat then Some c else None.
Proof.
  revert i. induction l as [|a l IH]; intros i; simpl; [destruct i; reflexivity|].
  destruct i as [|i]; simpl; [reflexivity|]. rewrite IH. reflexivity.
Qed.

Lemma nth_error_app {A} (a b : list A) i :
  nth_error (a ++ b) i =
  if (i <? length a)%nat then nth_error a i else nth_error b (i - length a)%nat.
Proof.
  destruct (Nat.ltb_spec i (length a)).
  - now apply nth_error_app1.
  - now apply nth_error_app2.
Qed.

Lemma slice_bound_range n i : (0 <= n)%Z -> (0 <= slice_bound n i <= n)%Z.
Proof. unfold slice_bound. destruct (Z.ltb_spec i 0); lia. Qed.

Lemma length_pyslice {A} (l : list A) lo hi :
  length (pyslice l lo hi) =
  Z.to_nat (slice_bound (Z.of_nat (length l)) hi - slice_bound (Z.of_nat (length l)) lo).
Proof.
  unfold pyslice. rewrite firstn_length, skipn_length.
  assert (H1 := slice_bound_range (Z.of_nat (length l)) lo ltac:(lia)).
  assert (H2 := slice_bound_range (Z.of_nat (length l)) hi ltac:(lia)). lia.
Qed.

Lemma nth_error_pyslice {A} (l : list A) lo hi i :
  nth_error (pyslice l lo hi) i =
  if (Z.of_nat i <? slice_bound (Z.of_nat (length l)) hi - slice_bound (Z.of_nat (length l)) lo)%Z
  then nth_error l (Z.to_nat (slice_bound (Z.of_nat (length l)) lo) + i)%nat
  else None.
Proof.
  unfold pyslice. rewrite nth_error_firstn, nth_error_skipn.
  destruct (Z.ltb_spec (Z.of_nat i) (slice_bound (Z.of_nat (length l)) hi - slice_bound (Z.of_nat (length l)) lo));
  destruct (Nat.ltb_spec i (Z.to_nat (slice_bound (Z.of_nat (length l)) hi - slice_bound (Z.of_nat (length l)) lo)));
  try reflexivity; lia.
Qed.

Lemma nth_error_ext {A} (a b : list A) :
  (forall i, nth_error a i = nth_error b i) -> a = b.
Proof.
  revert b. induction a as [|x a IH]; intros b H.
  - destruct b as [|y b]; [reflexivity|]. specialize (H 0%nat). discriminate.
  - destruct b as [|y b]; [specialize (H 0%nat); discriminate|].
    assert (E := H 0%nat). simpl in E. injection E as ->. f_equal.
    apply IH. intros i. exact (H (S i)).
Qed.

Lemma nth_error_combine {A B} (a : list A) (b : list B) i :
  nth_error (combine a b) i =
  match nth_error a i, nth_error b i with
  | Some x, Some y => Some (x, y)
  | _, _ => None
  end.
Proof.
  revert b i. induction a as [|x a IH]; intros b i; simpl.
  - destruct i; reflexivity.
  - destruct b as [|y b]; simpl.
    + destruct i; simpl; [reflexivity|]. destruct (nth_error a i); reflexivity.
    + destruct i as [|i]; simpl; [reflexivity|]. apply IH.
Qed.

Lemma nth_error_seq s n i :
  nth_error (seq s n) i = if (i <? n)%nat then Some (s + i)%nat else None.
Proof.
  destruct (Nat.ltb_spec i n) as [H|H].
  - rewrite (nth_error_nth' _ 0%nat) by now rewrite seq_length.
    now rewrite seq_nth.
  - apply nth_error_None. now rewrite seq_length.
Qed.

Lemma nth_error_lt {A} (l : list A) i : (i < length l)%nat -> exists a, nth_error l i = Some a.
Proof.
  intros H. destruct (nth_error l i) eqn:E; [eauto|].
  apply nth_error_None in E. lia.
Qed.

Lemma nth_error_Some_lt {A} (l : list A) i a : nth_error l i = Some a -> (i < length l)%nat.
Proof. intros H. apply nth_error_Some. congruence. Qed.

Lemma nth_error_nth_eq {A} (l : list A) i d : (i < length l)%nat -> nth_error l i = Some (nth i l d).
Proof. intros. now apply nth_error_nth'. Qed.
