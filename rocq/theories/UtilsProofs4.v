(** * Counterexamples for utils *)
From Verif Require Import Base ListLemmas UtilsModel UtilsSpec UtilsProofs1 UtilsProofs2 UtilsProofs3.
Local Open Scope R_scope.

Lemma resample_counterexample :
  exists fs sg up down, (0 < fs)%Z /\ (0 < sg)%Z /\
    resample_factors (PyInt fs) (PyInt sg) = Ok (up, down) /\
    ~ is_integer (IZR fs * IZR up / IZR down / IZR sg).
Proof.
  exists 5%Z, 6%Z, 4%Z, 5%Z. repeat split; try lia.
  assert (E : resample_core 5 6 = (4, 5)%Z) by (vm_compute; reflexivity).
  intros H. apply (resample_integer_iff 5 6 4 5) in H; try lia; [|exact E].
  destruct H as [z Hz]. assert (Eg : (6 / Z.gcd 5 6)%Z = 6%Z) by reflexivity. rewrite Eg in Hz. lia.
Qed.

Lemma resample_integral_left_alone fs sg :
  (0 < fs)%Z -> (0 < sg)%Z -> (sg | fs)%Z -> resample_core fs sg = (1, 1)%Z.
Proof.
  intros Hf Hs Hd. unfold resample_core.
  assert (Hg : Z.gcd fs sg = sg) by (rewrite Z.gcd_comm; apply Z.divide_gcd_iff; [lia|exact Hd]).
  rewrite Hg, Z.div_same by lia. reflexivity.
Qed.

(** Three minima, the last being zero, followed by larger values. *)
Lemma make_decreasing_drops_zero :
  exists x y out i, strictly_increasing x /\ length x = length y /\
    (forall v, In v y -> 0 <= v) /\ two_minima y /\ make_decreasing x y = Ok out /\
    new_minimum y i /\ nth i out 0 <> nth i y 0.
Proof.
  exists [0; 1; 2; 3], [4; 3; 0; 0].
  exists (map (interp_ext [(0, 4); (1, 3)]) [0; 1; 2; 3]), 2%nat.
  assert (Hmin : new_minimum [4; 3; 0; 0] 2).
  { split; [simpl; lia|]. intros [|[|j]] Hj; simpl; try lra. lia. }
  repeat split.
  - intros i j Hij. simpl in Hij.
    destruct i as [|[|[|i]]], j as [|[|[|[|j]]]]; simpl; try lra; try lia.
  - intros v [<-|[<-|[<-|[<-|[]]]]]; lra.
  - exists 2%nat. split; [lia|exact Hmin].
  - unfold make_decreasing, y_dec. cbn [dec_loop].
    rewrite (Rltb_false 4 4), (Rltb_true 3 4), (Rltb_true 0 3), (Rltb_false 0 0) by lra.
    cbn [map]. rewrite (Reqb_false 4 0), (Reqb_false 3 0), (Reqb_true 0 0) by lra.
    reflexivity.
  - apply Hmin.
  - apply Hmin.
  - cbn. unfold seg. cbn. lra.
Qed.

(** A positive spectrum whose extrapolated tail becomes negative. *)
Lemma make_decreasing_negative_tail :
  exists x y out i, strictly_increasing x /\ length x = length y /\
    (forall v, In v y -> 0 < v) /\ two_minima y /\ make_decreasing x y = Ok out /\
    (i < length y)%nat /\ nth i out 0 < 0.
Proof.
  exists [0; 1; 2], [10; 1; 5].
  exists (map (interp_ext [(0, 10); (1, 1)]) [0; 1; 2]), 2%nat.
  repeat split.
  - intros i j Hij. simpl in Hij.
    destruct i as [|[|[|i]]], j as [|[|[|j]]]; simpl; try lra; try lia.
  - intros v [<-|[<-|[<-|[]]]]; lra.
  - exists 1%nat. split; [lia|]. split; [simpl; lia|]. intros [|j] Hj; simpl; [lra|lia].
  - unfold make_decreasing, y_dec. cbn [dec_loop].
    rewrite (Rltb_false 10 10), (Rltb_true 1 10), (Rltb_false 5 1) by lra.
    cbn [map]. rewrite (Reqb_false 10 0), (Reqb_false 1 0), (Reqb_true 0 0) by lra.
    reflexivity.
  - simpl. lia.
  - cbn. unfold seg. cbn. lra.
Qed.
