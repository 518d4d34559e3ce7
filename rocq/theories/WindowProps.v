(** * Properties C17, C18: fit window and constrained minimum *)
From Coq Require Import Sorted.
From Verif Require Import Base UtilsModel WindowModel WindowSpec WindowProofs.
Local Open Scope Z_scope.

(** C17: the searched bins are the bins of the window (or its complement), ascending. *)
Theorem C17_window_bins : forall n nc wc outside,
  0 < n -> 0 < nc <= n -> valid_center n wc ->
  StronglySorted Z.lt (window_inds n nc wc outside) /\
  forall j, In j (window_inds n nc wc outside) <->
    0 <= j < n /\ (if outside then ~ in_window n nc wc j else in_window n nc wc j).
Proof. exact window_inds_spec. Qed.
Print Assumptions C17_window_bins.

Example C17_window_bins_ex :
  (0 < 7 /\ 0 < 4 <= 7 /\ valid_center 7 2) /\
  window_inds 7 4 2 false = [3; 4; 5; 6] /\ window_inds 7 4 2 true = [0; 1; 2] /\
  window_inds 7 4 3 false = [4; 5; 6] /\ window_inds 6 3 (-3) true = [2; 3; 4; 5].
Proof. repeat split; vm_compute; congruence. Qed.

(** C17: error cases. *)
Theorem C17_window_errors : forall chi2 nc outside m wc,
  (forall l, m = Some l -> length l = length chi2) ->
  (~ valid_center (Z.of_nat (length chi2)) wc \/ exists k, nc = Some k /\ k <= 0) ->
  argmin_chi2 chi2 nc outside m wc = Err ValueError.
Proof. exact argmin_chi2_error. Qed.
Print Assumptions C17_window_errors.

Example C17_window_errors_ex :
  ~ valid_center (Z.of_nat (length [1; 2; 3]%R)) 2 /\
  argmin_chi2 [1; 2; 3]%R None false None 2 = Err ValueError /\
  argmin_chi2 [1; 2; 3]%R (Some 0) false None 1 = Err ValueError.
Proof. repeat split. unfold valid_center. vm_compute. intros [_ H]. discriminate. Qed.

(** C18: with a valid centre and width the search never fails; it returns the first
    smallest chi2 among the allowed bins, or nan exactly when no bin is allowed. *)
Theorem C18_constrained_minimum : forall chi2 nc outside m wc,
  (forall l, m = Some l -> length l = length chi2) ->
  valid_center (Z.of_nat (length chi2)) wc ->
  (forall k, nc = Some k -> 0 < k) ->
  search_result chi2 (allowed (Z.of_nat (length chi2)) nc outside (mask_prop m) wc)
    (argmin_chi2 chi2 nc outside m wc).
Proof. exact argmin_chi2_result. Qed.
Print Assumptions C18_constrained_minimum.

Example C18_constrained_minimum_ex :
  let chi2 := [4; 1; 3; 2]%R in
  let m := Some [true; false; true; true] in
  valid_center (Z.of_nat (length chi2)) (-1) /\
  argmin_chi2 chi2 (Some 3) false m (-1) = Ok (Some 2) /\
  argmin_chi2 chi2 (Some 9) true m 0 = Ok None.
Proof.
  cbn zeta. split; [unfold valid_center; vm_compute; split; congruence|]. split; [|reflexivity].
  unfold argmin_chi2. simpl. unfold argmin. cbn [argmin_from bind].
  destruct (Rltb_spec 3 4); [reflexivity|lra].
Qed.

(** C18: the pulse-direction mask. *)
Theorem C18_direction_mask : forall amps dir,
  match direction_mask amps dir with
  | Err e => e = ValueError /\ dir <> -1 /\ dir <> 0 /\ dir <> 1
  | Ok None => dir = 0
  | Ok (Some m) => (dir = 1 \/ dir = -1) /\ length m = length amps /\
      forall j, mask_true m j <->
        exists a, nth_error amps (Z.to_nat j) = Some a /\
          ((dir = 1 /\ (0 < a)%R) \/ (dir = -1 /\ (a < 0)%R))
  end.
Proof. exact direction_mask_spec. Qed.
Print Assumptions C18_direction_mask.

Example C18_direction_mask_ex :
  direction_mask [1; -1; 0]%R (-1) = Ok (Some [false; true; false]) /\
  direction_mask [1; -1; 0]%R 2 = Err ValueError.
Proof.
  split; [|reflexivity]. unfold direction_mask. simpl.
  destruct (Rltb_spec 0 (-1 * 1)); [lra|]. destruct (Rltb_spec 0 (-1 * -1)); [|lra].
  destruct (Rltb_spec 0 (-1 * 0)); [lra|]. reflexivity.
Qed.
