(** * Specification of the fit window, independent of the model *)
From Verif Require Import Base.
Local Open Scope Z_scope.

(** The window of [nc] bins (at most [n]) centred on bin [n/2 + wc] of a trace of [n]
    bins: the [nc] consecutive bins starting [nc/2] bins before the centre. *)
Definition in_window (n nc wc j : Z) : Prop :=
  let width := Z.min nc n in
  let first := n / 2 + wc - width / 2 in
  first <= j < first + width.

(** Bin [j] may be selected. *)
Definition allowed (n : Z) (nc : option Z) (outside : bool) (mask : Z -> Prop) (wc j : Z) : Prop :=
  0 <= j < n /\
  match nc with
  | None => True
  | Some w => if outside then ~ in_window n w wc j else in_window n w wc j
  end /\ mask j.

(** Bin [j] has the first smallest value of [f] among the bins satisfying [P]. *)
Definition first_minimum (f : Z -> R) (P : Z -> Prop) (j : Z) : Prop :=
  P j /\ forall i, P i -> (f j <= f i)%R /\ (i < j -> (f j < f i)%R).

(** Entry [j] of a list is [true]. *)
Definition mask_true (m : list bool) (j : Z) : Prop := nth_error m (Z.to_nat j) = Some true.

(** Documented range of the window centre: the centre bin [n/2 + wc] is a bin. *)
Definition valid_center (n wc : Z) : Prop := 0 <= n / 2 + wc < n.

(** The optional pulse-direction mask as a condition on bins. *)
Definition mask_prop (m : option (list bool)) (j : Z) : Prop :=
  match m with None => True | Some m => mask_true m j end.

(** What the search is to return on a list of candidate bins. *)
Definition search_result (chi2 : list R) (P : Z -> Prop) (r : res (option Z)) : Prop :=
  match r with
  | Ok (Some j) => first_minimum (fun i => nth (Z.to_nat i) chi2 0%R) P j
  | Ok None => forall j, ~ P j
  | Err _ => False
  end.
