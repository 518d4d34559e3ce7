(** * Notions in which the properties of the N-template plot are stated *)
From Coq Require Import String Reals ZArith List.
From Verif Require Import Base Dft.
Import ListNotations.
Local Open Scope R_scope.

(** The parts of the fitted trace: the signal delayed cyclically by [e] bins, background [k], and the
    last two backgrounds (slope and offset) together. *)
Definition signal_part (nt : nat) (s : nat -> R) (a : nat -> R) (e : Z) (t : nat) : R :=
  a O * s (Z.to_nat ((Z.of_nat t - e) mod Z.of_nat nt)).
Definition bkg_part (bs : list (nat -> R)) (a : nat -> R) (k t : nat) : R := a (S k) * nth k bs (fun _ => 0) t.
Definition last_two (bs : list (nat -> R)) (a : nat -> R) (t : nat) : R :=
  bkg_part bs a (length bs - 2) t + bkg_part bs a (length bs - 1) t.

(** The vertical lines: none without [shifts], else one per background at its shift, the first labelled. *)
Definition start_lines (nb : nat) (shifts : option (list (option R))) (lines : list (option R * option string)) : Prop :=
  match shifts with
  | None => lines = []
  | Some sh => length lines = nb /\
      forall k, (k < nb)%nat -> nth_error lines k =
        Some (nth k sh None, if (k =? 0)%nat then Some "Bckg. Start Times"%string else None)
  end.
