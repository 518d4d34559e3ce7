(** * Notions in which the properties of the plot of the nonlinear fit are stated *)
From Coq Require Import Reals ZArith List.
From Verif Require Import Base NonlinSpec.
Import ListNotations.
Local Open Scope R_scope.

(** Rise time and first fall time among the parameters; [rise] is the fixed rise time of a fit with one pole. *)
Definition rise_of (npole : Z) (rise : option R) (p : list R) : option R :=
  match npole with 4%Z => Some (nth 3 p 0) | 3%Z => Some (nth 2 p 0) | 2%Z => Some (nth 1 p 0) | _ => rise end.
Definition fall_of (npole : Z) (p : list R) : R :=
  match npole with 4%Z => nth 4 p 0 | 3%Z => nth 3 p 0 | 2%Z => nth 2 p 0 | _ => nth 1 p 0 end.
(** Fall times shown after the start of the pulse *)
Definition falls_shown (npole : Z) : R := match npole with 4%Z | 3%Z => 9 | _ => 7 end.

(** The samples of [l] with numbers from [a] up to [b], [b] excluded *)
Definition samples {A} (l : list A) (a b : nat) (out : list A) : Prop :=
  length out = (Nat.min b (length l) - a)%nat /\
  forall i, (i < Nat.min b (length l) - a)%nat -> nth_error out i = nth_error l (a + i).

(** [u] is the fitted pulse in time: sums of exponentials in the parameters; with scaled amplitude the
    two-pole pulse has height [A]. *)
Definition pulse_form (npole : Z) (scale_amplitude : bool) (rise : option R) (p : list R) (u : R -> R) : Prop :=
  let A := nth 0 p 0 in let B := nth 1 p 0 in let D := nth 2 p 0 in
  match npole with
  | 4%Z => forall t, u t = A * exp (- t / nth 4 p 0) + B * exp (- t / nth 5 p 0) + D * exp (- t / nth 6 p 0)
                           - (A + B + D) * exp (- t / nth 3 p 0)
  | 3%Z => forall t, u t = A * exp (- t / nth 3 p 0) + B * exp (- t / nth 4 p 0) - (A + B) * exp (- t / nth 2 p 0)
  | _ => exists tau c, rise_of npole rise p = Some tau /\
           (forall t, u t = c * (exp (- t / fall_of npole p) - exp (- t / tau))) /\
           (if scale_amplitude then has_peak u A else c = A)
  end.
