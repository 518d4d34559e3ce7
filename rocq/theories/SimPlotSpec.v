(** * What the simulated noise plots are specified to show, in terms of the data handed to matplotlib *)
From Coq Require Import String.
From Verif Require Import Base SimModel PlotModel SimPlotModel.
From Coquelicot Require Import Complex.
Open Scope R_scope.

(** The curve with this label, where it is drawn: its ordinate at position [k] is the number [y]. *)
Definition height (a : axes) (label : string) (k : nat) (y : R) : Prop :=
  exists c, In c (a_curves a) /\ c_label c = Some label /\ nth_error (c_y c) k = Some (Some y).

(** The labelled curve is drawn over all frequencies but the first; the square of its height, which
    is not negative, is [v x] at frequency [x]. *)
Definition draws (a : axes) (label : string) (f : list R) (v : R -> R -> Prop) : Prop :=
  exists c, In c (a_curves a) /\ c_label c = Some label /\
    length (c_x c) = (length f - 1)%nat /\ length (c_y c) = (length f - 1)%nat /\
    forall k, (k < length f - 1)%nat -> nth_error (c_x c) k = nth_error f (S k) /\
      exists x y, nth_error f (S k) = Some x /\ nth_error (c_y c) k = Some (Some y) /\ 0 <= y /\ v x (y * y).

(** The legend, in drawing order. *)
Definition legend (a : axes) : list (option string) := map c_label (a_curves a).

(** The axes a call shows the user: returned, or written to a file. *)
Definition presented (o : simout) (a : axes) : Prop := o_result o = Ok (Some a) \/ exists p, In (p, a) (o_files o).

(** Temperatures, resistances, conductance and thermal factor of the sensor are not negative. *)
Definition plausible (t : tes) : Prop :=
  0 <= t_tload t /\ 0 <= t_rload t /\ 0 <= t_tc t /\ 0 <= t_r0 t /\ 0 <= t_G t /\ 0 <= t_ftfn t.
(** The sensor has a transition operating point: a current, and a loop gain that is not 0 or 1. *)
Definition biased (t : tes) : Prop := t_loopgain t <> 1 /\ t_loopgain t <> 0 /\ t_i0 t <> 0.
(** Its impedance does not vanish at the plotted frequencies. *)
Definition impedant (t : tes) (f : list R) : Prop :=
  forall x, In x (tl f) -> exists z, dVdI t x = Ok z /\ z <> RtoC 0.
