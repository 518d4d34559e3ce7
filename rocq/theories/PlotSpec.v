(** * What the plots are specified to show, in terms of the data handed to matplotlib *)
From Coq Require Import String Ascii.
From Verif Require Import Base NoiseModel PlotModel.
Open Scope R_scope.

(** The curve shows the spectrum [row] against [fr] as an amplitude density, without the first bin;
    a negative entry has no ordinate. *)
Definition shows_amplitude (fr row : list R) (label : option string) (c : curve) : Prop :=
  c_label c = label /\ length (c_x c) = (length fr - 1)%nat /\ length (c_y c) = (length fr - 1)%nat /\
  forall k, (k < length fr - 1)%nat ->
    nth_error (c_x c) k = nth_error fr (S k) /\
    exists v y, nth_error row (S k) = Some v /\ nth_error (c_y c) k = Some y /\
      match y with Some w => 0 <= w /\ w * w = v | None => v < 0 end.

(** Every ordinate of the curve is a number. *)
Definition all_numbers (c : curve) : Prop := forall y, In y (c_y c) -> y <> None.

(** The curve shows [row] against [fr] as it is, without the first bin. *)
Definition shows_values (fr row : list R) (label : option string) (c : curve) : Prop :=
  c_label c = label /\ length (c_x c) = (length fr - 1)%nat /\ length (c_y c) = (length fr - 1)%nat /\
  forall k, (k < length fr - 1)%nat ->
    nth_error (c_x c) k = nth_error fr (S k) /\
    exists v, nth_error (c_y c) k = Some (Some v) /\ nth_error row (S k) = Some v.

(** The axes in row [r] and column [c]. *)
Definition cell (f : figure) (r c : nat) : option axes :=
  match nth_error (f_rows f) r with Some row => nth_error row c | None => None end.

(** The figure has two columns and just enough rows for [n] channels; channel [i] is alone on the
    axes reached by counting down the columns; an axes without channel is switched off and empty,
    and that happens at most once. *)
Definition laid_out (n : nat) (good : nat -> axes -> Prop) (f : figure) : Prop :=
  (n <= 2 * length (f_rows f) <= n + 1)%nat /\
  (forall row, In row (f_rows f) -> length row = 2%nat) /\
  (forall i, (i < n)%nat -> exists a,
     cell f (i mod length (f_rows f)) (i / length (f_rows f)) = Some a /\ a_hidden a = false /\ good i a) /\
  (forall r c a, cell f r c = Some a -> (n <= r + c * length (f_rows f))%nat -> a_hidden a = true /\ a_curves a = []).

(** All frequencies of a curve are positive and strictly increasing: drawable on a log axis. *)
Definition log_drawable (c : curve) : Prop :=
  (forall x, In x (c_x c) -> 0 < x) /\
  forall i j x y, (i < j)%nat -> nth_error (c_x c) i = Some x -> nth_error (c_x c) j = Some y -> x < y.

(** All curves of a figure. *)
Definition curves_of (f : figure) : list curve := concat (map (fun row => concat (map a_curves row)) (f_rows f)).

(** The figures shown and the files written by a call. *)
Definition shown (es : list event) : list figure := flat_map (fun e => match e with Shown f => [f] | _ => [] end) es.
Definition files (es : list event) : list string := flat_map (fun e => match e with Saved p _ => [p] | _ => [] end) es.

(** The object a history of method calls produces from a constructor call with a positive rate, a
    non-zero gain and at least one trace. *)
Definition reachable (o : pnoise) : Prop :=
  exists inv ops n inp fs names gain name time o0,
    0 < fs /\ gain <> 0 /\ traces (pn o0) <> [] /\
    noise_new n inp fs names gain name time = Ok o0 /\ o = after inv ops o0.

(** Every shown figure has just been saved, or the failure has just been reported, if saving was asked
    for; otherwise neither. *)
Definition failure_text : string := "Invalid save path. Figure not saved".
Inductive accounted (asked : bool) : list event -> Prop :=
| acc_nil : accounted asked []
| acc_message m es : m <> failure_text -> accounted asked es -> accounted asked (Printed m :: es)
| acc_saved p f es : asked = true -> accounted asked es -> accounted asked (Saved p f :: Shown f :: es)
| acc_failed f es : asked = true -> accounted asked es -> accounted asked (Printed failure_text :: Shown f :: es)
| acc_shown f es : asked = false -> accounted asked es -> accounted asked (Shown f :: es).

(** What a comparison shows: the power spectra, or the de-correlated ones under another legend entry. *)
Definition compared_spectra (decor : bool) (o : pnoise) := if decor then n_uncorr (pn o) else n_psd (pn o).
Definition legend_entry (decor : bool) (o : pnoise) : option string :=
  if decor then match pname o with Some s => Some (s ++ " Decorrelated Noise")%string | None => None end else pname o.
