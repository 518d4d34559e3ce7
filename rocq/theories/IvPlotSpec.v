(** * What the current, resistance and power plots should show

    From the models only the types of arguments and results and the plotting calls are used. *)
From Coq Require Import String Ascii.
From Verif Require Import Base IvModel IvPlotModel.
Open Scope R_scope.

(** The three plots, their quantity with its error, the unit, title and file name prefix. *)
Inductive kind : Type := Current | Resistance | Power.
Definition quantity (k : kind) (o : ivobj) : option rows :=
  match k with Current => v_ites o | Resistance => v_r0 o | Power => v_ptes o end.
Definition quantity_err (k : kind) (o : ivobj) : option rows :=
  match k with Current => v_ites_err o | Resistance => v_r0_err o | Power => v_ptes_err o end.
(** Microampere, milliohm, picowatt; the abscissa is in microvolt. *)
Definition unit_of (k : kind) : R :=
  match k with Current => 10 ^ 6 | Resistance => 10 ^ 3 | Power => 10 ^ 12 end.
Definition title_of (k : kind) : string :=
  match k with Current => "$I_0$ vs. $V_b$" | Resistance => "$R_0$ vs. $V_b$" | Power => "$P_0$ vs. $V_b$" end.
Definition prefix_of (k : kind) : string :=
  match k with Current => "iv_curve_" | Resistance => "rv_curve_" | Power => "pv_curve_" end.

(** The plotting call; only the current plot has a fit. *)
Definition plot (savefig : string -> res unit) (ibis : bool) (o : ivobj) (k : kind) (temps chans : selection)
    (showfit lgcsave : bool) (savepath savename : string) : list (string * ivfig) * res (option ivfig) :=
  match k with
  | Current => plot_iv savefig ibis o temps chans showfit lgcsave savepath savename
  | Resistance => plot_rv savefig ibis o temps chans lgcsave savepath savename
  | Power => plot_pv savefig ibis o temps chans lgcsave savepath savename
  end.
Definition has_fit (k : kind) (showfit : bool) : bool := match k with Current => showfit | _ => false end.

(** [z] is the [k]-th choice on an axis of length [n]; [how_many] choices are made. *)
Definition chosen (n : nat) (s : selection) (k : nat) (z : Z) : Prop :=
  match s with
  | SAll => (k < n)%nat /\ z = Z.of_nat k
  | SOne y => k = 0%nat /\ z = y
  | SMany l => nth_error l k = Some z
  end.
Definition how_many (n : nat) (s : selection) : nat :=
  match s with SAll => n | SOne _ => 1%nat | SMany l => length l end.

(** The integer [z] stands for place [i] of an axis of length [n], counted from either end. *)
Definition place (n : nat) (z : Z) (i : nat) : Prop :=
  (i < n)%nat /\ (z = Z.of_nat i \/ z = Z.of_nat i - Z.of_nat n)%Z.
Definition within (n : nat) (s : selection) : Prop := forall k z, chosen n s k z -> exists i, place n z i.

(** A row of values drawn in another unit; missing values stay missing. *)
Definition in_unit (u : R) (row drawn : list (option R)) : Prop :=
  Forall2 (fun v d => match v, d with Some v, Some d => d = v * u | None, None => True | _, _ => False end) row drawn.

(** The object has been analysed: the values of a plot are there, its errors are not negative, the
    channels are named. *)
Definition nonneg (a : rows) : Prop := forall t c v, In (Some v) (a t c) -> 0 <= v.
Record ready (o : ivobj) (k : kind) (ibis showfit : bool) (vb y ye : rows) (rfit : nat -> nat -> R) : Prop := mkReady {
  ready_vb : v_vb o = Some vb;
  ready_y : quantity k o = Some y;
  ready_ye : quantity_err k o = Some ye;
  ready_pos : nonneg ye;
  ready_vbe : ibis = true -> exists vbe, v_vb_err o = Some vbe /\ nonneg vbe;
  ready_rfit : v_rfit o = Some rfit;
  ready_names : length (v_names o) = v_nc o;
  ready_points : has_fit k showfit = true -> forall t c, vb t c <> [] }.

(** The farthest bias point of a row, and a straight line from (or to) the origin with slope [1/r]. *)
Definition farthest (row : list (option R)) (e : R) : Prop :=
  In (Some e) row /\ forall v, In (Some v) row -> Rabs v <= Rabs e.
Definition line_from_origin (r e : R) (l : list (option R) * list (option R)) : Prop :=
  length (fst l) = 10%nat /\ length (snd l) = 10%nat /\
  exists s : nat -> R, (forall n, (n < 10)%nat -> nth_error (fst l) n = Some (Some (s n)) /\ nth_error (snd l) n = Some (Some (s n / r))) /\
    ((forall n, s n = e * (INR n / 9)) \/ (forall n, s n = e * (1 - INR n / 9))).

(** The legend entry of a channel; the temperature is named only if there are several. *)
Definition legend (o : ivobj) (t : Z) (name : string) : string :=
  if (1 <? v_nt o)%nat then ("Temp " ++ decZ t ++ ", Channel " ++ name)%string else ("Channel " ++ name)%string.

(** The group [g] shows the values of temperature [i] and channel [j] of the object, chosen as [t]. *)
Record shows (o : ivobj) (k : kind) (ibis showfit : bool) (vb y ye : rows) (t : Z) (i j : nat) (g : group) : Prop := mkShows {
  shows_label : exists name, nth_error (v_names o) j = Some name /\ g_label g = legend o t name;
  shows_values : forall p, p = g_points g \/ p = g_line g \/ p = g_bars g ->
    in_unit (10 ^ 6) (vb i j) (fst p) /\ in_unit (unit_of k) (y i j) (snd p);
  shows_yerr : in_unit (unit_of k) (ye i j) (g_yerr g);
  shows_xerr : match g_xerr g with
               | None => ibis = false
               | Some e => ibis = true /\ exists vbe, v_vb_err o = Some vbe /\ in_unit (10 ^ 6) (vbe i j) e
               end;
  shows_fit : match g_fit g with None => has_fit k showfit = false | Some _ => has_fit k showfit = true end }.

(** The figure of one plot: the chosen channels of the chosen temperatures, in this order and in
    different colours. *)
Definition figure_of (o : ivobj) (k : kind) (ibis showfit : bool) (vb y ye : rows) (temps chans : selection) (f : ivfig) : Prop :=
  let nc := how_many (v_nc o) chans in
  i_title f = title_of k /\ length (i_groups f) = (how_many (v_nt o) temps * nc)%nat /\
  forall a b t c i j, chosen (v_nt o) temps a t -> chosen (v_nc o) chans b c -> place (v_nt o) t i -> place (v_nc o) c j ->
    exists g, nth_error (i_groups f) (a * nc + b) = Some g /\ g_colour g = (a * nc + b)%nat /\ shows o k ibis showfit vb y ye t i j g.

(** Point [n] of a drawn curve. *)
Definition point (l : list (option R) * list (option R)) (n : nat) (x y : R) : Prop :=
  nth_error (fst l) n = Some (Some x) /\ nth_error (snd l) n = Some (Some y).


(** A drawn row: [n] values in the unit [u], missing exactly where [gone]. *)
Definition drawn_row (n : nat) (gone : nat -> Prop) (val : nat -> R) (u : R) (row : list (option R)) : Prop :=
  length row = n /\ forall m, (m < n)%nat ->
    (gone m -> nth_error row m = Some None) /\ (~ gone m -> nth_error row m = Some (Some (val m * u))).

(** Value [t, c, m] of a measured array of [nc] channels and [ni] points is missing. *)
Definition missing (nc ni : nat) (a : nd) (t c m : nat) : Prop := nanat a ((t * nc + c) * ni + m)%nat = true.

(** A quantity is missing where a measured input is: the current needs the measured current, the
    resistance and the power the bias as well; their errors need the errors of the inputs too. *)
Definition gone (k : kind) (bias current : Prop) : Prop := match k with Current => current | _ => bias \/ current end.
Definition gone_err (k : kind) (bias current bias_err current_err : Prop) : Prop :=
  match k with Current => current_err | _ => bias \/ current \/ bias_err \/ current_err end.
Definition of_kind {A : Type} (k : kind) (i r p : A) : A := match k with Current => i | Resistance => r | Power => p end.
