(** * What the dIdV plots are specified to show, in terms of the data handed to matplotlib *)
From Coq Require Import String Reals Sorted.
From Coquelicot Require Import Complex.
From Verif Require Import Base Dft DidvModel PlotModel IvPlotModel DidvPlotModel.
Local Open Scope R_scope.

(** A call that succeeds with one figure: written to [path] when saving was asked for, else shown. *)
Definition makes (out : dout) (saveplot : bool) (path : string) (good : daxes -> Prop) : Prop :=
  exists a, out = ([if saveplot then DSaved path a else DShown a], Ok tt) /\ good a.
(** A call that succeeds with two figures. *)
Definition makes2 (out : dout) (saveplot : bool) (path1 path2 : string) (good : daxes -> daxes -> Prop) : Prop :=
  exists a b, out = ([if saveplot then DSaved path1 a else DShown a; if saveplot then DSaved path2 b else DShown b], Ok tt)
    /\ good a b.

(** The object holds processed data: arrays of one length, at least two samples. *)
Definition prepared (o : dobj) (p : processed) (d : pdata) : Prop :=
  b_proc o = Some p /\ p_data p = Some d /\ (2 <= length (p_time p))%nat /\
  length (d_tmean d) = length (p_time p) /\ length (p_freq p) = length (p_time p) /\
  length (d_mean d) = length (p_time p) /\ length (d_std d) = length (p_time p).

(** The result of the fit with [i] poles. *)
Definition fit_of (o : dobj) (i : Z) : option pfit :=
  if (i =? 1)%Z then b_fit1 o else if (i =? 2)%Z then b_fit2 o else if (i =? 3)%Z then b_fit3 o else None.
(** Every stored result names a complete set of circuit parameters. *)
Definition complete (o : dobj) : Prop :=
  forall i r, fit_of o i = Some r -> exists n, pole_extractor (pf_args r) = Ok n.
(** The fit with [i] poles is to be drawn: asked for and available. *)
Definition to_draw (o : dobj) (s : selection) (i : Z) : Prop :=
  (1 <= i <= 3)%Z /\ fit_of o i <> None /\
  match s with SAll => True | SOne z => z = i | SMany zs => In i zs end.
(** The legend entry of the fit with [i] poles. *)
Definition fit_label (i : Z) : string :=
  if (i =? 1)%Z then "1-Pole Fit" else if (i =? 2)%Z then "2-Pole Fit" else "3-Pole Fit".

(** [l] holds, in the order of the number of poles, exactly the fits to be drawn. *)
Definition drawn_fits (o : dobj) (s : selection) (l : list Z) : Prop :=
  (forall i, In i l <-> to_draw o s i) /\ StronglySorted Z.lt l.

(** The curves of a time domain plot: the mean trace without its offset, in microseconds and
    microamperes, then one curve per fit, the response to the square wave delayed by the fit's own
    time offset. *)
Definition time_mean (p : processed) (d : pdata) : mark :=
  Line (mkCurve (map (fun t => 10 ^ 6 * t) (p_time p)) (map (fun v => Some (10 ^ 6 * (v - d_offset d))) (d_tmean d))
         (Some "Mean"%string)).
Definition time_fit_curve (o : dobj) (p : processed) (i : Z) (m : mark) : Prop :=
  exists r ys, fit_of o i = Some r /\
    squarewaveresponse (length (p_time p)) (fun j => nth j (p_time p) 0) (b_sgamp o) (b_sgfreq o) (b_duty o) (pf_args r) = Ok ys /\
    m = Line (mkCurve (map (fun t => 10 ^ 6 * (t + pf_dt r)) (p_time p)) (map (fun v => Some (10 ^ 6 * v)) ys) (Some (fit_label i))).
Definition time_curves (o : dobj) (s : selection) (p : processed) (d : pdata) (ms : list mark) : Prop :=
  exists l fits, drawn_fits o s l /\ Forall2 (time_fit_curve o p) l fits /\ ms = time_mean p d :: fits.

(** The mean trace where every trace was cut: nan at all times. *)
Definition time_nan (p : processed) : mark :=
  Line (mkCurve (map (fun t => 10 ^ 6 * t) (p_time p)) (repeat None (length (p_time p))) (Some "Mean"%string)).

(** The bins of positive frequency whose mean is more than twice as large as its error. *)
Definition significant (q : R * C * C) : Prop := 0 < fst (fst q) /\ 2 * Cmod (snd q) < Cmod (snd (fst q)).
Definition significant_dec (q : R * C * C) : {significant q} + {~ significant q}.
Proof.
  unfold significant. destruct (Rlt_dec 0 (fst (fst q))); [|right; tauto].
  destruct (Rlt_dec (2 * Cmod (snd q)) (Cmod (snd (fst q)))); [left; tauto|right; tauto].
Defined.
Definition measured (p : processed) (d : pdata) : list (R * C * C) :=
  filter (fun q => if significant_dec q then true else false) (combine (combine (p_freq p) (d_mean d)) (d_std d)).
(** The positive frequencies. *)
Definition positive (l : list R) : list R := filter (fun f => if Rlt_dec 0 f then true else false) l.
(** A value [y] of the admittance, seen as at frequency [f] without the delay [dt]. *)
Definition undelayed (dt f : R) (y : C) : C := (y / cis (- (2 * PI * f * dt)))%C.

(** The curves of a frequency domain plot of the quantity [g]: points for the mean, lines for mean
    plus and minus error, and one line per fit. *)
Definition freq_points (g : C -> R) (dt : R) (l : list (R * C * C)) (val : R * C * C -> C) (label : option string) : curve :=
  mkCurve (map (fun q => fst (fst q)) l) (map (fun q => Some (g (undelayed dt (fst (fst q)) (val q)))) l) label.
Definition freq_fit_curve (g : C -> R) (o : dobj) (p : processed) (i : Z) (m : mark) : Prop :=
  exists r ys, fit_of o i = Some r /\
    Forall2 (fun f y => complexadmittance f (pf_args r) = Ok y) (positive (p_freq p)) ys /\
    m = Line (mkCurve (positive (p_freq p)) (map (fun y => Some (g y)) ys) (Some (fit_label i))).
Definition freq_curves (g : C -> R) (o : dobj) (s : selection) (p : processed) (d : pdata) (ms : list mark) : Prop :=
  exists l fits, drawn_fits o s l /\ Forall2 (freq_fit_curve g o p) l fits /\
    ms = Dots (freq_points g (best_offset o) (measured p d) (fun q => snd (fst q)) (Some "Mean"%string))
      :: Line (freq_points g (best_offset o) (measured p d) (fun q => (snd (fst q) + snd q)%C) (Some "1-$\sigma$ Bounds"%string))
      :: Line (freq_points g (best_offset o) (measured p d) (fun q => (snd (fst q) - snd q)%C) None)
      :: fits.

(** The bins that determine the vertical limits. *)
Definition below_100kHz (p : processed) (d : pdata) (q : R * C * C) : Prop := In q (measured p d) /\ fst (fst q) < 100000.
(** Limits symmetric about zero that just hold the values [g] of the bins below 100 kHz: the larger
    of the greatest value and minus the smallest one. *)
Definition just_holds (g : C -> R) (dt : R) (p : processed) (d : pdata) (lim : option (R * R)) : Prop :=
  exists b, lim = Some (- b, b) /\
    (forall q, below_100kHz p d q -> - b <= g (undelayed dt (fst (fst q)) (snd (fst q))) <= b) /\
    (exists q, below_100kHz p d q /\
      (g (undelayed dt (fst (fst q)) (snd (fst q))) = b \/ g (undelayed dt (fst (fst q)) (snd (fst q))) = - b)).
(** From the lowest to the highest positive frequency. *)
Definition spans_positive (p : processed) (lim : option (R * R)) : Prop :=
  exists lo hi, lim = Some (lo, hi) /\ In lo (positive (p_freq p)) /\ In hi (positive (p_freq p)) /\
    forall f, In f (positive (p_freq p)) -> lo <= f <= hi.

(** The points of the first curve: [x, y]. *)
Definition first_curve (a : daxes) : option curve :=
  match x_marks a with Dots c :: _ | Line c :: _ => Some c | [] => None end.
Definition first_point (a : daxes) (k : nat) (x y : R) : Prop :=
  exists c, first_curve a = Some c /\ nth_error (c_x c) k = Some x /\ nth_error (c_y c) k = Some (Some y).

(** A fit with the lowest cost, the first of those. *)
Definition best_fit (o : dobj) (i : Z) (r : pfit) : Prop :=
  fit_of o i = Some r /\
  forall j r', fit_of o j = Some r' -> pf_cost r <= pf_cost r' /\ ((j < i)%Z -> pf_cost r < pf_cost r').

(** The point [x, y] is one of the curve of the fit with [i] poles. *)
Definition on_fit (a : daxes) (i : Z) (x y : R) : Prop :=
  exists c j, In (Line c) (x_marks a) /\ c_label c = Some (fit_label i) /\
    nth_error (c_x c) j = Some x /\ nth_error (c_y c) j = Some (Some y).
(** The measured admittance is that of the fit [r], delayed by the fit's time offset. *)
Definition follows_fit (p : processed) (d : pdata) (r : pfit) : Prop :=
  forall q, In q (measured p d) -> exists y, complexadmittance (fst (fst q)) (pf_args r) = Ok y /\
    snd (fst q) = (y * cis (- (2 * PI * fst (fst q) * pf_dt r)))%C.

(** The impedance plot: a point per measured bin, and the impedance of every fit to be drawn at the
    positive frequencies. *)
Definition dvdi_points (dt : R) (l : list (R * C * C)) : curve :=
  mkCurve (map (fun q => fst (/ undelayed dt (fst (fst q)) (snd (fst q)))%C) l)
    (map (fun q => Some (snd (/ undelayed dt (fst (fst q)) (snd (fst q)))%C)) l) (Some "Mean"%string).
Definition dvdi_fit_curve (o : dobj) (p : processed) (i : Z) (m : mark) : Prop :=
  exists r zs, fit_of o i = Some r /\
    Forall2 (fun f z => compleximpedance f (pf_args r) = Ok z) (positive (p_freq p)) zs /\
    m = Line (mkCurve (map fst zs) (map (fun z => Some (snd z)) zs) (Some (fit_label i))).
Definition dvdi_curves (o : dobj) (s : selection) (p : processed) (d : pdata) (ms : list mark) : Prop :=
  exists l fits, drawn_fits o s l /\ Forall2 (dvdi_fit_curve o p) l fits /\
    ms = Dots (dvdi_points (best_offset o) (measured p d)) :: fits.
(** No fitted impedance vanishes at a positive frequency of the data. *)
Definition impedances_nonzero (o : dobj) (p : processed) : Prop :=
  forall i r f z, fit_of o i = Some r -> In f (positive (p_freq p)) -> compleximpedance f (pf_args r) = Ok z -> z <> RtoC 0.

(** A call that raises before any figure is shown or saved. *)
Definition fails (out : dout) (e : exn) : Prop := out = ([], Err e).

(** The mean trace upside down and half a period earlier. *)
Definition flipped_curve (o : dobj) (p : processed) (d : pdata) : mark :=
  Line (mkCurve (map (fun t => 10 ^ 6 * (t - 1 / b_sgfreq o / 2)) (p_time p))
         (map (fun v => Some (10 ^ 6 * - (v - d_offset d))) (d_tmean d)) (Some "Flipped Data"%string)).
(** Mean and bounds of a frequency domain figure. *)
Definition bound_curves (a : daxes) : option (curve * curve * curve) :=
  match x_marks a with Dots c :: Line u :: Line l :: _ => Some (c, u, l) | _ => None end.
