(** * The plot of the nonlinear fit, qetpy/plotting/_fitting_plotting.py

    The figure is modelled by the data handed to matplotlib: titles, curves and the texts of the
    legends.  Colours, fonts, grids, axis labels, the logarithmic scale and the rendering are not
    modelled.  The figure is neither shown, saved nor closed. *)
From Coq Require Import String Reals ZArith List Bool.
From Coquelicot Require Import Complex.
From Verif Require Import Base Dft UtilsModel OFModel PlotModel NonlinModel.
Import ListNotations.
Local Open Scope R_scope.

(** The attributes of an OFnonlin object that the plot uses, [n] being the length of its arrays;
    qetpy/core/_fitting.py:1649-1668, 2153-2164. *)
Record nlobj : Type := mkNlo {
  l_n : nat; l_fs : R; l_npole : Z; l_scale : bool; l_rise : option R; l_data : nat -> C; l_error : nat -> R }.

(** A text of the legend, 'name: (value +\- error) [unit]'; the rounding to four digits is not
    modelled; qetpy/plotting/_fitting_plotting.py:185-214. *)
Record entry : Type := mkEntry { e_name : string; e_value : R; e_error : R; e_unit : string }.
(** 1e6 and 1e3 are exact; qetpy/plotting/_fitting_plotting.py:187, 193. *)
Definition micro_amp (s : string) (v e : R) : entry := mkEntry s (v * 10 ^ 6) (e * 10 ^ 6) "$\mu$A".
Definition micro_s (s : string) (v e : R) : entry := mkEntry s (v * 10 ^ 6) (e * 10 ^ 6) "$\mu$s".
Definition milli_s (s : string) (v e : R) : entry := mkEntry s (v * 10 ^ 3) (e * 10 ^ 3) "ms".

(** The four axes; [g_legend]: the empty curves of the last axes with their labels, [g_entries]: the
    texts of the parameters; qetpy/plotting/_fitting_plotting.py:69, 178-231. *)
Record nlfig : Type := mkNlf {
  g_title : option string; g_freq : axes; g_zoom : axes; g_full : axes; g_legend : axes; g_entries : list entry }.

(** What depends on the number of poles: fit in both domains, rise time, fall time and its factor for
    the window, start time, texts. *)
Record shape : Type := mkShape {
  h_freq : option (nat -> C); h_time : res (option (list R)); h_rise : R; h_fall : R; h_factor : R; h_t0 : R;
  h_title : option string; h_labels : list entry }.

(** Unpacking; 9 fall times after the offset for three and four poles, 7 otherwise;
    qetpy/plotting/_fitting_plotting.py:26-54, 70-77, 88-99, 184-214. *)
Definition unpack (o : nlobj) (params errors : list R) : res shape :=
  let n := l_n o in let fs := l_fs o in
  if (l_npole o =? 4)%Z then
    match params, errors with
    | [A; B; D; tr; t1; t2; t3; t0], [Ae; Be; De; tre; t1e; t2e; t3e; t0e] =>
        Ok (mkShape (Some (fourpole n fs A B D tr t1 t2 t3 t0))
              (do y <- fourpoletime n fs A B D tr t1 t2 t3 t0; Ok (Some y)) tr t1 9 t0
              (Some "Non-Linear Four Pole Fit"%string)
              [micro_amp "A" A Ae; micro_amp "B" B Be; micro_amp "C" D De; micro_s "τ, f1" t1 t1e;
               micro_s "τ, f2" t2 t2e; micro_s "τ, f3" t3 t3e; milli_s "$t_0$" t0 t0e; micro_s "τ$_r$" tr tre])
    | _, _ => Err ValueError
    end
  else if (l_npole o =? 3)%Z then
    match params, errors with
    | [A; B; tr; t1; t2; t0], [Ae; Be; tre; t1e; t2e; t0e] =>
        Ok (mkShape (Some (threepole n fs A B tr t1 t2 t0))
              (do y <- threepoletime n fs A B tr t1 t2 t0; Ok (Some y)) tr t1 9 t0
              (Some "Non-Linear Three Pole Fit"%string)
              [micro_amp "A" A Ae; micro_amp "B" B Be; micro_s "τ, f1" t1 t1e; micro_s "τ, f2" t2 t2e;
               milli_s "$t_0$" t0 t0e; micro_s "τ$_r$" tr tre])
    | _, _ => Err ValueError
    end
  else if (l_npole o =? 2)%Z then
    match params, errors with
    | [A; tr; tf; t0], [Ae; tre; tfe; t0e] =>
        Ok (mkShape (twopole n fs (l_scale o) A tr tf t0) (twopoletime n fs (l_scale o) A tr tf t0) tr tf 7 t0
              (Some "Non-Linear Two Pole Fit"%string)
              [micro_amp "A" A Ae; micro_s "τ$_f$" tf tfe; milli_s "$t_0$" t0 t0e; micro_s "τ$_r$" tr tre])
    | _, _ => Err ValueError
    end
  else
    match params, errors with
    | [A; tf; t0], [Ae; tfe; t0e] =>
        match l_rise o with
        | Some tr =>
            Ok (mkShape (twopole n fs (l_scale o) A tr tf t0) (twopoletime n fs (l_scale o) A tr tf t0) tr tf 7 t0
                  (if (l_npole o =? 1)%Z then Some "Non-Linear Two Pole Fit (Fixed Rise Time)"%string else None)
                  [micro_amp "A" A Ae; micro_s "τ$_f$" tf tfe; milli_s "$t_0$" t0 t0e; micro_s "τ$_r$" tr 0])
        | None => Err TypeError
        end
    | _, _ => Err ValueError
    end.

(** The trace minus its mean before the pulse or, if the pulse comes early, from 10000 bins after
    [nbaseline] on; the mean of an empty slice is nan; qetpy/plotting/_fitting_plotting.py:56-60. *)
Definition baseline_removed (fs t0 : R) (pulse : list R) : list (option R) :=
  let nbaseline := (int_trunc (fs * t0) - 1000)%Z in
  let part := if (0 <? nbaseline)%Z then pyslice pulse 0 nbaseline
              else pyslice pulse (nbaseline + 10000) (Z.of_nat (length pulse)) in
  match npmean part with
  | Some m => map (fun v => Some (v - m)) pulse
  | None => map (fun _ => None) pulse
  end.

(** [a[f > 0]]; qetpy/plotting/_fitting_plotting.py:62-65. *)
Definition at_positive {A} (o : nlobj) (a : nat -> A) : list A :=
  map a (filter (fun k => Rltb 0 (fftfreq (l_n o) (l_fs o) k)) (seq 0 (l_n o))).

(** [plotnonlin], qetpy/plotting/_fitting_plotting.py:10-234. *)
Definition plotnonlin (o : nlobj) (pulse params errors : list R) : res nlfig :=
  do h <- unpack o params errors;
  let fs := l_fs o in
  let t0ind := int_trunc (h_t0 h * fs) in
  let nmin := (t0ind - int_trunc (5 * h_rise h * fs))%Z in
  let nmax := (t0ind + int_trunc (h_factor h * h_fall h * fs))%Z in
  let shown := baseline_removed fs (h_t0 h) pulse in
  let f := at_positive o (fftfreq (l_n o) fs) in
  do f1 <- draw f (at_positive o (fun k => Some (Cmod (l_data o k)))) (Some "Pulse"%string);
  do f2 <- draw f (at_positive o (fun k => match h_freq h with Some m => Some (Cmod (m k)) | None => None end)) (Some "Fit"%string);
  do f3 <- draw f (at_positive o (fun k => Some (l_error o k))) (Some "$\sqrt{PSD}$"%string);
  let time := map (fun t => t * 10 ^ 3) (nl_time (l_n o) fs) in
  do z1 <- draw (pyslice time nmin nmax) (pyslice shown nmin nmax) (Some "Pulse"%string);
  do y <- h_time h;
  let fit := match y with Some l => map Some l | None => map (fun _ => None) time end in
  do z2 <- draw (pyslice time nmin nmax) (pyslice fit nmin nmax) (Some "Time Domain"%string);
  do t1 <- draw time shown (Some "Pulse"%string);
  do t2 <- draw time fit (Some "Time Domain"%string);
  let empty l := mkCurve [] [] l in
  Ok (mkNlf (h_title h)
        (mkAxes (Some "Frequency Domain Trace"%string) false [f1; f2; f3])
        (mkAxes (Some "Time Series Trace (Zoomed)"%string) false [z1; z2])
        (mkAxes (Some "Time Series Trace (Full)"%string) false [t1; t2])
        (mkAxes None true (empty (Some "Best Fit"%string) :: empty (Some "Raw Data"%string) :: empty (Some "$\sqrt{PSD}$"%string)
                           :: map (fun _ => empty None) params))
        (firstn (length params) (h_labels h))).

(** [fit_falltimes] with [lgcplot=True]: plot of the trace, the fitted parameters and their errors;
    qetpy/core/_fitting.py:2153-2164, 2364-2367. *)
Definition fit_falltimes_plot (lsq : lsq_oracle) (pinv : nat -> (nat -> nat -> R) -> nat -> nat -> R)
  (psd : list R) (fs : R) (template : option (list R)) (taurise0 : option R)
  (pulse : list R) (npole : Z) (errscale : R) (guess : option (list R))
  (bounds : option (list (option R) * list (option R))) (taurise : option R) (scale_amplitude : bool)
  : option R * res (nl_result * nlfig) :=
  let r := fit_falltimes lsq pinv psd fs template taurise0 pulse npole errscale guess bounds taurise scale_amplitude in
  (fst r,
   do out <- snd r;
   let o := mkNlo (length psd) fs npole scale_amplitude (fst r) (nl_data fs pulse) (nl_error (nl_psd psd) errscale) in
   do fig <- plotnonlin o pulse (nl_variables out) (nl_errors out);
   Ok (out, fig)).
