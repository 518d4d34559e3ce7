(** * The dIdV plots of qetpy/core/didv/_plot_didv.py

    An axes is modelled by the data handed to matplotlib: the curves with their labels, the title
    and the limits.  Colours, fonts, grids, axis labels, the logarithmic scale and the rendering are
    not modelled; nor are failures of [savefig], the widening of limits that coincide, and figures
    of earlier calls that [plt.show] shows again.  The argument [poles] is "all", an integer or a
    list of integers. *)
From Coq Require Import String Reals.
From Coquelicot Require Import Complex.
From Verif Require Import Base Dft UtilsModel DidvModel PlotModel IvPlotModel.
Local Open Scope R_scope.

(** ** The object *)

(** What the plots use of one fit result: the keyword arguments taken from 'smallsignalparams' or,
    for a fit with priors, from 'params'; params['dt']; the cost;
    qetpy/core/didv/_plot_didv.py:17-18, 62-74. *)
Record pfit : Type := mkPfit { pf_args : tesargs; pf_dt : R; pf_cost : R }.

(** A DIDV or DIDVPriors object with the attributes the plots use;
    qetpy/core/didv/_base_didv.py:462-493. *)
Record dobj : Type := mkDobj {
  b_proc : option processed; b_sgamp : R; b_sgfreq : R; b_duty : R;
  b_fit1 : option pfit; b_fit2 : option pfit; b_fit3 : option pfit }.

(** The result of DIDV.dofit has the key 'smallsignalparams'; qetpy/core/didv/_plot_didv.py:62-63. *)
Definition didv_fit (r : fitres) : pfit := mkPfit (ss_args (r_ss r)) (last (r_params r) 0) (r_cost r).
(** The result of DIDVPriors.dofit has not; qetpy/core/didv/_plot_didv.py:64-65. *)
Definition priors_fit (r : priorsres) : pfit := mkPfit (ss_args (q_params r)) (last (q_params r) 0) (q_cost r).
(** The two classes inherit the plots; qetpy/core/didv/_didv.py:121, _didv_priors.py:17. *)
Definition of_didv (o : didv) : dobj :=
  mkDobj (dproc o) (dsgamp o) (dsgfreq o) (dduty o)
    (option_map didv_fit (dres1 o)) (option_map didv_fit (dres2 o)) (option_map didv_fit (dres3 o)).
Definition of_priors (o : pdidv) : dobj :=
  mkDobj (dproc (pd o)) (dsgamp (pd o)) (dsgfreq (pd o)) (dduty (pd o))
    (option_map priors_fit (pres1 o)) (option_map priors_fit (pres2 o)) (option_map priors_fit (pres3 o)).

(** [_get_best_time_offset], qetpy/core/didv/_plot_didv.py:10-40. *)
Definition best_offset (o : dobj) : R :=
  best_time_offset (map (option_map (fun r => (pf_cost r, pf_dt r))) [b_fit1 o; b_fit2 o; b_fit3 o]).

(** ** Figures *)

(** [ax.scatter] or [ax.plot]; qetpy/core/didv/_plot_didv.py:54, 316. *)
Inductive mark : Type := Dots (c : curve) | Line (c : curve).

(** The axes of a figure; qetpy/core/didv/_plot_didv.py:154-155, 395-396. *)
Record daxes : Type := mkDaxes {
  x_title : option string; x_marks : list mark; x_xlim : option (R * R); x_ylim : option (R * R) }.

(** [fig.savefig] or [plt.show]; qetpy/core/didv/_plot_didv.py:157-161. *)
Inductive dev : Type := DSaved (path : string) (a : daxes) | DShown (a : daxes).
Definition dout : Type := (list dev * res unit)%type.

(** The end of every plot; qetpy/core/didv/_plot_didv.py:157-161. *)
Definition present (saveplot : bool) (savepath prefix savename : string) (r : res daxes) : dout :=
  match r with
  | Err e => ([], Err e)
  | Ok a => ([if saveplot then DSaved (savepath ++ prefix ++ savename ++ ".png")%string a else DShown a], Ok tt)
  end.
(** One figure after another; qetpy/core/didv/_plot_didv.py:428-449. *)
Definition followed (m k : dout) : dout :=
  match snd m with Ok _ => ((fst m ++ fst k)%list, snd k) | Err e => (fst m, Err e) end.

(** [title], limits. *)
Definition titled (t : string) (a : daxes) : daxes := mkDaxes (Some t) (x_marks a) (x_xlim a) (x_ylim a).
Definition xlimited (l : R * R) (a : daxes) : daxes := mkDaxes (x_title a) (x_marks a) (Some l) (x_ylim a).
Definition ylimited (l : R * R) (a : daxes) : daxes := mkDaxes (x_title a) (x_marks a) (x_xlim a) (Some l).
Definition marked (m : mark) (a : daxes) : daxes := mkDaxes (x_title a) (x_marks a ++ [m])%list (x_xlim a) (x_ylim a).

(** [p in poleslist]; qetpy/core/didv/_plot_didv.py:46-49, 61. *)
Definition asked (s : selection) (p : Z) : bool :=
  match s with
  | SAll => (p =? 1)%Z || (p =? 2)%Z || (p =? 3)%Z
  | SOne z => (z =? p)%Z
  | SMany zs => existsb (Z.eqb p) zs
  end.

(** The three [if (self._ipoleresult is not None) and (i in poleslist)] blocks;
    qetpy/core/didv/_plot_didv.py:61-119, 338-381, 548-591. *)
Fixpoint fit_marks (s : selection) (dr : pfit -> string -> res curve) (l : list (Z * option pfit * string)) : res (list mark) :=
  match l with
  | [] => Ok []
  | (p, Some r, label) :: l =>
      if asked s p then do c <- dr r label; do cs <- fit_marks s dr l; Ok (Line c :: cs)
      else fit_marks s dr l
  | (_, None, _) :: l => fit_marks s dr l
  end.
(** qetpy/core/didv/_plot_didv.py:78, 98, 118. *)
Definition three_fits (o : dobj) : list (Z * option pfit * string) :=
  [(1%Z, b_fit1 o, "1-Pole Fit"%string); (2%Z, b_fit2 o, "2-Pole Fit"%string); (3%Z, b_fit3 o, "3-Pole Fit"%string)].

(** Attributes that are None before processtraces: arithmetic with None is a TypeError;
    qetpy/core/didv/_plot_didv.py:55, 305. *)
Definition ready (o : dobj) : res processed := match b_proc o with Some p => Ok p | None => Err TypeError end.

(** ** Time domain *)

(** [(self._tmean - self._offset) * k]: nan when every trace was cut;
    qetpy/core/didv/_plot_didv.py:56, 278. *)
Definition mean_trace (p : processed) (k : R) : list (option R) :=
  match p_data p with
  | Some d => map (fun v => Some ((v - d_offset d) * k)) (d_tmean d)
  | None => map (fun _ => None) (p_time p)
  end.

(** A fit in the time domain; qetpy/core/didv/_plot_didv.py:66-79. *)
Definition time_fit (o : dobj) (p : processed) (r : pfit) (label : string) : res curve :=
  do y <- squarewaveresponse (length (p_time p)) (fun j => nth j (p_time p) 0) (b_sgamp o) (b_sgfreq o) (b_duty o) (pf_args r);
  draw (map (fun t => (t + pf_dt r) * 10 ^ 6) (p_time p)) (map (fun v => Some (v * 10 ^ 6)) y) (Some label).

(** [_plot_time_domain], qetpy/core/didv/_plot_didv.py:43-127. *)
Definition plot_time_domain (o : dobj) (s : selection) : res daxes :=
  do p <- ready o;
  do c <- draw (map (fun t => t * 10 ^ 6) (p_time p)) (mean_trace p (10 ^ 6)) (Some "Mean"%string);
  do fs <- fit_marks s (time_fit o p) (three_fits o);
  Ok (mkDaxes None (Line c :: fs) None None).

(** qetpy/core/didv/_plot_didv.py:130-161. *)
Definition plot_full_trace (o : dobj) (s : selection) (saveplot : bool) (savepath savename : string) : dout :=
  present saveplot savepath "full_trace_" savename
    (do a <- plot_time_domain o s;
     do p <- ready o;
     do t0 <- pyindex (p_time p) 0;
     do t1 <- pyindex (p_time p) (-1);
     Ok (titled "Full Trace of dIdV" (xlimited (t0 * 10 ^ 6, t1 * 10 ^ 6) a))).

(** qetpy/core/didv/_plot_didv.py:164-197. *)
Definition plot_single_period_of_trace (o : dobj) (s : selection) (saveplot : bool) (savepath savename : string) : dout :=
  present saveplot savepath "trace_one_period_" savename
    (do a <- plot_time_domain o s;
     let period := 1 / b_sgfreq o in
     do p <- ready o;
     do t0 <- pyindex (p_time p) 0;
     Ok (titled "Single Period of Trace" (xlimited (t0 * 10 ^ 6, t0 * 10 ^ 6 + period * 10 ^ 6) a))).

(** qetpy/core/didv/_plot_didv.py:200-247. *)
Definition plot_zoomed_in_trace (o : dobj) (s : selection) (zoomfactor : R) (saveplot : bool) (savepath savename : string) : dout :=
  present saveplot savepath "zoomed_in_trace_" savename
    (let period := 1 / b_sgfreq o in
     let dt := best_offset o in
     do a <- plot_time_domain o s;
     do p <- ready o;
     do t0 <- pyindex (p_time p) 0;
     Ok (titled "Zoomed In Portion of Trace"
       (xlimited ((dt + t0 + (1 / 2 - zoomfactor / 2) * period) * 10 ^ 6,
                  (dt + t0 + (1 / 2 + zoomfactor / 2) * period) * 10 ^ 6) a))).

(** qetpy/core/didv/_plot_didv.py:250-293. *)
Definition plot_didv_flipped (o : dobj) (s : selection) (saveplot : bool) (savepath savename : string) : dout :=
  present saveplot savepath "flipped_trace_" savename
    (do a <- plot_time_domain o s;
     let period := 1 / b_sgfreq o in
     do p <- ready o;
     do c <- draw (map (fun t => (t - period / 2) * 10 ^ 6) (p_time p))
               (map (option_map (fun v => - v * 10 ^ 6)) (mean_trace p 1)) (Some "Flipped Data"%string);
     Ok (titled "Flipped Traces to Check Asymmetry" (marked (Line c) a))).

(** ** Frequency domain *)

(** [np.abs(didvmean / didvstd) > 2.0] for one bin; a vanishing error gives inf, or nan where the
    mean vanishes too; qetpy/core/didv/_plot_didv.py:305, 530. *)
Definition goodind (m s : C) : bool :=
  if Ceq_dec s (RtoC 0) then (if Ceq_dec m (RtoC 0) then false else true) else Rltb 2 (Cmod (m / s)%C).

(** The bins of [plotinds]; arrays of different lengths do not combine (numpy's broadcasting of
    arrays of length one is not modelled); qetpy/core/didv/_plot_didv.py:305-307, 530-532. *)
Definition plotted_bins (p : processed) : res (list (R * C * C)) :=
  match p_data p with
  | None => Ok []
  | Some d =>
      if ((length (d_mean d) =? length (d_std d)) && (length (d_mean d) =? length (p_freq p)))%nat then
        Ok (filter (fun q => Rltb 0 (fst (fst q)) && goodind (snd (fst q)) (snd q))
              (combine (combine (p_freq p) (d_mean d)) (d_std d)))
      else Err ValueError
  end.

(** [time_phase], qetpy/core/didv/_plot_didv.py:311, 536. *)
Definition time_phase (dt f : R) : C := cis (2 * PI * dt * f).

(** [np.angle] (a negative zero as imaginary part is not modelled); qetpy/core/didv/_plot_didv.py:488. *)
Definition np_angle (z : C) : R :=
  let (x, y) := z in
  if Rltb 0 x then atan (y / x)
  else if Rltb x 0 then (if Rltb y 0 then atan (y / x) - PI else atan (y / x) + PI)
  else if Rltb 0 y then PI / 2 else if Rltb y 0 then - (PI / 2) else 0.

(** A fit in the frequency domain, [x] and [y] being what is drawn of a frequency and an admittance;
    qetpy/core/didv/_plot_didv.py:343-351, 553-561. *)
Definition freq_fit (x y : R -> C -> R) (p : processed) (r : pfit) (label : string) : res curve :=
  do ys <- each (fun f => complexadmittance f (pf_args r)) (p_freq p);
  let l := filter (fun q => Rltb 0 (fst q)) (combine (p_freq p) ys) in
  draw (map (fun q => x (fst q) (snd q)) l) (map (fun q => Some (y (fst q) (snd q))) l) (Some label).

(** Python's [max] and [min]; qetpy/core/didv/_plot_didv.py:386-396. *)
Definition max_of (l : list R) : res R :=
  match l with [] => Err ValueError | x :: l => Ok (fold_left (fun m x => if Rltb m x then x else m) l x) end.
Definition min_of (l : list R) : res R :=
  match l with [] => Err ValueError | x :: l => Ok (fold_left (fun m x => if Rltb x m then x else m) l x) end.

(** [_plot_freq_domain], qetpy/core/didv/_plot_didv.py:296-402. *)
Definition plot_freq_domain (g : C -> R) (o : dobj) (s : selection) : res daxes :=
  do p <- ready o;
  do bins <- plotted_bins p;
  let dt := best_offset o in
  let x := map (fun q => fst (fst q)) bins in
  let mean q := g (snd (fst q) * time_phase dt (fst (fst q)))%C in
  do c <- draw x (map (fun q => Some (mean q)) bins) (Some "Mean"%string);
  do up <- draw x (map (fun q => Some (g ((snd (fst q) + snd q) * time_phase dt (fst (fst q)))%C)) bins)
             (Some "1-$\sigma$ Bounds"%string);
  do lo <- draw x (map (fun q => Some (g ((snd (fst q) - snd q) * time_phase dt (fst (fst q)))%C)) bins) None;
  do fs <- fit_marks s (freq_fit (fun f _ => f) (fun _ y => g y) p) (three_fits o);
  let low := map mean (filter (fun q => Rltb (fst (fst q)) 100000) bins) in
  do yhigh <- max_of low;
  do ylow <- min_of low;
  let ybnd := if Rltb yhigh (- ylow) then - ylow else yhigh in
  let pos := filter (Rltb 0) (p_freq p) in
  do f0 <- min_of pos;
  do f1 <- max_of pos;
  Ok (mkDaxes None (Dots c :: Line up :: Line lo :: fs) (Some (f0, f1)) (Some (- ybnd, ybnd))).

(** qetpy/core/didv/_plot_didv.py:405-449. *)
Definition plot_re_im_didv (o : dobj) (s : selection) (saveplot : bool) (savepath savename : string) : dout :=
  followed
    (present saveplot savepath "didv_real_" savename (do a <- plot_freq_domain fst o s; Ok (titled "Real Part of dIdV" a)))
    (present saveplot savepath "didv_imag_" savename (do a <- plot_freq_domain snd o s; Ok (titled "Imaginary Part of dIdV" a))).

(** [ax.set_ylim(0)] keeps the upper limit; qetpy/core/didv/_plot_didv.py:479. *)
Definition from_zero (a : daxes) : daxes :=
  match x_ylim a with Some (_, top) => ylimited (0, top) a | None => a end.

(** qetpy/core/didv/_plot_didv.py:452-498. *)
Definition plot_abs_phase_didv (o : dobj) (s : selection) (saveplot : bool) (savepath savename : string) : dout :=
  followed
    (present saveplot savepath "didv_abs_" savename (do a <- plot_freq_domain Cmod o s; Ok (from_zero (titled "|dIdV|" a))))
    (present saveplot savepath "didv_phase_" savename
      (do a <- plot_freq_domain np_angle o s; Ok (ylimited (- PI, PI) (titled "Phase of dIdV" a)))).

(** qetpy/core/didv/_plot_didv.py:501-606.  The points drawn have a mean that is not zero; a fit
    whose impedance vanishes (inf in numpy) is excluded by the theorems' hypotheses. *)
Definition plot_re_vs_im_dvdi (o : dobj) (s : selection) (saveplot : bool) (savepath savename : string) : dout :=
  present saveplot savepath "dvdi_real_vs_imag_" savename
    (do p <- ready o;
     do bins <- plotted_bins p;
     let dt := best_offset o in
     let z q := (1 / (snd (fst q) * time_phase dt (fst (fst q))))%C in
     do c <- draw (map (fun q => fst (z q)) bins) (map (fun q => Some (snd (z q))) bins) (Some "Mean"%string);
     do fs <- fit_marks s (freq_fit (fun _ y => fst (1 / y)%C) (fun _ y => snd (1 / y)%C) p) (three_fits o);
     Ok (mkDaxes (Some "Re($dV/dI$) vs. Im($dV/dI$)"%string) (Dots c :: fs) None None)).
