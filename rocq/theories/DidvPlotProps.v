(** * Properties of the dIdV plots *)
From Coq Require Import String Reals Sorted.
From Coquelicot Require Import Complex.
From Verif Require Import Base ListLemmas Dft UtilsModel DidvModel DidvSpec DidvProofs2 DidvProofs6 PlotModel IvPlotModel DidvPlotModel DidvPlotSpec
  DidvPlotProofs1 DidvPlotProofs2 DidvPlotProofs3 DidvPlotProofs4 DidvPlotProofs5.
Local Open Scope R_scope.

(** ** C140: the time domain plots *)

Theorem C140_full_trace : forall o s p d sv sp sn, prepared o p d -> complete o ->
  makes (plot_full_trace o s sv sp sn) sv (sp ++ "full_trace_" ++ sn ++ ".png") (fun a =>
    x_title a = Some "Full Trace of dIdV"%string /\ time_curves o s p d (x_marks a) /\ x_ylim a = None /\
    x_xlim a = Some (10 ^ 6 * nth 0 (p_time p) 0, 10 ^ 6 * nth (length (p_time p) - 1) (p_time p) 0)).
Proof. exact full_trace_ok. Qed.
Print Assumptions C140_full_trace.

Theorem C140_single_period : forall o s p d sv sp sn, prepared o p d -> complete o ->
  makes (plot_single_period_of_trace o s sv sp sn) sv (sp ++ "trace_one_period_" ++ sn ++ ".png") (fun a =>
    x_title a = Some "Single Period of Trace"%string /\ time_curves o s p d (x_marks a) /\ x_ylim a = None /\
    x_xlim a = Some (10 ^ 6 * nth 0 (p_time p) 0, 10 ^ 6 * (nth 0 (p_time p) 0 + 1 / b_sgfreq o))).
Proof. exact single_period_ok. Qed.
Print Assumptions C140_single_period.

Theorem C140_zoomed : forall o s p d z sv sp sn, prepared o p d -> complete o ->
  makes (plot_zoomed_in_trace o s z sv sp sn) sv (sp ++ "zoomed_in_trace_" ++ sn ++ ".png") (fun a =>
    x_title a = Some "Zoomed In Portion of Trace"%string /\ time_curves o s p d (x_marks a) /\ x_ylim a = None /\
    exists lo hi, x_xlim a = Some (lo, hi) /\ hi - lo = 10 ^ 6 * (z * (1 / b_sgfreq o)) /\
      (lo + hi) / 2 = 10 ^ 6 * (nth 0 (p_time p) 0 + (1 / b_sgfreq o) / 2 + best_offset o)).
Proof. exact zoomed_ok. Qed.
Print Assumptions C140_zoomed.

(** The legend: "Mean", then the fits that are both stored and asked for. *)
Theorem C140_which_fits : forall o s l, drawn_fits o s l ->
  l = filter (fun i => match fit_of o i with Some _ => asked s i | None => false end) [1%Z; 2%Z; 3%Z].
Proof. exact drawn_unique. Qed.
Print Assumptions C140_which_fits.

(** The offset of the best fit; none without fits. *)
Theorem C140_best_offset : forall o, 
  (forall i r, best_fit o i r -> best_offset o = pf_dt r) /\ ((forall i, fit_of o i = None) -> best_offset o = 0).
Proof. intros o. split; [exact (best_offset_some o)|exact (best_offset_none o)]. Qed.
Print Assumptions C140_best_offset.

Example C140_ex : prepared ex_dobj ex_dproc ex_pdata /\ complete ex_dobj /\ best_fit ex_dobj 1 ex_fit1 /\
  drawn_fits ex_dobj SAll [1%Z] /\ drawn_fits ex_dobj (SMany [2%Z; 3%Z]) [].
Proof.
  split; [exact ex_prepared|]. split; [exact ex_complete|]. split; [exact ex_best|].
  split; [exact (chosen_drawn ex_dobj SAll)|exact (chosen_drawn ex_dobj (SMany [2%Z; 3%Z]))].
Qed.

(** ** C141: the flipped trace *)

Theorem C141_flipped : forall o s p d sv sp sn, prepared o p d -> complete o ->
  makes (plot_didv_flipped o s sv sp sn) sv (sp ++ "flipped_trace_" ++ sn ++ ".png") (fun a =>
    x_title a = Some "Flipped Traces to Check Asymmetry"%string /\ x_xlim a = None /\ x_ylim a = None /\
    exists ms, time_curves o s p d ms /\ x_marks a = (ms ++ [flipped_curve o p d])%list).
Proof. exact flipped_ok. Qed.
Print Assumptions C141_flipped.

Theorem C141_symmetric_overlays : forall o p d (h : nat),
  length (d_tmean d) = length (p_time p) ->
  (forall j, (j + h < length (p_time p))%nat -> nth (j + h) (p_time p) 0 = nth j (p_time p) 0 + 1 / b_sgfreq o / 2) ->
  (forall j, (j + h < length (p_time p))%nat -> nth (j + h) (d_tmean d) 0 - d_offset d = - (nth j (d_tmean d) 0 - d_offset d)) ->
  forall c f, time_mean p d = Line c -> flipped_curve o p d = Line f ->
  forall j, (j + h < length (p_time p))%nat ->
    nth_error (c_x f) (j + h) = nth_error (c_x c) j /\ nth_error (c_y f) (j + h) = nth_error (c_y c) j.
Proof. exact flipped_overlays. Qed.
Print Assumptions C141_symmetric_overlays.

Example C141_ex :
  (forall j, (j + 1 < length (p_time ex_dproc))%nat -> nth (j + 1) (p_time ex_dproc) 0 = nth j (p_time ex_dproc) 0 + 1 / b_sgfreq ex_dobj / 2) /\
  (forall j, (j + 1 < length (p_time ex_dproc))%nat ->
     nth (j + 1) (d_tmean ex_pdata) 0 - d_offset ex_pdata = - (nth j (d_tmean ex_pdata) 0 - d_offset ex_pdata)).
Proof. split; intros j Hj; cbn in Hj; (assert (j = 0%nat) as -> by lia); cbn; field. Qed.

(** ** C142: the frequency domain plots *)

Theorem C142_real_imaginary : forall o s p d sv sp sn, prepared o p d -> complete o -> (exists q, below_100kHz p d q) ->
  makes2 (plot_re_im_didv o s sv sp sn) sv (sp ++ "didv_real_" ++ sn ++ ".png") (sp ++ "didv_imag_" ++ sn ++ ".png") (fun a b =>
    x_title a = Some "Real Part of dIdV"%string /\ x_title b = Some "Imaginary Part of dIdV"%string /\
    freq_curves fst o s p d (x_marks a) /\ freq_curves snd o s p d (x_marks b) /\
    spans_positive p (x_xlim a) /\ spans_positive p (x_xlim b) /\
    just_holds fst (best_offset o) p d (x_ylim a) /\ just_holds snd (best_offset o) p d (x_ylim b)).
Proof. exact re_im_ok. Qed.
Print Assumptions C142_real_imaginary.

Theorem C142_magnitude_phase : forall o s p d sv sp sn, prepared o p d -> complete o -> (exists q, below_100kHz p d q) ->
  makes2 (plot_abs_phase_didv o s sv sp sn) sv (sp ++ "didv_abs_" ++ sn ++ ".png") (sp ++ "didv_phase_" ++ sn ++ ".png") (fun a b =>
    x_title a = Some "|dIdV|"%string /\ x_title b = Some "Phase of dIdV"%string /\
    freq_curves Cmod o s p d (x_marks a) /\ freq_curves np_angle o s p d (x_marks b) /\
    spans_positive p (x_xlim a) /\ spans_positive p (x_xlim b) /\
    (exists top, x_ylim a = Some (0, top) /\
      (forall q, below_100kHz p d q -> Cmod (snd (fst q)) <= top) /\ exists q, below_100kHz p d q /\ Cmod (snd (fst q)) = top) /\
    x_ylim b = Some (- PI, PI)).
Proof. exact abs_phase_ok. Qed.
Print Assumptions C142_magnitude_phase.

Example C142_ex : prepared ex_dobj ex_dproc ex_pdata /\ complete ex_dobj /\ exists q, below_100kHz ex_dproc ex_pdata q.
Proof. exact (conj ex_prepared (conj ex_complete ex_below)). Qed.

(** ** C143: real part, imaginary part, magnitude and phase agree *)

Theorem C143_phase_of : forall z, - PI < np_angle z <= PI /\ z = (RtoC (Cmod z) * cis (np_angle z))%C.
Proof. exact np_angle_spec. Qed.
Print Assumptions C143_phase_of.

Theorem C143_polar : forall o s p d a b c e k x1 x2 x3 x4 re im m ph,
  freq_curves fst o s p d (x_marks a) -> freq_curves snd o s p d (x_marks b) ->
  freq_curves Cmod o s p d (x_marks c) -> freq_curves np_angle o s p d (x_marks e) ->
  first_point a k x1 re -> first_point b k x2 im -> first_point c k x3 m -> first_point e k x4 ph ->
  x1 = x2 /\ x1 = x3 /\ x1 = x4 /\ 0 < x1 /\ 0 < m /\ - PI < ph <= PI /\ re = m * cos ph /\ im = m * sin ph.
Proof. exact consistent. Qed.
Print Assumptions C143_polar.

Example C143_ex : exists a b, plot_re_im_didv ex_dobj SAll false "" "" = ([DShown a; DShown b], Ok tt) /\
  freq_curves fst ex_dobj SAll ex_dproc ex_pdata (x_marks a) /\ exists x y, first_point a 0 x y.
Proof.
  destruct (C142_real_imaginary ex_dobj SAll ex_dproc ex_pdata false "" "" ex_prepared ex_complete ex_below) as (a & b & E & _ & _ & H & _).
  exists a, b. split; [exact E|]. split; [exact H|]. do 2 eexists. apply (freq_first_point _ _ _ _ _ _ 0 _ _ H).
  eexists. rewrite ex_measured. repeat split.
Qed.

(** ** C144: data that follow the best fit lie on its curve *)

Theorem C144_real_imaginary : forall o s p d i r sv sp sn, prepared o p d -> complete o -> (exists q, below_100kHz p d q) ->
  best_fit o i r -> to_draw o s i -> follows_fit p d r ->
  makes2 (plot_re_im_didv o s sv sp sn) sv (sp ++ "didv_real_" ++ sn ++ ".png") (sp ++ "didv_imag_" ++ sn ++ ".png") (fun a b =>
    forall k x y, (first_point a k x y -> on_fit a i x y) /\ (first_point b k x y -> on_fit b i x y)).
Proof.
  intros o s p d i r sv sp sn P C Q B T F. destruct (re_im_ok o s p d sv sp sn P C Q) as (a & b & E & _ & _ & Ha & Hb & _).
  exists a, b. split; [exact E|]. intros k x y. split; [exact (freq_overlay _ _ _ _ _ _ _ _ Ha B T F k x y)|exact (freq_overlay _ _ _ _ _ _ _ _ Hb B T F k x y)].
Qed.
Print Assumptions C144_real_imaginary.

Theorem C144_magnitude_phase : forall o s p d i r sv sp sn, prepared o p d -> complete o -> (exists q, below_100kHz p d q) ->
  best_fit o i r -> to_draw o s i -> follows_fit p d r ->
  makes2 (plot_abs_phase_didv o s sv sp sn) sv (sp ++ "didv_abs_" ++ sn ++ ".png") (sp ++ "didv_phase_" ++ sn ++ ".png") (fun a b =>
    forall k x y, (first_point a k x y -> on_fit a i x y) /\ (first_point b k x y -> on_fit b i x y)).
Proof.
  intros o s p d i r sv sp sn P C Q B T F. destruct (abs_phase_ok o s p d sv sp sn P C Q) as (a & b & E & _ & _ & Ha & Hb & _).
  exists a, b. split; [exact E|]. intros k x y. split; [exact (freq_overlay _ _ _ _ _ _ _ _ Ha B T F k x y)|exact (freq_overlay _ _ _ _ _ _ _ _ Hb B T F k x y)].
Qed.
Print Assumptions C144_magnitude_phase.

Theorem C144_impedance : forall o s p d i r sv sp sn, prepared o p d -> complete o -> impedances_nonzero o p ->
  best_fit o i r -> to_draw o s i -> follows_fit p d r ->
  makes (plot_re_vs_im_dvdi o s sv sp sn) sv (sp ++ "dvdi_real_vs_imag_" ++ sn ++ ".png") (fun a =>
    forall k x y, first_point a k x y -> on_fit a i x y).
Proof.
  intros o s p d i r sv sp sn P C Z B T F. destruct (dvdi_ok o s p d sv sp sn P C Z) as (a & E & _ & Ha & _).
  exists a. split; [exact E|]. exact (dvdi_overlay _ _ _ _ _ _ _ Ha Z B T F).
Qed.
Print Assumptions C144_impedance.

Example C144_ex : prepared ex_exact ex_exact_proc ex_exact_data /\ complete ex_exact /\
  (exists q, below_100kHz ex_exact_proc ex_exact_data q) /\ impedances_nonzero ex_exact ex_exact_proc /\
  best_fit ex_exact 1 ex_fit1 /\ to_draw ex_exact SAll 1 /\ follows_fit ex_exact_proc ex_exact_data ex_fit1 /\ pf_dt ex_fit1 = 1 / 8.
Proof.
  split; [exact ex_exact_prepared|]. split; [exact ex_exact_complete|]. split; [exact ex_exact_below|].
  split; [exact ex_exact_impedances|]. split; [exact ex_exact_best|]. split; [|split; [exact ex_exact_follows|reflexivity]].
  split; [lia|]. split; [discriminate|exact I].
Qed.

(** ** C145: the impedance plot *)

Theorem C145_impedance_plot : forall o s p d sv sp sn, prepared o p d -> complete o -> impedances_nonzero o p ->
  makes (plot_re_vs_im_dvdi o s sv sp sn) sv (sp ++ "dvdi_real_vs_imag_" ++ sn ++ ".png") (fun a =>
    x_title a = Some "Re($dV/dI$) vs. Im($dV/dI$)"%string /\ dvdi_curves o s p d (x_marks a) /\
    x_xlim a = None /\ x_ylim a = None).
Proof. exact dvdi_ok. Qed.
Print Assumptions C145_impedance_plot.

(** Its points are the reciprocals of the points of the admittance plots. *)
Theorem C145_reciprocal : forall o s p d a b e k x1 x2 re im zr zi,
  freq_curves fst o s p d (x_marks a) -> freq_curves snd o s p d (x_marks b) -> dvdi_curves o s p d (x_marks e) ->
  first_point a k x1 re -> first_point b k x2 im -> first_point e k zr zi ->
  re * zr - im * zi = 1 /\ re * zi + im * zr = 0.
Proof. exact reciprocal. Qed.
Print Assumptions C145_reciprocal.

Example C145_ex : prepared ex_dobj ex_dproc ex_pdata /\ complete ex_dobj /\ impedances_nonzero ex_dobj ex_dproc.
Proof. exact (conj ex_prepared (conj ex_complete ex_impedances)). Qed.

(** ** C146: failures leave no figure *)

Theorem C146_not_processed : forall o s z sv sp sn, b_proc o = None ->
  fails (plot_full_trace o s sv sp sn) TypeError /\ fails (plot_single_period_of_trace o s sv sp sn) TypeError /\
  fails (plot_zoomed_in_trace o s z sv sp sn) TypeError /\ fails (plot_didv_flipped o s sv sp sn) TypeError /\
  fails (plot_re_im_didv o s sv sp sn) TypeError /\ fails (plot_abs_phase_didv o s sv sp sn) TypeError /\
  fails (plot_re_vs_im_dvdi o s sv sp sn) TypeError.
Proof. exact not_ready. Qed.
Print Assumptions C146_not_processed.

Theorem C146_nothing_measured : forall o s p d sv sp sn, prepared o p d -> complete o -> ~ (exists q, below_100kHz p d q) ->
  fails (plot_re_im_didv o s sv sp sn) ValueError /\ fails (plot_abs_phase_didv o s sv sp sn) ValueError.
Proof. exact nothing_measured. Qed.
Print Assumptions C146_nothing_measured.

Theorem C146_all_cut : forall o s p sv sp sn, b_proc o = Some p -> p_data p = None -> complete o ->
  fails (plot_re_im_didv o s sv sp sn) ValueError /\ fails (plot_abs_phase_didv o s sv sp sn) ValueError.
Proof. exact all_cut. Qed.
Print Assumptions C146_all_cut.

(** The time domain plots are drawn all the same, with a mean trace of nan. *)
Theorem C146_all_cut_times : forall o s p z sv sp sn, b_proc o = Some p -> p_data p = None -> (2 <= length (p_time p))%nat -> complete o ->
  exists l fits, drawn_fits o s l /\ Forall2 (time_fit_curve o p) l fits /\
    makes (plot_full_trace o s sv sp sn) sv (sp ++ "full_trace_" ++ sn ++ ".png") (fun a => x_marks a = time_nan p :: fits) /\
    makes (plot_single_period_of_trace o s sv sp sn) sv (sp ++ "trace_one_period_" ++ sn ++ ".png") (fun a => x_marks a = time_nan p :: fits) /\
    makes (plot_zoomed_in_trace o s z sv sp sn) sv (sp ++ "zoomed_in_trace_" ++ sn ++ ".png") (fun a => x_marks a = time_nan p :: fits) /\
    makes (plot_didv_flipped o s sv sp sn) sv (sp ++ "flipped_trace_" ++ sn ++ ".png") (fun a => exists c,
      x_marks a = ((time_nan p :: fits) ++ [Line c])%list /\ c_y c = repeat None (length (p_time p))).
Proof.
  intros o s p z sv sp sn Hp Hd Hn Hc. destruct (time_domain_nan o s p Hp Hd Hn Hc) as (l & fits & E & D & F).
  exists l, fits. split; [exact D|]. split; [exact F|].
  unfold plot_full_trace, plot_single_period_of_trace, plot_zoomed_in_trace, plot_didv_flipped, ready. rewrite E, Hp. cbn [bind].
  rewrite first_sample, last_sample by exact Hn. unfold mean_trace. rewrite Hd.
  rewrite draw_ok by now rewrite !map_length. cbn [bind present].
  split; [eexists; split; reflexivity|]. split; [eexists; split; reflexivity|]. split; [eexists; split; reflexivity|].
  eexists. split; [reflexivity|]. cbn [titled marked x_marks]. eexists. split; [reflexivity|]. cbn [c_y]. rewrite map_map.
  generalize (p_time p). intros q. induction q as [|x q IH]; [reflexivity|]. cbn [map repeat length]. f_equal. exact IH.
Qed.
Print Assumptions C146_all_cut_times.
Example C146_all_cut_times_ex : exists l fits,
  let p := mkProc [0; 1] [0; 1] [] 1 [] None in let o := mkDobj (Some p) 1 1 (1 / 2) None None None in
  drawn_fits o SAll l /\ makes (plot_full_trace o SAll true "" "x") true ("" ++ "full_trace_" ++ "x" ++ ".png") (fun a => x_marks a = time_nan p :: fits).
Proof.
  destruct (C146_all_cut_times (mkDobj (Some (mkProc [0; 1] [0; 1] [] 1 [] None)) 1 1 (1 / 2) None None None) SAll (mkProc [0; 1] [0; 1] [] 1 [] None)
    1 true "" "x") as (l & fits & D & _ & M & _); [reflexivity|reflexivity|cbn; lia| |now exists l, fits].
  intros i r. unfold fit_of. cbn. destruct (i =? 1)%Z; [discriminate|]. destruct (i =? 2)%Z; [discriminate|]. destruct (i =? 3)%Z; discriminate.
Qed.

Theorem C146_mismatched : forall o s p d sv sp sn, b_proc o = Some p -> p_data p = Some d ->
  length (d_mean d) <> length (d_std d) \/ length (d_mean d) <> length (p_freq p) ->
  fails (plot_re_im_didv o s sv sp sn) ValueError /\ fails (plot_abs_phase_didv o s sv sp sn) ValueError /\
  fails (plot_re_vs_im_dvdi o s sv sp sn) ValueError.
Proof. exact mismatched. Qed.
Print Assumptions C146_mismatched.

Example C146_ex :
  let p := mkProc [0; 1] [0; 1] [] 1 [] (Some (mkData [1; 3] [RtoC 1; RtoC 1] [RtoC 1; RtoC 1] [] 2 0)) in
  let o := mkDobj (Some p) 1 1 (1 / 2) None None None in
  fails (plot_re_im_didv o SAll true "" "x") ValueError.
Proof.
  intros p o. apply (C146_nothing_measured o SAll p (mkData [1; 3] [RtoC 1; RtoC 1] [RtoC 1; RtoC 1] [] 2 0)).
  - unfold prepared. cbn. repeat split. lia.
  - intros i r. unfold fit_of. cbn. destruct (i =? 1)%Z; [discriminate|]. destruct (i =? 2)%Z; [discriminate|]. destruct (i =? 3)%Z; discriminate.
  - intros (q & Hq & _). apply measured_in in Hq. destruct Hq as [Hq [_ S]]. cbn in Hq.
    destruct Hq as [<-|[<-|[]]]; cbn [fst snd] in S; rewrite Cmod_1 in S; lra.
Qed.

(** ** C147: objects from the public API can be plotted *)

Theorem C147_didv : forall fit fs ops raw rate sgfreq sgamp rsh gain r0 rp duty add180 dt0 o,
  didv_init raw rate sgfreq sgamp rsh gain r0 rp duty add180 dt0 = Ok o ->
  let o' := run_didvs fit fs ops o in
  complete (of_didv o') /\ forall p d, dproc o' = Some p -> p_data p = Some d -> prepared (of_didv o') p d.
Proof.
  intros fit fs ops raw rate sgfreq sgamp rsh gain r0 rp duty add180 dt0 o E o'. apply sane_plot. apply sane_runs.
  exact (sane_init _ _ _ _ _ _ _ _ _ _ _ _ E).
Qed.
Print Assumptions C147_didv.

(** What the plots show of an object: its square wave, and of each fit the small-signal parameters,
    the last fit parameter as time offset, and the cost. *)
Theorem C147_attributes : forall o q,
  let od := of_didv o in let op := of_priors q in
  b_sgamp od = dsgamp o /\ b_sgfreq od = dsgfreq o /\ b_duty od = dduty o /\ b_proc od = dproc o /\
  b_sgamp op = dsgamp (pd q) /\ b_sgfreq op = dsgfreq (pd q) /\ b_duty op = dduty (pd q) /\ b_proc op = dproc (pd q) /\
  (forall i r, nth_error [dres1 o; dres2 o; dres3 o] i = Some (Some r) -> exists f, fit_of od (Z.of_nat (i + 1)) = Some f /\
     pf_args f = ss_args (r_ss r) /\ pf_cost f = r_cost r /\ pf_dt f = nth (length (r_params r) - 1) (r_params r) 0) /\
  (forall i r, nth_error [pres1 q; pres2 q; pres3 q] i = Some (Some r) -> exists f, fit_of op (Z.of_nat (i + 1)) = Some f /\
     pf_args f = ss_args (q_params r) /\ pf_cost f = q_cost r /\ pf_dt f = nth (length (q_params r) - 1) (q_params r) 0) /\
  (forall i, nth_error [dres1 o; dres2 o; dres3 o] i = Some None -> fit_of od (Z.of_nat (i + 1)) = None) /\
  (forall i, nth_error [pres1 q; pres2 q; pres3 q] i = Some None -> fit_of op (Z.of_nat (i + 1)) = None).
Proof.
  assert (L : forall l : list R, last l 0 = nth (length l - 1) l 0).
  { induction l as [|x l IH]; [reflexivity|]. destruct l as [|y l]; [reflexivity|]. change (last (x :: y :: l) 0) with (last (y :: l) 0).
    rewrite IH. cbn [length]. replace (S (S (length l)) - 1)%nat with (S (S (length l) - 1)) by lia. reflexivity. }
  intros o q od op. do 8 (split; [reflexivity|]). split; [|split; [|split]].
  - intros i r H. exists (didv_fit r). split; [|split; [reflexivity|split; [reflexivity|apply L]]].
    destruct i as [|[|[|[|i]]]]; cbn [nth_error] in H; try discriminate H; injection H as H; unfold fit_of, od, of_didv; cbn; now rewrite H.
  - intros i r H. exists (priors_fit r). split; [|split; [reflexivity|split; [reflexivity|apply L]]].
    destruct i as [|[|[|[|i]]]]; cbn [nth_error] in H; try discriminate H; injection H as H; unfold fit_of, op, of_priors; cbn; now rewrite H.
  - intros i H. destruct i as [|[|[|[|i]]]]; cbn [nth_error] in H; try discriminate H; injection H as H; unfold fit_of, od, of_didv; cbn; now rewrite H.
  - intros i H. destruct i as [|[|[|[|i]]]]; cbn [nth_error] in H; try discriminate H; injection H as H; unfold fit_of, op, of_priors; cbn; now rewrite H.
Qed.
Print Assumptions C147_attributes.

Theorem C147_from_data : forall fit fs ops tmean mean std off offe rate sgfreq sgamp rsh r0 rp add180 dt0 o,
  (2 <= length tmean)%nat -> length mean = length tmean -> length std = length tmean ->
  didvinitfromdata tmean mean std off offe rate sgfreq sgamp rsh r0 rp add180 dt0 = Ok o ->
  let o' := run_didvs fit fs ops o in
  complete (of_didv o') /\ forall p d, dproc o' = Some p -> p_data p = Some d -> prepared (of_didv o') p d.
Proof.
  intros fit fs ops tmean mean std off offe rate sgfreq sgamp rsh r0 rp add180 dt0 o H1 H2 H3 E o'. apply sane_plot. apply sane_runs.
  exact (sane_from_data _ _ _ _ _ _ _ _ _ _ _ _ _ _ H1 H2 H3 E).
Qed.
Print Assumptions C147_from_data.

(** One fit with priors after another. *)
Theorem C147_priors : forall calls raw rate sgfreq sgamp rsh gain r0 rp duty add180 dt0 o,
  didv_init raw rate sgfreq sgamp rsh gain r0 rp duty add180 dt0 = Ok o ->
  let o' := fold_left (fun q c => fst (match c with (fit, fs, min, pinv, poles, priors, pcov, fc) =>
                 priors_dofit fit fs min pinv poles priors pcov fc q end)) calls (mkPDidv o None None None) in
  complete (of_priors o') /\ forall p d, dproc (pd o') = Some p -> p_data p = Some d -> prepared (of_priors o') p d.
Proof.
  intros calls raw rate sgfreq sgamp rsh gain r0 rp duty add180 dt0 o E o'. apply psane_plot. unfold o'.
  assert (S : psane (mkPDidv o None None None)).
  { split; [exact (sane_init _ _ _ _ _ _ _ _ _ _ _ _ E)|]. intros i r X. destruct i as [|[|[|[|i]]]]; discriminate X. }
  revert S. generalize (mkPDidv o None None None). induction calls as [|c calls IH]; intros q S; [exact S|].
  cbn [fold_left]. apply IH. destruct c as [[[[[[[fit fs] min] pinv] poles] priors] pcov] fc]. now apply psane_dofit.
Qed.
Print Assumptions C147_priors.

Example C147_ex : exists o, didv_init [[0; 1; 4; 3]] 4 1 1 1 1 1 0 (1 / 2) false 0 = Ok o.
Proof.
  unfold didv_init. destruct (Req_EM_T _ _) as [_|N]; [eexists; reflexivity|]. exfalso. apply N.
  replace (4 / 1) with (IZR 4) by field. now rewrite Int_part_IZR.
Qed.

(** ** C148: the bounds *)

Theorem C148_bounds_partial : forall (g : C -> R) o s p d a,
  (g = fst \/ g = snd) -> freq_curves g o s p d (x_marks a) -> best_offset o = 0 ->
  exists c u l, bound_curves a = Some (c, u, l) /\ forall k q, nth_error (measured p d) k = Some q ->
    nth_error (c_y c) k = Some (Some (g (snd (fst q)))) /\
    nth_error (c_y u) k = Some (Some (g (snd (fst q)) + g (snd q))) /\
    nth_error (c_y l) k = Some (Some (g (snd (fst q)) - g (snd q))).
Proof. exact bounds_undelayed. Qed.
Print Assumptions C148_bounds_partial.

(** With a fitted time offset the "1-sigma" lines can coincide with the mean although both errors of
    the bin are positive. *)
Theorem C148_bounds_refuted : exists o p d, prepared o p d /\ complete o /\
  (forall q, In q (measured p d) -> 0 < fst (snd q) /\ 0 < snd (snd q)) /\
  forall s sv sp sn, makes2 (plot_re_im_didv o s sv sp sn) sv (sp ++ "didv_real_" ++ sn ++ ".png") (sp ++ "didv_imag_" ++ sn ++ ".png")
    (fun a _ => exists c u l y, bound_curves a = Some (c, u, l) /\ c_y c = [Some y] /\ c_y u = [Some y] /\ c_y l = [Some y]).
Proof.
  exists ex_dobj, ex_dproc, ex_pdata. split; [exact ex_prepared|]. split; [exact ex_complete|]. split; [|exact ex_bounds_collapse].
  rewrite ex_measured. intros q [<-|[]]. cbn [fst snd]. lra.
Qed.
Print Assumptions C148_bounds_refuted.

Example C148_ex : best_offset (mkDobj (Some ex_dproc) 1 (1 / 2) (1 / 2) None None None) = 0.
Proof. reflexivity. Qed.
