(** * Properties of the plot of the nonlinear fit *)
From Coq Require Import String Reals ZArith List Lia Lra Bool.
From Coquelicot Require Import Complex.
From Verif Require Import Base Dft UtilsSpec OFModel OFProofs3 PlotModel NonlinModel NonlinSpec NonlinProofs4 NonlinProps NonlinPlotModel
  NonlinPlotSpec NonlinPlotProofs NonlinPlotProofs2.
Import ListNotations.
Local Open Scope R_scope.

(** ** C152: plotnonlin draws the data, the fitted pulse and the fitted parameters *)

(** [f] is the pulse in the frequency domain (its form: C58, C98), [u] in time. *)
Theorem C152_figure : forall o pulse params errors,
  let n := l_n o in let fs := l_fs o in
  0 < fs -> length pulse = n -> length params = param_count (l_npole o) -> length errors = length params ->
  usable_start (l_npole o) (l_scale o) (l_rise o) params ->
  exists f u y shown g zoom,
    nl_model n fs (l_npole o) (l_scale o) (l_rise o) params = Ok (Some f) /\
    pulse_form (l_npole o) (l_scale o) (l_rise o) params u /\
    is_shift_of (mk n (fun i => u (INR i / fs))) (int_trunc (last params 0 * fs)) 0 y /\
    plotnonlin o pulse params errors = Ok g /\
    (let K := ((n - 1) / 2)%nat in
     let F := mk K (fun j => INR (j + 1) * fs / INR n) in
     g_freq g = mkAxes (Some "Frequency Domain Trace"%string) false
       [mkCurve F (mk K (fun j => Some (Cmod (l_data o (j + 1)%nat)))) (Some "Pulse"%string);
        mkCurve F (mk K (fun j => Some (Cmod (f (j + 1)%nat)))) (Some "Fit"%string);
        mkCurve F (mk K (fun j => Some (l_error o (j + 1)%nat))) (Some "$\sqrt{PSD}$"%string)]) /\
    (let T := mk n (fun i => 1000 * (INR i / fs)) in
     g_full g = mkAxes (Some "Time Series Trace (Full)"%string) false
       [mkCurve T shown (Some "Pulse"%string); mkCurve T (map Some y) (Some "Time Domain"%string)]) /\
    length shown = n /\
    g_zoom g = mkAxes (Some "Time Series Trace (Zoomed)"%string) false zoom /\
    a_hidden (g_legend g) = true /\ a_title (g_legend g) = None /\
    map c_label (a_curves (g_legend g))
      = (Some "Best Fit"%string :: Some "Raw Data"%string :: Some "$\sqrt{PSD}$"%string :: repeat None (length params)) /\
    (forall c, In c (a_curves (g_legend g)) -> c_x c = [] /\ c_y c = []).
Proof.
  intros o pulse params errors n fs Hf Hp Lp Le U.
  destruct (usable_model n fs (l_npole o) (l_scale o) (l_rise o) params U Lp) as (f & M).
  destruct (unpack_form o params errors U Lp Le) as (h & u & y & Eh & Ty & Fm & S).
  destruct (plot_ok o pulse params errors Hf Hp (Some f) M Le) as (h' & y' & Eh' & _ & Ty' & _ & _ & _ & _ & _ & _ & G).
  assert (h' = h) by congruence. subst h'. assert (y' = Some y) by congruence. subst y'. cbv zeta in G.
  exists f, u, y, (baseline_removed fs (last params 0) pulse). eexists. eexists.
  split; [exact M|]. split; [exact Fm|]. split; [exact S|]. split; [exact G|]. cbn [g_freq g_full g_zoom g_legend a_hidden a_title a_curves].
  split.
  { unfold mk. do 2 f_equal; [|f_equal; [|f_equal]]; f_equal; apply map_ext; intros j; rewrite Nat.add_1_r; reflexivity. }
  split.
  { unfold mk. do 2 f_equal; [|f_equal]; f_equal; apply map_ext; intros j; unfold fs; lra. }
  split; [unfold fs; rewrite baseline_length; exact Hp|]. split; [reflexivity|]. split; [reflexivity|]. split; [reflexivity|]. split.
  - cbn [map c_label]. rewrite map_map. cbn [c_label]. do 3 f_equal. clear. induction params as [|a l IH]; [reflexivity|]. cbn. now f_equal.
  - intros c [<-|[<-|[<-|H]]]; try (split; reflexivity). apply in_map_iff in H. destruct H as (x & <- & _). split; reflexivity.
Qed.
Print Assumptions C152_figure.

(** Title and texts; [v i] and [w i] are the i-th parameter and its error.  With a fixed rise time
    its text is not shown. *)
Theorem C152_texts : forall o pulse params errors m,
  0 < l_fs o -> length pulse = l_n o -> nl_model (l_n o) (l_fs o) (l_npole o) (l_scale o) (l_rise o) params = Ok m ->
  length errors = length params ->
  let v i := nth i params 0 in let w i := nth i errors 0 in
  let uA s i := mkEntry s (v i * 10 ^ 6) (w i * 10 ^ 6) "$\mu$A" in
  let us s i := mkEntry s (v i * 10 ^ 6) (w i * 10 ^ 6) "$\mu$s" in
  let ms s i := mkEntry s (v i * 10 ^ 3) (w i * 10 ^ 3) "ms" in
  exists g, plotnonlin o pulse params errors = Ok g /\
  (l_npole o = 4%Z -> g_title g = Some "Non-Linear Four Pole Fit"%string /\
     g_entries g = [uA "A"%string 0%nat; uA "B"%string 1%nat; uA "C"%string 2%nat; us "τ, f1"%string 4%nat; us "τ, f2"%string 5%nat;
                    us "τ, f3"%string 6%nat; ms "$t_0$"%string 7%nat; us "τ$_r$"%string 3%nat]) /\
  (l_npole o = 3%Z -> g_title g = Some "Non-Linear Three Pole Fit"%string /\
     g_entries g = [uA "A"%string 0%nat; uA "B"%string 1%nat; us "τ, f1"%string 3%nat; us "τ, f2"%string 4%nat; ms "$t_0$"%string 5%nat;
                    us "τ$_r$"%string 2%nat]) /\
  (l_npole o = 2%Z -> g_title g = Some "Non-Linear Two Pole Fit"%string /\
     g_entries g = [uA "A"%string 0%nat; us "τ$_f$"%string 2%nat; ms "$t_0$"%string 3%nat; us "τ$_r$"%string 1%nat]) /\
  (l_npole o <> 4%Z -> l_npole o <> 3%Z -> l_npole o <> 2%Z ->
     g_title g = (if (l_npole o =? 1)%Z then Some "Non-Linear Two Pole Fit (Fixed Rise Time)"%string else None) /\
     g_entries g = [uA "A"%string 0%nat; us "τ$_f$"%string 1%nat; ms "$t_0$"%string 2%nat]).
Proof.
  intros o pulse params errors m Hf Hp M Le v w uA us ms.
  destruct (plot_ok o pulse params errors Hf Hp m M Le) as (h & y & Eh & _ & _ & _ & _ & _ & _ & _ & _ & G).
  eexists. split; [exact G|]. cbn [g_title g_entries]. exact (unpack_texts o params errors h Eh).
Qed.
Print Assumptions C152_texts.

(** Parameters or errors of the wrong number, or a missing rise time, are reported. *)
Theorem C152_rejects : forall o pulse params errors,
  (length params <> param_count (l_npole o) \/ length errors <> param_count (l_npole o) ->
     plotnonlin o pulse params errors = Err ValueError) /\
  (length params = param_count (l_npole o) -> length errors = param_count (l_npole o) ->
   l_npole o <> 4%Z -> l_npole o <> 3%Z -> l_npole o <> 2%Z -> l_rise o = None ->
     plotnonlin o pulse params errors = Err TypeError).
Proof. exact plot_rejects. Qed.
Print Assumptions C152_rejects.

(** With scaled amplitudes and equal rise and fall time the fit cannot be drawn: its curves are nan. *)
Theorem C152_equal_times_refuted : forall o pulse A tau t0 errors,
  0 < l_fs o -> length pulse = l_n o -> l_npole o = 2%Z -> l_scale o = true -> length errors = 4%nat ->
  exists g f1 f2 f3 t1 t2, plotnonlin o pulse [A; tau; tau; t0] errors = Ok g /\
    a_curves (g_freq g) = [f1; f2; f3] /\ a_curves (g_full g) = [t1; t2] /\
    (forall v, In v (c_y f2) -> v = None) /\ (forall v, In v (c_y t2) -> v = None) /\ length (c_y t2) = l_n o.
Proof.
  intros o pulse A tau t0 errors Hf Hp N Sc Le.
  destruct (C58_equal_refuted (l_n o) (l_fs o) A tau t0) as (T & F & _).
  assert (M : nl_model (l_n o) (l_fs o) (l_npole o) (l_scale o) (l_rise o) [A; tau; tau; t0] = Ok None).
  { rewrite N, Sc. cbn [nl_model Z.eqb Pos.eqb]. now rewrite F. }
  destruct (plot_ok o pulse [A; tau; tau; t0] errors Hf Hp None M Le) as (h & y & Eh & _ & Ty & _ & _ & _ & _ & _ & _ & G).
  assert (y = None).
  { do 5 (destruct errors as [|? errors]; try discriminate Le). unfold unpack in Eh. rewrite N in Eh. cbn [Z.eqb Pos.eqb] in Eh.
    assert (X : h_time h = twopoletime (l_n o) (l_fs o) (l_scale o) A tau tau t0) by (injection Eh as <-; reflexivity).
    rewrite Sc, T in X. congruence. }
  subst y. do 6 eexists. split; [exact G|]. cbn [g_freq g_full a_curves c_y]. split; [reflexivity|]. split; [reflexivity|]. split; [|split].
  - intros v H. unfold mk in H. apply in_map_iff in H. now destruct H as (? & <- & _).
  - intros v H. apply in_map_iff in H. now destruct H as (? & <- & _).
  - cbn [c_y]. now rewrite map_length, mk_length.
Qed.
Print Assumptions C152_equal_times_refuted.

Definition ex_obj : nlobj := mkNlo 4 1000 2 true None (fun _ => RtoC 1) (fun _ => 1).
Lemma ex_usable : usable_start 2 true None [1; 2; 3; / 500].
Proof.
  split; [|split].
  - intros v H. cbn in H. decompose [or] H; subst; try lra; contradiction.
  - intros _ _. cbn. lra.
  - intros X. now exfalso.
Qed.
Example C152_ex : exists f u y (shown : list (option R)) g zoom,
    nl_model 4 1000 2 true None [1; 2; 3; / 500] = Ok (Some f) /\ pulse_form 2 true None [1; 2; 3; / 500] u /\
    is_shift_of (mk 4 (fun i => u (INR i / 1000))) (int_trunc (/ 500 * 1000)) 0 y /\
    plotnonlin ex_obj [0; 1; 0; 0] [1; 2; 3; / 500] [1; 1; 1; 1] = Ok g /\ length shown = 4%nat /\
    g_zoom g = mkAxes (Some "Time Series Trace (Zoomed)"%string) false zoom.
Proof.
  destruct (C152_figure ex_obj [0; 1; 0; 0] [1; 2; 3; / 500] [1; 1; 1; 1]) as (f & u & y & s & g & z & H1 & H2 & H3 & H4 & _ & _ & H5 & H6 & _);
    [cbn; lra|reflexivity|reflexivity|reflexivity|exact ex_usable|].
  exists f, u, y, s, g, z. repeat (split; [assumption|]). assumption.
Qed.
Example C152_texts_ex : exists g, plotnonlin ex_obj [0; 1; 0; 0] [1; 2; 3; / 500] [5; 6; 7; 8] = Ok g /\
  length (g_entries g) = 4%nat /\ g_title g = Some "Non-Linear Two Pole Fit"%string.
Proof.
  destruct (usable_model 4 1000 2 true None [1; 2; 3; / 500] ex_usable eq_refl) as (f & M).
  destruct (C152_texts ex_obj [0; 1; 0; 0] [1; 2; 3; / 500] [5; 6; 7; 8] (Some f)) as (g & G & _ & _ & T & _);
    [cbn; lra|reflexivity|exact M|reflexivity|].
  destruct (T eq_refl) as [T1 T2]. exists g. rewrite T2. repeat split; assumption.
Qed.
Example C152_rejects_ex : plotnonlin ex_obj [0; 1; 0; 0] [1; 2; 3] [5; 6; 7; 8] = Err ValueError.
Proof. apply C152_rejects. left. discriminate. Qed.
Example C152_equal_ex : exists g, plotnonlin ex_obj [0; 1; 0; 0] [1; 2; 2; / 500] [5; 6; 7; 8] = Ok g.
Proof.
  destruct (C152_equal_times_refuted ex_obj [0; 1; 0; 0] 1 2 (/ 500) [5; 6; 7; 8]) as (g & _ & _ & _ & _ & _ & G & _);
    try reflexivity; [cbn; lra|]. now exists g.
Qed.

(** ** C153: baseline and window of the time axes *)

(** The baseline is the mean up to 1000 samples before the pulse, if there are any; for an earlier
    pulse the mean from 9000 samples after its start on. *)
Theorem C153_baseline_partial : forall o pulse params errors m,
  0 < l_fs o -> length pulse = l_n o -> nl_model (l_n o) (l_fs o) (l_npole o) (l_scale o) (l_rise o) params = Ok m ->
  length errors = length params -> pulse <> [] ->
  let start := int_trunc (l_fs o * last params 0) in
  exists g t1 t2, plotnonlin o pulse params errors = Ok g /\ a_curves (g_full g) = [t1; t2] /\
    ((1000 < start)%Z -> exists part, samples pulse 0 (Z.to_nat (start - 1000)) part /\
       c_y t1 = map (fun v => Some (v - lmean part)) pulse) /\
    ((-9000 <= start <= 1000)%Z -> (start + 9000 < Z.of_nat (l_n o))%Z ->
       exists part, samples pulse (Z.to_nat (start + 9000)) (l_n o) part /\
       c_y t1 = map (fun v => Some (v - lmean part)) pulse).
Proof.
  intros o pulse params errors m Hf Hp M Le N start.
  destruct (plot_ok o pulse params errors Hf Hp m M Le) as (h & y & _ & _ & _ & _ & _ & _ & _ & _ & _ & G).
  do 3 eexists. split; [exact G|]. cbn [g_full a_curves]. split; [reflexivity|]. cbn [c_y]. split.
  - intros H. exact (baseline_late (l_fs o) (last params 0) pulse H N).
  - intros [H1 H2] H3. rewrite <- Hp. apply (baseline_early (l_fs o) (last params 0) pulse); [exact H2|exact H1|]. now rewrite Hp.
Qed.
Print Assumptions C153_baseline_partial.

(** An early pulse in a trace that ends before these 9000 samples are over is drawn as nan. *)
Theorem C153_baseline_refuted : forall o pulse params errors m,
  0 < l_fs o -> length pulse = l_n o -> nl_model (l_n o) (l_fs o) (l_npole o) (l_scale o) (l_rise o) params = Ok m ->
  length errors = length params ->
  let start := int_trunc (l_fs o * last params 0) in
  (-9000 <= start <= 1000)%Z -> (Z.of_nat (l_n o) <= start + 9000)%Z ->
  exists g t1 t2, plotnonlin o pulse params errors = Ok g /\ a_curves (g_full g) = [t1; t2] /\
    c_y t1 = repeat None (l_n o).
Proof.
  intros o pulse params errors m Hf Hp M Le start [H1 H2] H3.
  destruct (plot_ok o pulse params errors Hf Hp m M Le) as (h & y & _ & _ & _ & _ & _ & _ & _ & _ & _ & G).
  do 3 eexists. split; [exact G|]. cbn [g_full a_curves]. split; [reflexivity|]. cbn [c_y].
  rewrite baseline_nan; [|exact H2|exact H1|now rewrite Hp]. rewrite <- Hp. clear. induction pulse as [|x l IH]; [reflexivity|].
  cbn. now f_equal.
Qed.
Print Assumptions C153_baseline_refuted.

(** The zoomed axes show the samples from five rise times before to seven (nine) fall times after the
    start of the pulse, if that window starts inside the trace. *)
Theorem C153_window_partial : forall o pulse params errors m tau,
  0 < l_fs o -> length pulse = l_n o -> nl_model (l_n o) (l_fs o) (l_npole o) (l_scale o) (l_rise o) params = Ok m ->
  length errors = length params -> rise_of (l_npole o) (l_rise o) params = Some tau ->
  let start := int_trunc (last params 0 * l_fs o) in
  let lo := (start - int_trunc (5 * tau * l_fs o))%Z in
  let hi := (start + int_trunc (falls_shown (l_npole o) * fall_of (l_npole o) params * l_fs o))%Z in
  (0 <= lo)%Z -> (0 <= hi)%Z ->
  exists g t1 t2 z1 z2, plotnonlin o pulse params errors = Ok g /\ a_curves (g_full g) = [t1; t2] /\ a_curves (g_zoom g) = [z1; z2] /\
    samples (c_x t1) (Z.to_nat lo) (Z.to_nat hi) (c_x z1) /\ samples (c_y t1) (Z.to_nat lo) (Z.to_nat hi) (c_y z1) /\
    samples (c_x t2) (Z.to_nat lo) (Z.to_nat hi) (c_x z2) /\ samples (c_y t2) (Z.to_nat lo) (Z.to_nat hi) (c_y z2) /\
    c_label z1 = Some "Pulse"%string /\ c_label z2 = Some "Time Domain"%string.
Proof.
  intros o pulse params errors m tau Hf Hp M Le Hr start lo hi H1 H2.
  destruct (plot_ok o pulse params errors Hf Hp m M Le) as (h & y & _ & _ & _ & _ & Hr' & _ & _ & _ & _ & G).
  assert (E : h_rise h = tau) by congruence. rewrite E in G.
  do 5 eexists. split; [exact G|]. cbn [g_full g_zoom a_curves]. split; [reflexivity|]. split; [reflexivity|]. cbn [c_x c_y c_label].
  repeat (split; [apply slice_samples; assumption|]). split; reflexivity.
Qed.
Print Assumptions C153_window_partial.

(** A window that starts before the trace starts, by python's rules for negative indices, that many
    samples before the end of the trace instead. *)
Theorem C153_window_wraps : forall o pulse params errors m tau,
  0 < l_fs o -> length pulse = l_n o -> nl_model (l_n o) (l_fs o) (l_npole o) (l_scale o) (l_rise o) params = Ok m ->
  length errors = length params -> rise_of (l_npole o) (l_rise o) params = Some tau ->
  let start := int_trunc (last params 0 * l_fs o) in
  let lo := (start - int_trunc (5 * tau * l_fs o))%Z in
  let hi := (start + int_trunc (falls_shown (l_npole o) * fall_of (l_npole o) params * l_fs o))%Z in
  (lo < 0)%Z -> (0 <= hi)%Z ->
  exists g t1 t2 z1 z2, plotnonlin o pulse params errors = Ok g /\ a_curves (g_full g) = [t1; t2] /\ a_curves (g_zoom g) = [z1; z2] /\
    samples (c_x t1) (Z.to_nat (Z.of_nat (l_n o) + lo)) (Z.to_nat hi) (c_x z1) /\ samples (c_y t1) (Z.to_nat (Z.of_nat (l_n o) + lo)) (Z.to_nat hi) (c_y z1) /\
    samples (c_x t2) (Z.to_nat (Z.of_nat (l_n o) + lo)) (Z.to_nat hi) (c_x z2) /\ samples (c_y t2) (Z.to_nat (Z.of_nat (l_n o) + lo)) (Z.to_nat hi) (c_y z2).
Proof.
  intros o pulse params errors m tau Hf Hp M Le Hr start lo hi H1 H2.
  destruct (plot_ok o pulse params errors Hf Hp m M Le) as (h & y & _ & _ & _ & Yl & Hr' & _ & _ & _ & _ & G).
  assert (E : h_rise h = tau) by congruence. rewrite E in G.
  do 5 eexists. split; [exact G|]. cbn [g_full g_zoom a_curves]. split; [reflexivity|]. split; [reflexivity|]. cbn [c_x c_y c_label].
  fold start lo hi.
  assert (W : forall (A : Type) (l : list A), length l = l_n o ->
    samples l (Z.to_nat (Z.of_nat (l_n o) + lo)) (Z.to_nat hi) (pyslice l lo hi)).
  { intros A l <-. now apply slice_wraps. }
  split; [apply W; apply mk_length|]. split; [apply W; rewrite baseline_length; exact Hp|]. split; [apply W; apply mk_length|].
  apply W. destruct y as [l|]; rewrite map_length; [now apply Yl|apply mk_length].
Qed.
Print Assumptions C153_window_wraps.

(** So nothing is drawn of it unless the window reaches nearly to the end. *)
Theorem C153_window_refuted : forall o pulse params errors m tau,
  0 < l_fs o -> length pulse = l_n o -> nl_model (l_n o) (l_fs o) (l_npole o) (l_scale o) (l_rise o) params = Ok m ->
  length errors = length params -> rise_of (l_npole o) (l_rise o) params = Some tau ->
  let start := int_trunc (last params 0 * l_fs o) in
  let lo := (start - int_trunc (5 * tau * l_fs o))%Z in
  let hi := (start + int_trunc (falls_shown (l_npole o) * fall_of (l_npole o) params * l_fs o))%Z in
  (lo < 0)%Z -> (0 <= hi)%Z -> (hi <= Z.of_nat (l_n o) + lo)%Z ->
  exists g z1 z2, plotnonlin o pulse params errors = Ok g /\ a_curves (g_zoom g) = [z1; z2] /\
    c_x z1 = [] /\ c_y z1 = [] /\ c_x z2 = [] /\ c_y z2 = [].
Proof.
  intros o pulse params errors m tau Hf Hp M Le Hr start lo hi H1 H2 H3.
  destruct (plot_ok o pulse params errors Hf Hp m M Le) as (h & y & _ & _ & _ & Yl & Hr' & _ & _ & _ & _ & G).
  assert (E : h_rise h = tau) by congruence. rewrite E in G.
  do 3 eexists. split; [exact G|]. cbn [g_zoom a_curves]. split; [reflexivity|]. cbn [c_x c_y]. fold start lo hi.
  split; [|split; [|split]]; apply slice_empty; try assumption.
  - now rewrite mk_length.
  - rewrite baseline_length, Hp. exact H3.
  - now rewrite mk_length.
  - replace (length _) with (l_n o); [exact H3|]. destruct y as [l|]; rewrite map_length; [symmetry; now apply Yl|now rewrite mk_length].
Qed.
Print Assumptions C153_window_refuted.

Example C153_baseline_ex : exists g t1 t2 part, plotnonlin ex_obj [0; 1; 0; 0] [1; 2; 3; 2] [5; 6; 7; 8] = Ok g /\
  a_curves (g_full g) = [t1; t2] /\ samples [0; 1; 0; 0] 0 1000 part /\ c_y t1 = map (fun v => Some (v - lmean part)) [0; 1; 0; 0].
Proof.
  destruct (usable_model 4 1000 2 true None [1; 2; 3; 2]) as (f & M); [|reflexivity|].
  { split; [|split].
    - intros v H. cbn in H. decompose [or] H; subst; try lra; contradiction.
    - intros _ _. cbn. lra.
    - intros X. now exfalso. }
  destruct (C153_baseline_partial ex_obj [0; 1; 0; 0] [1; 2; 3; 2] [5; 6; 7; 8] (Some f)) as (g & t1 & t2 & G & T & H & _);
    [cbn; lra|reflexivity|exact M|reflexivity|discriminate|].
  assert (E : int_trunc (l_fs ex_obj * last [1; 2; 3; 2] 0) = 2000%Z).
  { cbn [l_fs ex_obj last]. replace (1000 * 2) with (IZR 2000) by lra. apply int_trunc_Z. }
  rewrite E in H. destruct (H ltac:(lia)) as (part & S & Y). exists g, t1, t2, part. repeat (split; [assumption|]). assumption.
Qed.
Example C153_baseline_early_ex : exists g t1 t2, plotnonlin ex_obj [0; 1; 0; 0] [1; 2; 3; 1] [5; 6; 7; 8] = Ok g /\
  a_curves (g_full g) = [t1; t2] /\ c_y t1 = [None; None; None; None].
Proof.
  destruct (usable_model 4 1000 2 true None [1; 2; 3; 1]) as (f & M); [|reflexivity|].
  { split; [|split].
    - intros v H. cbn in H. decompose [or] H; subst; try lra; contradiction.
    - intros _ _. cbn. lra.
    - intros X. now exfalso. }
  assert (E : int_trunc (l_fs ex_obj * last [1; 2; 3; 1] 0) = 1000%Z).
  { cbn [l_fs ex_obj last]. replace (1000 * 1) with (IZR 1000) by lra. apply int_trunc_Z. }
  apply (C153_baseline_refuted ex_obj [0; 1; 0; 0] [1; 2; 3; 1] [5; 6; 7; 8] (Some f));
    [cbn; lra|reflexivity|exact M|reflexivity|rewrite E; lia|rewrite E; cbn; lia].
Qed.
Definition ex_short : list R := [1; 1 / 5000; 3 / 1000; 2 / 1000].
Lemma ex_short_usable : usable_start 2 true None ex_short.
Proof.
  split; [|split].
  - intros v H. cbn in H. decompose [or] H; subst; try lra; contradiction.
  - intros _ _. cbn. lra.
  - intros X. now exfalso.
Qed.
Example C153_window_ex : exists g t1 t2 z1 z2, plotnonlin ex_obj [0; 1; 0; 0] ex_short [5; 6; 7; 8] = Ok g /\
  a_curves (g_full g) = [t1; t2] /\ a_curves (g_zoom g) = [z1; z2] /\ samples (c_x t1) 1 23 (c_x z1).
Proof.
  destruct (usable_model 4 1000 2 true None ex_short ex_short_usable eq_refl) as (f & M).
  assert (E1 : int_trunc (last ex_short 0 * l_fs ex_obj) = 2%Z).
  { cbn [l_fs ex_obj last ex_short]. replace (2 / 1000 * 1000) with (IZR 2) by lra. apply int_trunc_Z. }
  assert (E2 : int_trunc (5 * (1 / 5000) * l_fs ex_obj) = 1%Z).
  { cbn [l_fs ex_obj]. replace (5 * (1 / 5000) * 1000) with (IZR 1) by lra. apply int_trunc_Z. }
  assert (E3 : int_trunc (falls_shown (l_npole ex_obj) * fall_of (l_npole ex_obj) ex_short * l_fs ex_obj) = 21%Z).
  { cbn [l_fs ex_obj l_npole falls_shown fall_of nth ex_short]. replace (7 * (3 / 1000) * 1000) with (IZR 21) by lra. apply int_trunc_Z. }
  destruct (C153_window_partial ex_obj [0; 1; 0; 0] ex_short [5; 6; 7; 8] (Some f) (1 / 5000)) as (g & t1 & t2 & z1 & z2 & G & T & Z & S & _);
    [cbn; lra|reflexivity|exact M|reflexivity|reflexivity|rewrite E1, E2; lia|rewrite E1, E3; lia|].
  rewrite E1, E2, E3 in S. exists g, t1, t2, z1, z2. repeat (split; [assumption|]). exact S.
Qed.
Definition ex_edge : list R := [1; 1 / 1000; 2 / 7000; 2 / 1000].
Example C153_window_refuted_ex : exists g z1 z2,
  plotnonlin (mkNlo 7 1000 2 false None (fun _ => RtoC 1) (fun _ => 1)) [0; 1; 0; 0; 0; 0; 0] ex_edge [5; 6; 7; 8] = Ok g /\
  a_curves (g_zoom g) = [z1; z2] /\ c_x z1 = [] /\ c_y z1 = [] /\ c_x z2 = [] /\ c_y z2 = [].
Proof.
  set (o := mkNlo 7 1000 2 false None (fun _ => RtoC 1) (fun _ => 1)).
  assert (E1 : int_trunc (last ex_edge 0 * l_fs o) = 2%Z).
  { cbn [l_fs o last ex_edge]. replace (2 / 1000 * 1000) with (IZR 2) by lra. apply int_trunc_Z. }
  assert (E2 : int_trunc (5 * (1 / 1000) * l_fs o) = 5%Z).
  { cbn [l_fs o]. replace (5 * (1 / 1000) * 1000) with (IZR 5) by lra. apply int_trunc_Z. }
  assert (E3 : int_trunc (falls_shown (l_npole o) * fall_of (l_npole o) ex_edge * l_fs o) = 2%Z).
  { cbn [l_fs o l_npole falls_shown fall_of nth ex_edge]. replace (7 * (2 / 7000) * 1000) with (IZR 2) by lra. apply int_trunc_Z. }
  eapply (C153_window_refuted o [0; 1; 0; 0; 0; 0; 0] ex_edge [5; 6; 7; 8] _ (1 / 1000));
    [cbn; lra|reflexivity|reflexivity|reflexivity|reflexivity|rewrite E1, E2; lia|rewrite E1, E3; lia|rewrite E1, E2, E3; cbn; lia].
Qed.
Example C153_window_wraps_ex : exists g t1 t2 z1 z2,
  plotnonlin (mkNlo 7 1000 2 false None (fun _ => RtoC 1) (fun _ => 1)) [0; 1; 0; 0; 0; 0; 0] ex_edge [5; 6; 7; 8] = Ok g /\
  a_curves (g_full g) = [t1; t2] /\ a_curves (g_zoom g) = [z1; z2] /\ samples (c_x t1) 4 4 (c_x z1).
Proof.
  set (o := mkNlo 7 1000 2 false None (fun _ => RtoC 1) (fun _ => 1)).
  assert (E1 : int_trunc (last ex_edge 0 * l_fs o) = 2%Z).
  { cbn [l_fs o last ex_edge]. replace (2 / 1000 * 1000) with (IZR 2) by lra. apply int_trunc_Z. }
  assert (E2 : int_trunc (5 * (1 / 1000) * l_fs o) = 5%Z).
  { cbn [l_fs o]. replace (5 * (1 / 1000) * 1000) with (IZR 5) by lra. apply int_trunc_Z. }
  assert (E3 : int_trunc (falls_shown (l_npole o) * fall_of (l_npole o) ex_edge * l_fs o) = 2%Z).
  { cbn [l_fs o l_npole falls_shown fall_of nth ex_edge]. replace (7 * (2 / 7000) * 1000) with (IZR 2) by lra. apply int_trunc_Z. }
  destruct (C153_window_wraps o [0; 1; 0; 0; 0; 0; 0] ex_edge [5; 6; 7; 8] (twopole 7 1000 false 1 (1 / 1000) (2 / 7000) (2 / 1000)) (1 / 1000)) as (g & t1 & t2 & z1 & z2 & G & T & Z & S & _);
    [cbn; lra|reflexivity|reflexivity|reflexivity|reflexivity|rewrite E1, E2; lia|rewrite E1, E3; lia|].
  rewrite E1, E2, E3 in S. exists g, t1, t2, z1, z2. repeat (split; [assumption|]). exact S.
Qed.

(** ** C154: a fit with lgcplot=True is the same fit *)
Theorem C154_same_fit : forall lsq pinv psd fs template taurise0 pulse npole errscale guess bounds taurise sc, 0 < fs ->
  let plain := fit_falltimes lsq pinv psd fs template taurise0 pulse npole errscale guess bounds taurise sc in
  let plotted := fit_falltimes_plot lsq pinv psd fs template taurise0 pulse npole errscale guess bounds taurise sc in
  fst plotted = fst plain /\
  (forall e, snd plain = Err e -> snd plotted = Err e) /\
  (forall r, snd plain = Ok r -> exists g f1 f2 f3, snd plotted = Ok (r, g) /\ a_curves (g_freq g) = [f1; f2; f3] /\
     let K := ((length psd - 1) / 2)%nat in let n := length psd in
     c_x f1 = mk K (fun j => INR (j + 1) * fs / INR n) /\ c_x f2 = c_x f1 /\ c_x f3 = c_x f1 /\
     c_y f1 = mk K (fun j => Some (Cmod (dft n (fun i => RtoC (nth i pulse 0)) (Z.of_nat (j + 1)) / RtoC (sqrt (fs * INR n)))%C)) /\
     c_y f3 = mk K (fun j => Some (sqrt (nth (j + 1) psd 0 / errscale))) /\
     plotnonlin (mkNlo n fs npole sc (fst plain) (nl_data fs pulse) (nl_error (nl_psd psd) errscale)) pulse (nl_variables r) (nl_errors r)
       = Ok g).
Proof. exact fit_plot_same. Qed.
Print Assumptions C154_same_fit.

Example C154_ex : exists r g, snd (fit_falltimes_plot stay nopinv [1; 2; 3; 2] 1000 None None [0; 1; 0; 0] 2 1 (Some [1; 2; 3; 4]) None None true)
  = Ok (r, g).
Proof.
  destruct C60_ex as (r & E).
  destruct (C154_same_fit stay nopinv [1; 2; 3; 2] 1000 None None [0; 1; 0; 0] 2 1 (Some [1; 2; 3; 4]) None None true ltac:(lra)) as (_ & _ & H).
  destruct (H r E) as (g & _ & _ & _ & G & _). now exists r, g.
Qed.
