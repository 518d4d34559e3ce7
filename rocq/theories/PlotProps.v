(** * Theorems about the plots *)
From Coq Require Import String Ascii.
From Verif Require Import Base ListLemmas Dft UtilsModel NoiseModel NoiseSpec PlotModel PlotSpec
  PlotProofs1 PlotProofs2 PlotProofs3 PlotProofs4 PlotProofs5 PlotProofs6 PlotProofs7.
Open Scope R_scope.

(** Objects for the examples: two channels, respectively eleven. *)
Definition demo_new (names : list string) : pnoise :=
  mkPn (fresh_noise 2 (length names) 1 (fun j => INR j / 1) [fun c j => INR (c + j) / 1]) names (Some "a b"%string) (rfftfreqs 2 1).
Definition demo (ops : list nop) (names : list string) : pnoise := after (fun _ m => Some m) ops (demo_new names).
Definition eleven : list string := ["a";"b";"c";"d";"e";"f";"g";"h";"i";"j";"k"]%string.

Lemma demo_reachable ops names : reachable (demo ops names).
Proof.
  exists (fun _ m => Some m), ops, 2%nat, (In3 (length names) [fun c j => INR (c + j)]), 1, names, 1, (Some "a b"%string), None, (demo_new names).
  split; [lra|]. split; [lra|]. split; [discriminate|]. split; [|reflexivity].
  unfold noise_new, noise_init. cbn [fst snd]. rewrite Nat.eqb_refl. destruct (Reqb_spec 1 0); [lra|]. reflexivity.
Qed.

(** ** C118: spectra on the page *)
Theorem C118_overlay : forall save o lgcsave sp psd, reachable o -> n_psd (pn o) = Some psd ->
  exists f a, shown (fst (plot_psd save o true lgcsave sp)) = [f] /\ snd (plot_psd save o true lgcsave sp) = Ok tt /\
    f_rows f = [[a]] /\ a_hidden a = false /\ length (a_curves a) = length (channames o) /\
    (forall i name, nth_error (channames o) i = Some name -> exists c row,
       nth_error (a_curves a) i = Some c /\ nth_error psd i = Some row /\ shows_amplitude (freqs o) row (Some name) c) /\
    forall c, In c (a_curves a) -> all_numbers c /\ log_drawable c.
Proof. exact psd_overlay. Qed.
Print Assumptions C118_overlay.

Theorem C118_subplots : forall save o lgcsave sp psd, reachable o -> n_psd (pn o) = Some psd -> channames o <> [] ->
  exists f, shown (fst (plot_psd save o false lgcsave sp)) = [f] /\ snd (plot_psd save o false lgcsave sp) = Ok tt /\
    laid_out (length (channames o)) (fun i a => a_title a = nth_error (channames o) i /\
       exists c row, a_curves a = [c] /\ nth_error psd i = Some row /\ shows_amplitude (freqs o) row None c) f /\
    forall c, In c (curves_of f) -> all_numbers c /\ log_drawable c.
Proof. exact psd_subplots. Qed.
Print Assumptions C118_subplots.

Theorem C118_real_imag : forall save o lgcsave sp re im, reachable o ->
  n_real_psd (pn o) = Some re -> n_imag_psd (pn o) = Some im -> channames o <> [] ->
  exists f, shown (fst (plot_reim_psd save o lgcsave sp)) = [f] /\ snd (plot_reim_psd save o lgcsave sp) = Ok tt /\
    laid_out (length (channames o)) (fun i a => a_title a = nth_error (channames o) i /\
       exists c d rre rim, a_curves a = [c; d] /\ nth_error re i = Some rre /\ nth_error im i = Some rim /\
         shows_amplitude (freqs o) rre (Some "real"%string) c /\ shows_amplitude (freqs o) rim (Some "imag"%string) d) f /\
    forall c, In c (curves_of f) -> all_numbers c /\ log_drawable c.
Proof. exact reim_subplots. Qed.
Print Assumptions C118_real_imag.

Theorem C118_not_calculated : forall savgol save o b sp ov f1 f2 f3 f4 sm nw ls re,
  (n_psd (pn o) = None -> plot_psd save o ov b sp = ([Printed "Need to calculate the psd first"], Ok tt)) /\
  (n_real_psd (pn o) = None -> plot_reim_psd save o b sp = ([Printed "Need to calculate the psd first"], Ok tt)) /\
  (n_corrcoeff (pn o) = None -> plot_corrcoeff savgol save o sm nw b sp = ([Printed "Need to calculate the corrcoeff first"], Ok tt)) /\
  (n_csd (pn o) = None -> plot_csd save o ls re b sp = ([Printed "Must calculate the csd first"], Ok tt)) /\
  (n_uncorr (pn o) = None -> plot_decorrelatednoise save o ov f1 f2 f3 f4 b sp = ([Printed "Need to de-correlate the noise first"], Ok tt)).
Proof.
  intros. unfold plot_psd, plot_reim_psd, plot_corrcoeff, plot_csd, plot_decorrelatednoise.
  repeat match goal with |- _ /\ _ => split end; intros H; rewrite H; reflexivity.
Qed.
Print Assumptions C118_not_calculated.

Theorem C118_no_channels : forall save o lgcsave sp psd, n_psd (pn o) = Some psd -> channames o = [] ->
  plot_psd save o false lgcsave sp = ([], Err ValueError).
Proof. exact psd_no_channels. Qed.
Print Assumptions C118_no_channels.

Example C118_ex : let o := demo [OpPsd] ["A"; "B"; "C"]%string in
  reachable o /\ n_psd (pn o) <> None /\ n_real_psd (pn o) <> None /\ n_imag_psd (pn o) <> None /\ channames o <> [] /\
  length (freqs o) = 2%nat /\ n_psd (pn (demo [] ["A"]%string)) = None /\
  reachable (demo [OpPsd] []) /\ n_psd (pn (demo [OpPsd] [])) <> None.
Proof.
  cbv zeta. repeat match goal with |- _ /\ _ => split end; try apply demo_reachable; try discriminate; reflexivity.
Qed.

(** ** C119: correlation coefficients, every pair once *)
Theorem C119_pairs : forall savgol save o nwindow lgcsave sp cc, reachable o -> n_corrcoeff (pn o) = Some cc ->
  let r := plot_corrcoeff savgol save o false nwindow lgcsave sp in
  exists f a ps, shown (fst r) = [f] /\ snd r = Ok tt /\ f_rows f = [[a]] /\ a_hidden a = false /\
    NoDup ps /\ (forall i j, In (i, j) ps <-> (j < i < length (channames o))%nat) /\
    (2 * length ps = length (channames o) * (length (channames o) - 1))%nat /\
    length (a_curves a) = length ps /\
    forall k i j, nth_error ps k = Some (i, j) -> exists c ni nj,
      nth_error (a_curves a) k = Some c /\ nth_error (channames o) i = Some ni /\ nth_error (channames o) j = Some nj /\
      shows_values (freqs o) (map (cc i j) (seq 0 (length (freqs o)))) (Some (ni ++ " - " ++ nj)%string) c.
Proof. exact corrcoeff_plot. Qed.
Print Assumptions C119_pairs.

Example C119_ex : let o := demo [OpCorrcoeff] ["A"; "B"; "C"]%string in reachable o /\ n_corrcoeff (pn o) <> None.
Proof. split; [apply demo_reachable|discriminate]. Qed.

(** ** C120: cross spectra by label *)
Theorem C120_selected : forall save o ls ps lgcreal lgcsave sp csd re im, reachable o ->
  n_csd (pn o) = Some csd -> n_real_csd (pn o) = Some re -> n_imag_csd (pn o) = Some im ->
  scan_labels (nchan (pn o)) ls = Ok (Indices ps) ->
  let r := plot_csd save o ls lgcreal lgcsave sp in
  snd r = Ok tt /\ length (shown (fst r)) = length ls /\
  forall k x y, nth_error ps k = Some (x, y) -> exists f c nx ny,
     nth_error (shown (fst r)) k = Some f /\ nth_error (channames o) x = Some nx /\ nth_error (channames o) y = Some ny /\
     f_title f = (shown_name o ++ " " ++ (if lgcreal then "Re" else "Im") ++ "(CSD) for channels: " ++ nx ++ "-" ++ ny)%string /\
     f_rows f = [[mkAxes (Some (f_title f)) false [c]]] /\
     shows_values (freqs o) ((if lgcreal then re else im) x y) None c.
Proof. exact csd_plot. Qed.
Print Assumptions C120_selected.

Theorem C120_labels : forall n (ps : list (nat * nat)),
  (forall x y, In (x, y) ps -> (x < n)%nat /\ (y < n)%nat /\ (x < 10)%nat /\ (y < 10)%nat) ->
  scan_labels n (map (fun p => LStr (String (ascii_of_nat (48 + fst p)) (String (ascii_of_nat (48 + snd p)) EmptyString))) ps)
  = Ok (Indices ps).
Proof. exact scan_digits. Qed.
Print Assumptions C120_labels.

(** Nothing is drawn unless every label is accepted. *)
Theorem C120_all_or_nothing : forall save o ls lgcreal lgcsave sp csd re im,
  n_csd (pn o) = Some csd -> n_real_csd (pn o) = Some re -> n_imag_csd (pn o) = Some im ->
  (forall m, scan_labels (nchan (pn o)) ls = Ok (Refused m) -> plot_csd save o ls lgcreal lgcsave sp = ([Printed m], Ok tt)) /\
  (forall e, scan_labels (nchan (pn o)) ls = Err e -> plot_csd save o ls lgcreal lgcsave sp = ([], Err e)).
Proof. intros. split; intros; [eapply csd_refused|eapply csd_raises]; eassumption. Qed.
Print Assumptions C120_all_or_nothing.

(** No list of labels draws a pair with channel number 10 or more. *)
Theorem C120_every_pair_refuted : exists o, reachable o /\ n_csd (pn o) <> None /\ length (channames o) = 11%nat /\
  forall ls ps, scan_labels (nchan (pn o)) ls = Ok (Indices ps) -> forall x y, In (x, y) ps -> x <> 10%nat /\ y <> 10%nat.
Proof.
  exists (demo [OpCsd] eleven). split; [apply demo_reachable|]. split; [discriminate|]. split; [reflexivity|].
  intros ls ps E x y H. destruct (csd_no_two_digits _ _ _ _ _ E H). lia.
Qed.
Print Assumptions C120_every_pair_refuted.

Theorem C120_files : forall o ls ps lgcreal p nm csd re im, reachable o -> pname o = Some nm ->
  n_csd (pn o) = Some csd -> n_real_csd (pn o) = Some re -> n_imag_csd (pn o) = Some im ->
  scan_labels (nchan (pn o)) ls = Ok (Indices ps) ->
  let fs := files (fst (plot_csd (fun _ => true) o ls lgcreal true (Some p))) in
  NoDup fs /\ (length fs = length ls)%nat /\
  forall k, (k < length ls)%nat -> nth_error fs k = Some (p ++ underscored nm ++ "_csd" ++ dec k ++ ".png")%string.
Proof. exact csd_files. Qed.
Print Assumptions C120_files.

(** Two calls for different pairs, or for the real and the imaginary part, write the same file. *)
Theorem C120_file_identifies_pair_refuted : exists o, reachable o /\
  files (fst (plot_csd (fun _ => true) o [LStr "01"] true true (Some "d/"%string))) = ["d/a_b_csd0.png"%string] /\
  files (fst (plot_csd (fun _ => true) o [LStr "11"] true true (Some "d/"%string))) = ["d/a_b_csd0.png"%string] /\
  files (fst (plot_csd (fun _ => true) o [LStr "01"] false true (Some "d/"%string))) = ["d/a_b_csd0.png"%string].
Proof.
  set (o := demo [OpCsd] ["A"; "B"]%string). assert (Rc : reachable o) by apply demo_reachable.
  exists o. split; [exact Rc|].
  assert (X : forall l x y lr, scan_labels 2 [LStr l] = Ok (Indices [(x, y)]) ->
    files (fst (plot_csd (fun _ => true) o [LStr l] lr true (Some "d/"%string))) = ["d/a_b_csd0.png"%string]).
  { intros l x y lr E. destruct (csd_files o [LStr l] [(x, y)] lr "d/" "a b" _ _ _ Rc eq_refl eq_refl eq_refl eq_refl E) as (_ & L & H).
    specialize (H 0%nat ltac:(cbn; lia)). cbv zeta in L. destruct (files _) as [|a [|b r]]; try discriminate L.
    cbn [nth_error] in H. assert (Ea : a = ("d/" ++ underscored "a b" ++ "_csd" ++ dec 0 ++ ".png")%string) by congruence. rewrite Ea. reflexivity. }
  split; [apply (X _ 0%nat 1%nat); reflexivity|]. split; [apply (X _ 1%nat 1%nat)|apply (X _ 0%nat 1%nat)]; reflexivity.
Qed.
Print Assumptions C120_file_identifies_pair_refuted.

Example C120_ex : let o := demo [OpCsd] ["A"; "B"]%string in
  reachable o /\ n_csd (pn o) <> None /\ n_real_csd (pn o) <> None /\ n_imag_csd (pn o) <> None /\ pname o = Some "a b"%string /\
  scan_labels (nchan (pn o)) [LStr "01"; LStr "11"; LStr "10x"] = Ok (Indices [(0, 1); (1, 1); (1, 0)]%nat) /\
  scan_labels (nchan (pn o)) [LStr "01"; LStr "02"] = Ok (Refused "index out of range") /\
  scan_labels (nchan (pn o)) [LStr "01"; LStr "0"] = Err IndexError /\
  scan_labels (nchan (pn o)) [LStr "01"; LStr "0a"] = Err ValueError.
Proof. cbv zeta. repeat match goal with |- _ /\ _ => split end; try apply demo_reachable; try discriminate; reflexivity. Qed.

(** ** C121: comparing noise objects *)
Theorem C121_compares_refuted : forall save arr chans c decor lgcsave sp,
  In c chans -> (exists o, In o arr /\ In c (channames o)) ->
  let r := compare_noise save (map as_built arr) (ChanList chans) decor lgcsave sp in
  snd r = Err AttributeError /\ shown (fst r) = [] /\ files (fst r) = [].
Proof. intros save arr chans c decor lgcsave sp. exact (compare_noise_fails save arr decor lgcsave sp chans c). Qed.
Print Assumptions C121_compares_refuted.

Theorem C121_unknown_names : forall save arr decor lgcsave sp chans,
  (forall c o, In c chans -> In o arr -> ~ In c (channames (cmp o))) ->
  compare_noise save arr (ChanList chans) decor lgcsave sp =
  (map (fun c => Printed ("Invalid channel name: " ++ c ++ " ")) chans, Ok tt).
Proof. exact compare_noise_unknown. Qed.
Print Assumptions C121_unknown_names.

(** With the dictionary under the name the function expects, each requested channel gets a figure
    with the spectrum (or de-correlated spectrum) of every object that has this channel, and a file
    named after the channel. *)
Theorem C121_with_dictionary : forall save arr chans decor lgcsave sp,
  (forall o, In o arr -> reachable o /\ compared_spectra decor o <> None /\ (decor = true -> pname o <> None)) ->
  (forall c, In c chans -> exists o, In o arr /\ In c (channames o)) ->
  let r := compare_noise save (map (fun o => mkCmp o (Some (chandict o))) arr) (ChanList chans) decor lgcsave sp in
  snd r = Ok tt /\ length (shown (fst r)) = length chans /\
  files (fst r) = (if lgcsave then match sp with
    | Some p => filter save (map (fun c => p ++ c ++ "_PSD_comparison.png")%string chans)
    | None => [] end else []) /\
  forall k chan, nth_error chans k = Some chan -> exists f a,
    nth_error (shown (fst r)) k = Some f /\ f_title f = chan /\ f_rows f = [[a]] /\
    length (a_curves a) = length (filter (fun o => existsb (String.eqb chan) (channames o)) arr) /\
    forall j o, nth_error (filter (fun o => existsb (String.eqb chan) (channames o)) arr) j = Some o ->
      exists c i psd row, nth_error (a_curves a) j = Some c /\ compared_spectra decor o = Some psd /\ nth_error (channames o) i = Some chan /\
        nth_error psd i = Some row /\ shows_amplitude (freqs o) row (legend_entry decor o) c.
Proof. exact compare_noise_patched. Qed.
Print Assumptions C121_with_dictionary.

Theorem C121_dictionary : forall o s,
  match dict_get (chandict o) s with
  | Some v => nth_error (channames o) v = Some s /\ forall k, (v < k)%nat -> nth_error (channames o) k <> Some s
  | None => ~ In s (channames o)
  end.
Proof. exact chandict_get. Qed.
Print Assumptions C121_dictionary.

Example C121_ex : let arr := [demo [OpPsd] ["A"; "B"]%string; demo [OpPsd] ["B"; "C"]%string] in
  (forall o, In o arr -> reachable o /\ n_psd (pn o) <> None) /\
  (forall c, In c ["B"; "A"]%string -> exists o, In o arr /\ In c (channames o)) /\
  (forall o, In o arr -> ~ In "Z"%string (channames o)) /\
  dict_get (chandict (demo [] ["A"; "B"; "A"]%string)) "A"%string = Some 2%nat.
Proof.
  cbv zeta. split; [|split; [|split]].
  - intros o [<-|[<-|[]]]; (split; [apply demo_reachable|discriminate]).
  - intros c [<-|[<-|[]]]; eexists; (split; [left; reflexivity|]); cbn; tauto.
  - intros o [<-|[<-|[]]]; cbn; intuition discriminate.
  - reflexivity.
Qed.

Example C121_decorrelated_ex : let arr := [demo [OpUncorr] ["A"; "B"]%string] in
  (forall o, In o arr -> reachable o /\ compared_spectra true o <> None /\ (true = true -> pname o <> None)) /\
  (forall c, In c ["B"; "A"]%string -> exists o, In o arr /\ In c (channames o)) /\
  legend_entry true (demo [OpUncorr] ["A"; "B"]%string) = Some "a b Decorrelated Noise"%string.
Proof.
  cbv zeta. split; [|split; [|reflexivity]].
  - intros o [<-|[]]. split; [apply demo_reachable|]. split; discriminate.
  - intros c [<-|[<-|[]]]; eexists; (split; [left; reflexivity|]); cbn; tauto.
Qed.

(** ** C122: de-correlated noise *)
Theorem C122_overlay : forall save o f1 f2 f3 f4 lgcsave sp unc, reachable o -> n_uncorr (pn o) = Some unc ->
  let r := plot_decorrelatednoise save o true f1 f2 f3 f4 lgcsave sp in
  exists f a, shown (fst r) = [f] /\ snd r = Ok tt /\ f_rows f = [[a]] /\ a_hidden a = false /\
    length (a_curves a) = length (channames o) /\
    forall i name, nth_error (channames o) i = Some name -> exists c row,
       nth_error (a_curves a) i = Some c /\ nth_error unc i = Some row /\ shows_amplitude (freqs o) row (Some name) c.
Proof. exact overlay_decorr. Qed.
Print Assumptions C122_overlay.

Theorem C122_subplots : forall save o (f1 f2 f3 f4 : bool) lgcsave sp unc cor rc, reachable o ->
  n_uncorr (pn o) = Some unc -> n_corr (pn o) = Some cor -> n_real_csd (pn o) = Some rc -> channames o <> [] ->
  let r := plot_decorrelatednoise save o false f1 f2 f3 f4 lgcsave sp in
  exists f, shown (fst r) = [f] /\ snd r = Ok tt /\
    laid_out (length (channames o)) (fun i a => a_title a = nth_error (channames o) i /\
       exists ru rk cd cu ck cs, nth_error unc i = Some ru /\ nth_error cor i = Some rk /\
         a_curves a = ((if f1 then [cd] else []) ++ (if f2 then [cu] else []) ++ (if f3 then [ck] else []) ++ (if f4 then [cs] else []))%list /\
         shows_amplitude (freqs o) (rc i i) (Some "Data"%string) cd /\
         shows_amplitude (freqs o) ru (Some "Uncorrelated Noise"%string) cu /\
         shows_amplitude (freqs o) rk (Some "Correlated Noise"%string) ck /\
         shows_amplitude (freqs o) (map (fun p => fst p + snd p) (combine ru rk)) (Some "Total Noise"%string) cs) f.
Proof. exact decorr_subplots. Qed.
Print Assumptions C122_subplots.

(** After a successful calculate_uncorr_noise the total is the cross spectrum's diagonal, the same
    spectrum as 'Data'. *)
Theorem C122_total : forall inv o o', reachable o -> calculate_uncorr_noise inv (pn o) = (o', Ok tt) ->
  exists unc cor rc, n_uncorr o' = Some unc /\ n_corr o' = Some cor /\ n_real_csd o' = Some rc /\
    forall i, (i < nchan o')%nat -> exists ru rk, nth_error unc i = Some ru /\ nth_error cor i = Some rk /\
      map (fun p => fst p + snd p) (combine ru rk) = rc i i.
Proof.
  intros inv o o' Rc. destruct (reach_facts o Rc) as (S & T & _). exact (uncorr_total inv (pn o) o' S T).
Qed.
Print Assumptions C122_total.

Example C122_ex : let o := demo [OpUncorr] ["A"; "B"]%string in
  reachable o /\ n_uncorr (pn o) <> None /\ n_corr (pn o) <> None /\ n_real_csd (pn o) <> None /\
  snd (calculate_uncorr_noise (fun _ m => Some m) (pn (demo [] ["A"; "B"]%string))) = Ok tt.
Proof. cbv zeta. repeat match goal with |- _ /\ _ => split end; try apply demo_reachable; try discriminate; reflexivity. Qed.

(** ** C123: saving *)
Theorem C123_saving_changes_nothing_shown : forall savgol save save' o b b' sp sp' ov f1 f2 f3 f4 sm nw ls re,
  let same (r r' : out unit) := shown (fst r) = shown (fst r') /\ snd r = snd r' in
  same (plot_psd save o ov b sp) (plot_psd save' o ov b' sp') /\
  same (plot_reim_psd save o b sp) (plot_reim_psd save' o b' sp') /\
  same (plot_corrcoeff savgol save o sm nw b sp) (plot_corrcoeff savgol save' o sm nw b' sp') /\
  same (plot_csd save o ls re b sp) (plot_csd save' o ls re b' sp') /\
  same (plot_decorrelatednoise save o ov f1 f2 f3 f4 b sp) (plot_decorrelatednoise save' o ov f1 f2 f3 f4 b' sp').
Proof.
  intros. split; [apply psd_same|]. split; [apply reim_same|]. split; [apply corrcoeff_same|]. split; [apply csd_same|apply decorr_same].
Qed.
Print Assumptions C123_saving_changes_nothing_shown.

(** Every figure is saved under its path, or the failure is reported, exactly when saving was asked
    for; the failure stops nothing. *)
Theorem C123_saved_or_reported : forall savgol save o b sp ov f1 f2 f3 f4 sm nw ls re arr chans decor,
  accounted b (fst (plot_psd save o ov b sp)) /\ accounted b (fst (plot_reim_psd save o b sp)) /\
  accounted b (fst (plot_corrcoeff savgol save o sm nw b sp)) /\ accounted b (fst (plot_csd save o ls re b sp)) /\
  accounted b (fst (plot_decorrelatednoise save o ov f1 f2 f3 f4 b sp)) /\
  accounted b (fst (compare_noise save arr chans decor b sp)).
Proof. exact saved_or_reported. Qed.
Print Assumptions C123_saved_or_reported.

Theorem C123_file : forall save o ov b sp psd, n_psd (pn o) = Some psd -> snd (plot_psd save o ov b sp) = Ok tt ->
  files (fst (plot_psd save o ov b sp)) =
  match b, sp, pname o with
  | true, Some p, Some s =>
      let path := (p ++ underscored s ++ (if ov then "_PSD_overlay.png" else "_PSD_subplot.png"))%string in
      if save path then [path] else []
  | _, _, _ => []
  end.
Proof. exact psd_files. Qed.
Print Assumptions C123_file.

Theorem C123_reim_file : forall save o b sp, snd (plot_reim_psd save o b sp) = Ok tt -> n_real_psd (pn o) <> None ->
  files (fst (plot_reim_psd save o b sp)) =
  match b, sp, pname o with
  | true, Some p, Some s => let path := (p ++ underscored s ++ "_ReIm_PSD.png")%string in if save path then [path] else []
  | _, _, _ => []
  end.
Proof. exact reim_files. Qed.
Print Assumptions C123_reim_file.

(** The method of the class ignores the request to save. *)
Theorem C123_method_saves_refuted : forall save o b sp, files (fst (Noise_plot_reim_psd save o b sp)) = [].
Proof. exact reim_method_files. Qed.
Print Assumptions C123_method_saves_refuted.

Example C123_ex : let o := demo [OpPsd] ["A"; "B"]%string in
  (exists f, files (fst (plot_psd (fun _ => true) o true true (Some "d/"%string))) = ["d/a_b_PSD_overlay.png"%string] /\
    shown (fst (plot_psd (fun _ => false) o true true None)) = [f]) /\
  files (fst (plot_reim_psd (fun _ => true) o true (Some "d/"%string))) = ["d/a_b_ReIm_PSD.png"%string] /\
  snd (Noise_plot_reim_psd (fun _ => true) o true (Some "d/"%string)) = Ok tt.
Proof.
  cbv zeta. pose proof (demo_reachable [OpPsd] ["A"; "B"]%string) as Rc. split; [|split].
  - destruct (psd_overlay (fun _ => true) _ true (Some "d/"%string) _ Rc eq_refl) as (f & a & H1 & H2 & _). exists f. split.
    + rewrite (psd_files (fun _ => true) (demo [OpPsd] ["A"; "B"]%string) true true (Some "d/"%string) _ eq_refl H2). reflexivity.
    + rewrite <- H1. apply psd_same.
  - destruct (reim_subplots (fun _ => true) _ true (Some "d/"%string) _ _ Rc eq_refl eq_refl ltac:(discriminate)) as (f & H1 & H2 & _).
    rewrite (reim_files _ _ _ _ H2) by discriminate. reflexivity.
  - destruct (reim_subplots (fun _ => true) _ false None _ _ Rc eq_refl eq_refl ltac:(discriminate)) as (f & H1 & H2 & _). exact H2.
Qed.

(** ** C124: Noise.save *)
Theorem C124_path : forall o name dir, pname o = Some name ->
  Noise_save o (dir ++ "/") = Ok (dir ++ "/" ++ underscored name ++ ".pkl")%string /\
  (dir <> EmptyString -> last_char dir <> Ok "/"%char ->
   Noise_save o dir = Ok (dir ++ "/" ++ underscored name ++ ".pkl")%string).
Proof. exact save_path. Qed.
Print Assumptions C124_path.

Theorem C124_errors : forall o path,
  (path = EmptyString -> Noise_save o path = Err IndexError) /\
  (path <> EmptyString -> pname o = None -> Noise_save o path = Err AttributeError).
Proof. exact save_errors. Qed.
Print Assumptions C124_errors.

Theorem C124_spaces : forall s,
  String.length (underscored s) = String.length s /\ (forall k, String.get k (underscored s) <> Some " "%char) /\
  ((forall k, String.get k s <> Some " "%char) -> underscored s = s).
Proof. intros s. split; [apply underscored_length|]. split; [apply underscored_no_space|apply underscored_same]. Qed.
Print Assumptions C124_spaces.

Example C124_ex : Noise_save (demo [] ["A"]%string) "/tmp/x" = Ok "/tmp/x/a_b.pkl"%string /\
  Noise_save (demo [] ["A"]%string) "/tmp/x/" = Ok "/tmp/x/a_b.pkl"%string /\ Noise_save (demo [] ["A"]%string) "" = Err IndexError.
Proof. repeat split. Qed.
