(** * Proofs about the noise plots: saving does not change what is shown *)
From Coq Require Import String Ascii.
From Verif Require Import Base ListLemmas Dft UtilsModel NoiseModel NoiseSpec PlotModel PlotSpec PlotProofs1 PlotProofs2 PlotProofs3 PlotProofs4 PlotProofs5.
Open Scope R_scope.

Lemma shown_app a b : shown (a ++ b) = (shown a ++ shown b)%list.
Proof. apply flat_map_app. Qed.
Lemma files_app a b : files (a ++ b) = (files a ++ files b)%list.
Proof. apply flat_map_app. Qed.

Lemma shown_try_save save b sp nm suf f : shown (try_save save b sp nm suf f) = [].
Proof. unfold try_save. destruct b; [|reflexivity]. destruct sp, nm; try reflexivity. destruct (save _); reflexivity. Qed.

Lemma shown_finish save b sp nm suf f : shown (fst (finish save b sp nm suf f)) = [f].
Proof. unfold finish. cbn [fst]. now rewrite shown_app, shown_try_save. Qed.

(** The outcome and the shown figures of a call that ends in [finish]. *)
Lemma finish_same {A} (r : res A) (g : A -> string * figure) save save' b b' sp sp' nm nm' :
  let call s b sp nm := andthen (quiet r) (fun a => finish s b sp nm (fst (g a)) (snd (g a))) in
  shown (fst (call save b sp nm)) = shown (fst (call save' b' sp' nm')) /\ snd (call save b sp nm) = snd (call save' b' sp' nm').
Proof.
  unfold andthen, quiet. destruct r; cbn [fst snd app]; [|auto]. rewrite !shown_finish. auto.
Qed.

Lemma psd_same save save' o ov b b' sp sp' :
  shown (fst (plot_psd save o ov b sp)) = shown (fst (plot_psd save' o ov b' sp')) /\
  snd (plot_psd save o ov b sp) = snd (plot_psd save' o ov b' sp').
Proof.
  unfold plot_psd. destruct (n_psd (pn o)); [|auto]. destruct ov.
  - apply (finish_same _ (fun cs => ("_PSD_overlay.png"%string, single (shown_name o ++ " PSD") cs))).
  - apply (finish_same _ (fun rows => ("_PSD_subplot.png"%string, mkFig (shown_name o ++ " PSD") rows))).
Qed.

Lemma reim_same save save' o b b' sp sp' :
  shown (fst (plot_reim_psd save o b sp)) = shown (fst (plot_reim_psd save' o b' sp')) /\
  snd (plot_reim_psd save o b sp) = snd (plot_reim_psd save' o b' sp').
Proof.
  unfold plot_reim_psd. destruct (n_real_psd (pn o)); [|auto].
  apply (finish_same _ (fun rows => ("_ReIm_PSD.png"%string, mkFig (shown_name o ++ " Real vs Imaginary PSD") rows))).
Qed.

Lemma corrcoeff_same savgol save save' o sm nw b b' sp sp' :
  shown (fst (plot_corrcoeff savgol save o sm nw b sp)) = shown (fst (plot_corrcoeff savgol save' o sm nw b' sp')) /\
  snd (plot_corrcoeff savgol save o sm nw b sp) = snd (plot_corrcoeff savgol save' o sm nw b' sp').
Proof.
  unfold plot_corrcoeff. destruct (n_corrcoeff (pn o)); [|auto].
  apply (finish_same _ (fun cs => ("_corrcoeff.png"%string,
    single (shown_name o ++ " " ++ String "010"%char " Cross Channel Correlation Coefficients") cs))).
Qed.

Lemma decorr_same save save' o ov f1 f2 f3 f4 b b' sp sp' :
  shown (fst (plot_decorrelatednoise save o ov f1 f2 f3 f4 b sp)) = shown (fst (plot_decorrelatednoise save' o ov f1 f2 f3 f4 b' sp')) /\
  snd (plot_decorrelatednoise save o ov f1 f2 f3 f4 b sp) = snd (plot_decorrelatednoise save' o ov f1 f2 f3 f4 b' sp').
Proof.
  unfold plot_decorrelatednoise. destruct (n_uncorr (pn o)); [|auto]. destruct ov.
  - apply (finish_same _ (fun cs => ("_deCorrNoise_overlay.png"%string, single (shown_name o ++ " de-correlated noise") cs))).
  - apply (finish_same _ (fun rows => ("_deCorrNoise_subplot.png"%string, mkFig (shown_name o ++ " de-correlated noise") rows))).
Qed.

Lemma csd_same save save' o ls re b b' sp sp' :
  shown (fst (plot_csd save o ls re b sp)) = shown (fst (plot_csd save' o ls re b' sp')) /\
  snd (plot_csd save o ls re b sp) = snd (plot_csd save' o ls re b' sp').
Proof.
  unfold plot_csd. destruct (n_csd (pn o)); [|auto]. destruct (n_real_csd (pn o)) as [r|]; [|auto]. destruct (n_imag_csd (pn o)) as [i|]; [|auto].
  unfold andthen, quiet. destruct (scan_labels _ _) as [[ps|m]|e]; cbn [fst snd app]; auto.
  generalize 0%nat. induction ps as [|[x y] ps IH]; intros ii; [auto|]. cbn [csd_figures].
  unfold andthen, quiet. match goal with |- context [bind ?a ?k] => destruct (bind a k) as [f|e] end; cbn [fst snd app]; [|auto].
  destruct (IH (S ii)) as [I1 I2]. cbn [finish snd fst]. rewrite !shown_app, !shown_try_save. cbn [shown flat_map app].
  split; [f_equal; exact I1|exact I2].
Qed.

(** Files of the plots that end in [finish]. *)
Lemma files_finish save b sp nm suf f :
  files (fst (finish save b sp nm suf f)) =
  match b, sp, nm with
  | true, Some p, Some s => if save (p ++ underscored s ++ suf)%string then [(p ++ underscored s ++ suf)%string] else []
  | _, _, _ => []
  end.
Proof.
  unfold finish, try_save. cbn [fst]. rewrite files_app. destruct b; [|reflexivity]. destruct sp, nm; try reflexivity.
  destruct (save _); reflexivity.
Qed.

Lemma psd_files save o ov b sp psd : n_psd (pn o) = Some psd -> snd (plot_psd save o ov b sp) = Ok tt ->
  files (fst (plot_psd save o ov b sp)) =
  match b, sp, pname o with
  | true, Some p, Some s =>
      let path := (p ++ underscored s ++ (if ov then "_PSD_overlay.png" else "_PSD_subplot.png"))%string in
      if save path then [path] else []
  | _, _, _ => []
  end.
Proof.
  intros E. unfold plot_psd. rewrite E. unfold andthen, quiet. destruct ov.
  - destruct (overlay _ _ _ _); [|discriminate]. intros _. cbn [fst snd]. cbn [app]. apply files_finish.
  - destruct (subplots _ _); [|discriminate]. intros _. cbn [fst snd]. cbn [app]. apply files_finish.
Qed.

Lemma reim_files save o b sp : snd (plot_reim_psd save o b sp) = Ok tt -> n_real_psd (pn o) <> None ->
  files (fst (plot_reim_psd save o b sp)) =
  match b, sp, pname o with
  | true, Some p, Some s => let path := (p ++ underscored s ++ "_ReIm_PSD.png")%string in if save path then [path] else []
  | _, _, _ => []
  end.
Proof.
  unfold plot_reim_psd. intros H Hn. destruct (n_real_psd (pn o)); [|congruence]. revert H. unfold andthen, quiet.
  destruct (subplots _ _); [|discriminate]. intros _. cbn [fst snd]. cbn [app]. apply files_finish.
Qed.

Lemma reim_method_files save o b sp : files (fst (Noise_plot_reim_psd save o b sp)) = [].
Proof.
  unfold Noise_plot_reim_psd, plot_reim_psd. destruct (n_real_psd (pn o)); [|reflexivity]. unfold andthen, quiet.
  destruct (subplots _ _); reflexivity.
Qed.
