(** * Proofs about the noise plots: every figure is saved or its failure reported *)
From Coq Require Import String Ascii.
From Verif Require Import Base ListLemmas Dft UtilsModel NoiseModel NoiseSpec PlotModel PlotSpec.
Open Scope R_scope.

Lemma accounted_app b l l' : accounted b l -> accounted b l' -> accounted b (l ++ l').
Proof. intros H H'. induction H; cbn [app]; try (constructor; assumption). exact H'. Qed.

Lemma accounted_message b m : m <> failure_text -> accounted b [Printed m].
Proof. intros H. apply acc_message; [exact H|constructor]. Qed.

Lemma accounted_finish save b sp nm suf f : accounted b (fst (finish save b sp nm suf f)).
Proof.
  unfold finish, try_save. cbn [fst]. destruct b; [|apply acc_shown; [reflexivity|constructor]].
  destruct sp, nm; try (apply acc_failed; [reflexivity|constructor]).
  cbv zeta. destruct (save _); [apply acc_saved|apply acc_failed]; constructor.
Qed.

Lemma accounted_andthen {A B} b (m : out A) (k : A -> out B) : accounted b (fst m) ->
  (forall a, snd m = Ok a -> accounted b (fst (k a))) -> accounted b (fst (andthen m k)).
Proof.
  intros H Hk. unfold andthen. destruct (snd m) as [a|e]; cbn [fst]; [|exact H]. apply accounted_app; auto.
Qed.

Lemma accounted_quiet {A} b (r : res A) : accounted b (fst (quiet r)).
Proof. constructor. Qed.

Lemma accounted_csd save o part spec b sp : forall ps ii, accounted b (fst (csd_figures save o part spec b sp ii ps)).
Proof.
  induction ps as [|[x y] ps IH]; intros ii; [constructor|]. cbn [csd_figures].
  apply accounted_andthen; [constructor|]. intros f _. apply accounted_andthen; [apply accounted_finish|]. intros _ _. apply IH.
Qed.

Lemma refused_text n : forall ls m, scan_labels n ls = Ok (Refused m) -> m <> failure_text.
Proof.
  induction ls as [|[s|] ls IH]; intros m; cbn [scan_labels]; [discriminate| |].
  - destruct (char_at s 0) as [a|]; [|discriminate]. cbn [bind]. destruct (int_of_char a) as [x|]; [|discriminate]. cbn [bind].
    destruct (char_at s 1) as [a'|]; [|discriminate]. cbn [bind]. destruct (int_of_char a') as [y|]; [|discriminate]. cbn [bind].
    destruct ((n <=? x) || (n <=? y))%nat.
    + intros E. assert (Em : m = "index out of range"%string) by congruence. rewrite Em. discriminate.
    + destruct (scan_labels n ls) as [[ps|m']|]; cbn [bind]; intros E; try discriminate. apply IH. congruence.
  - intros E. match type of E with Ok (Refused ?t) = _ => assert (Em : m = t) by congruence end. rewrite Em. discriminate.
Qed.

Lemma accounted_compare_curves chan decor b : forall arr, accounted b (fst (compare_curves chan decor arr)).
Proof.
  induction arr as [|c arr IH]; [constructor|]. cbn [compare_curves].
  assert (Rest : forall cs, accounted b (fst (andthen (compare_curves chan decor arr) (fun r => ([], Ok (cs ++ r)%list))))).
  { intros cs. apply accounted_andthen; [exact IH|]. intros. constructor. }
  destruct (chann_dict c) as [d|]; [|constructor]. destruct (dict_get d chan) as [i|].
  - destruct decor.
    + destruct (n_uncorr (pn (cmp c))).
      * apply accounted_andthen; [constructor|]. intros; apply Rest.
      * apply accounted_andthen; [apply accounted_message; discriminate|]. intros; apply Rest.
    + apply accounted_andthen; [constructor|]. intros; apply Rest.
  - apply accounted_andthen; [apply accounted_message; discriminate|]. intros; apply Rest.
Qed.

Lemma saved_or_reported savgol save o b sp ov f1 f2 f3 f4 sm nw ls re arr chans decor :
  accounted b (fst (plot_psd save o ov b sp)) /\ accounted b (fst (plot_reim_psd save o b sp)) /\
  accounted b (fst (plot_corrcoeff savgol save o sm nw b sp)) /\ accounted b (fst (plot_csd save o ls re b sp)) /\
  accounted b (fst (plot_decorrelatednoise save o ov f1 f2 f3 f4 b sp)) /\
  accounted b (fst (compare_noise save arr chans decor b sp)).
Proof.
  split; [|split; [|split; [|split; [|split]]]].
  - unfold plot_psd. destruct (n_psd (pn o)); [|apply accounted_message; discriminate].
    destruct ov; (apply accounted_andthen; [constructor|]); intros; apply accounted_finish.
  - unfold plot_reim_psd. destruct (n_real_psd (pn o)); [|apply accounted_message; discriminate].
    apply accounted_andthen; [constructor|]. intros; apply accounted_finish.
  - unfold plot_corrcoeff. destruct (n_corrcoeff (pn o)); [|apply accounted_message; discriminate].
    apply accounted_andthen; [constructor|]. intros; apply accounted_finish.
  - unfold plot_csd. destruct (n_csd (pn o)); [|apply accounted_message; discriminate].
    destruct (n_real_csd (pn o)); [|constructor]. destruct (n_imag_csd (pn o)); [|constructor].
    apply accounted_andthen; [constructor|]. intros [ps|m] E; [apply accounted_csd|]. apply accounted_message.
    apply (refused_text (nchan (pn o)) ls). exact E.
  - unfold plot_decorrelatednoise. destruct (n_uncorr (pn o)); [|apply accounted_message; discriminate].
    destruct ov; (apply accounted_andthen; [constructor|]); intros; apply accounted_finish.
  - unfold compare_noise. destruct chans as [l|]; [|apply accounted_message; discriminate].
    induction l as [|chan l IH]; [constructor|]. cbn [compare_channels]. apply accounted_andthen; [|intros; exact IH].
    destruct (existsb _ _); [|apply accounted_message; discriminate].
    apply accounted_andthen; [apply accounted_compare_curves|]. intros cs _. cbn [fst].
    destruct b; [|apply acc_shown; [reflexivity|constructor]].
    destruct sp; [|apply acc_failed; [reflexivity|constructor]].
    destruct (save _); [apply acc_saved|apply acc_failed]; constructor.
Qed.
