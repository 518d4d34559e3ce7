(** * Proofs about the noise plots: a repaired compare_noise, file names *)
From Coq Require Import String Ascii DecimalString DecimalNat DecimalFacts.
From Verif Require Import Base ListLemmas Dft UtilsModel NoiseModel NoiseSpec NoiseProofs7 PlotModel PlotSpec PlotProofs1 PlotProofs2 PlotProofs3 PlotProofs4.
Open Scope R_scope.

(** ** The dictionary of channel names *)
Lemma name_dict_get names : forall i d s,
  match dict_get (name_dict i names d) s with
  | Some v => (exists k, v = (i + k)%nat /\ nth_error names k = Some s /\
                forall k', (k < k')%nat -> nth_error names k' <> Some s) \/ (~ In s names /\ dict_get d s = Some v)
  | None => ~ In s names /\ dict_get d s = None
  end.
Proof.
  induction names as [|n names IH]; intros i d s; cbn [name_dict].
  - destruct (dict_get d s); auto.
  - specialize (IH (S i) ((n, i) :: d) s). destruct (dict_get (name_dict (S i) names ((n, i) :: d)) s) as [v|].
    + destruct IH as [(k & -> & Hk & Hl)|[Hn Hg]].
      * left. exists (S k). split; [lia|]. split; [exact Hk|]. intros [|k'] H; [lia|]. apply Hl. lia.
      * cbn [dict_get] in Hg. destruct (String.eqb_spec s n).
        -- subst n. left. exists 0%nat. split; [assert (i = v) by congruence; lia|]. split; [reflexivity|].
           intros [|k'] H; [lia|]. cbn. intros E. apply Hn. eapply nth_error_In; exact E.
        -- right. split; [|exact Hg]. intros [H|H]; [congruence|contradiction].
    + destruct IH as [Hn Hg]. cbn [dict_get] in Hg. destruct (String.eqb_spec s n); [discriminate|].
      split; [|exact Hg]. intros [H|H]; [congruence|contradiction].
Qed.

Lemma chandict_get o s :
  match dict_get (chandict o) s with
  | Some v => nth_error (channames o) v = Some s /\ forall k, (v < k)%nat -> nth_error (channames o) k <> Some s
  | None => ~ In s (channames o)
  end.
Proof.
  unfold chandict. pose proof (name_dict_get (channames o) 0 [] s) as H. destruct (dict_get _ s) as [v|].
  - destruct H as [(k & -> & Hk & Hl)|[_ H]]; [|discriminate]. auto.
  - tauto.
Qed.

(** Objects whose [chann_dict] is what the class calls [chandict]. *)
Definition patched (o : pnoise) : compared := mkCmp o (Some (chandict o)).

(** The curves drawn for one channel, and the messages. *)
Lemma compare_curves_psd chan decor arr :
  (forall o, In o arr -> reachable o /\ compared_spectra decor o <> None /\ (decor = true -> pname o <> None)) ->
  exists cs, snd (compare_curves chan decor (map patched arr)) = Ok cs /\
    length cs = length (filter (fun o => existsb (String.eqb chan) (channames o)) arr) /\
    (forall k o, nth_error (filter (fun o => existsb (String.eqb chan) (channames o)) arr) k = Some o ->
      exists c i psd row, nth_error cs k = Some c /\ compared_spectra decor o = Some psd /\ nth_error (channames o) i = Some chan /\
        nth_error psd i = Some row /\ shows_amplitude (freqs o) row (legend_entry decor o) c) /\
    fst (compare_curves chan decor (map patched arr)) =
      map (fun o => Printed ("channel: " ++ chan ++ " not found for file: " ++ shown_name o ++ " "))
          (filter (fun o => negb (existsb (String.eqb chan) (channames o))) arr).
Proof.
  induction arr as [|o arr IH]; intros H.
  - exists []. cbn. repeat split. intros [|k] o E; discriminate.
  - destruct IH as (cs & I1 & I2 & I3 & I4); [intros; apply H; now right|].
    destruct (H o (or_introl eq_refl)) as (Rc & Hp & Hnm). cbn [map compare_curves patched cmp chann_dict filter].
    pose proof (chandict_get o chan) as D. destruct (dict_get (chandict o) chan) as [i|].
    + destruct D as [Di _]. assert (Hin : existsb (String.eqb chan) (channames o) = true).
      { apply existsb_exists. exists chan. split; [eapply nth_error_In; exact Di|apply String.eqb_refl]. }
      rewrite Hin. cbn [negb].
      destruct (compared_spectra decor o) as [psd|] eqn:E; [|contradiction].
      destruct (reach_facts o Rc) as (S & T & _ & Hc & Hl & _).
      assert (Sz : length psd = nchan (pn o) /\ forall r, In r psd -> length r = (nbins (pn o) / 2 + 1)%nat).
      { unfold compared_spectra in E. destruct decor; [apply (proj1 (proj2 (proj2 (proj2 S))))|apply (proj1 S)]; exact E. }
      destruct Sz as [Lp Lr].
      destruct (nth_error_lt psd i) as [row Er]; [rewrite Lp, Hc; eapply nth_error_Some_lt; exact Di|].
      assert (Lw : length row = length (freqs o)) by (rewrite Hl; apply Lr; eapply nth_error_In; exact Er).
      destruct (amplitude_draw (freqs o) row (legend_entry decor o) Lw) as [Dr Am].
      unfold compared_spectra in E. unfold legend_entry in Dr, Am.
      assert (Q : (if decor then
                match n_uncorr (pn o) with
                | None => andthen ([Printed ("The decorrelated noise for file: " ++ shown_name o ++ " has not been calculated yet")], Ok tt)
                            (fun _ => andthen (compare_curves chan decor (map patched arr)) (fun r => ([], Ok ([] ++ r)%list)))
                | Some unc =>
                    andthen (quiet (do r <- row_at unc i;
                                    do nm <- (match pname o with Some s => Ok s | None => Err TypeError end);
                                    draw (tl (freqs o)) (asd r) (Some (nm ++ " Decorrelated Noise")%string)))
                      (fun k => andthen (compare_curves chan decor (map patched arr)) (fun r => ([], Ok ([k] ++ r)%list)))
                end
              else
                andthen (quiet (do psd <- subscriptable (n_psd (pn o)); do r <- row_at psd i;
                                draw (tl (freqs o)) (asd r) (pname o)))
                  (fun k => andthen (compare_curves chan decor (map patched arr)) (fun r => ([], Ok ([k] ++ r)%list))))
        = andthen (compare_curves chan decor (map patched arr)) (fun r => ([], Ok ([mkCurve (tl (freqs o)) (asd row) (legend_entry decor o)] ++ r)%list))).
      { unfold legend_entry. destruct decor.
        - rewrite E. unfold row_at. rewrite Er. cbn [bind]. destruct (pname o) as [nm|]; [|destruct (Hnm eq_refl); reflexivity].
          cbn [bind]. rewrite Dr. unfold andthen, quiet. cbn [fst snd app]. destruct (snd (compare_curves _ _ _)); reflexivity.
        - rewrite E. cbn [subscriptable bind]. unfold row_at. rewrite Er. cbn [bind]. rewrite Dr. unfold andthen, quiet. cbn [fst snd app]. destruct (snd (compare_curves _ _ _)); reflexivity. }
      rewrite Q. clear Q. unfold andthen, quiet. cbn [fst snd app].
      rewrite I1. cbn [fst snd]. rewrite I4.
      exists (mkCurve (tl (freqs o)) (asd row) (legend_entry decor o) :: cs). split; [reflexivity|]. split; [cbn; lia|]. split.
      * intros [|k] o' Ek.
        -- cbn in Ek. assert (o' = o) by congruence. subst o'. do 4 eexists. split; [reflexivity|]. split; [exact E|]. eauto.
        -- exact (I3 k o' Ek).
      * now rewrite app_nil_r.
    + assert (Hin : existsb (String.eqb chan) (channames o) = false).
      { apply Bool.not_true_iff_false. intros Hin. apply existsb_exists in Hin. destruct Hin as (x & Hx & Ex).
        apply String.eqb_eq in Ex. subst x. contradiction. }
      rewrite Hin. cbn [negb map]. unfold andthen. cbn [fst snd app]. rewrite I1. cbn [fst snd]. rewrite I4.
      exists cs. rewrite app_nil_r. auto.
Qed.

Lemma compare_noise_patched save arr chans decor lgcsave sp :
  (forall o, In o arr -> reachable o /\ compared_spectra decor o <> None /\ (decor = true -> pname o <> None)) ->
  (forall c, In c chans -> exists o, In o arr /\ In c (channames o)) ->
  let r := compare_noise save (map patched arr) (ChanList chans) decor lgcsave sp in
  snd r = Ok tt /\ length (shown (fst r)) = length chans /\
  files (fst r) = (if lgcsave then match sp with
    | Some p => filter save (map (fun c => p ++ c ++ "_PSD_comparison.png")%string chans)
    | None => [] end else []) /\
  forall k chan, nth_error chans k = Some chan -> exists f a,
    nth_error (shown (fst r)) k = Some f /\ f_title f = chan /\ f_rows f = [[a]] /\
    length (a_curves a) = length (filter (fun o => existsb (String.eqb chan) (channames o)) arr) /\
    forall j o, nth_error (filter (fun o => existsb (String.eqb chan) (channames o)) arr) j = Some o ->
      exists c i psd row, nth_error (a_curves a) j = Some c /\ compared_spectra decor o = Some psd /\ nth_error (channames o) i = Some chan /\
        nth_error psd i = Some row /\ shows_amplitude (freqs o) row (legend_entry decor o) c.
Proof.
  intros H. cbn [compare_noise]. induction chans as [|ch chans IH]; intros Hc.
  - cbn. repeat split; [destruct lgcsave, sp; reflexivity|]. intros [|k] c E; discriminate.
  - cbn [compare_channels].
    assert (Ex : existsb (String.eqb ch) (concat (map (fun c => channames (cmp c)) (map patched arr))) = true).
    { destruct (Hc ch (or_introl eq_refl)) as (o & Ho & Hn). apply existsb_exists. exists ch. split; [|apply String.eqb_refl].
      apply in_concat. exists (channames o). split; [|exact Hn]. rewrite map_map. cbn [patched cmp]. apply in_map_iff. eauto. }
    rewrite Ex. destruct (compare_curves_psd ch decor arr H) as (cs & C1 & C2 & C3 & C4).
    destruct IH as (I1 & I2 & I4 & I3); [intros; apply Hc; now right|].
    set (rest := compare_channels save (map patched arr) decor lgcsave sp chans) in *.
    set (cc := compare_curves ch decor (map patched arr)) in *.
    unfold andthen. rewrite C1. cbn [fst snd].
    set (sv := if lgcsave then _ else _).
    assert (Sh : shown ((fst cc ++ sv ++ [Shown (single ch cs)]) ++ fst rest) = single ch cs :: shown (fst rest)).
    { unfold shown. rewrite !flat_map_app. rewrite C4.
      assert (P : flat_map (fun e => match e with Shown f => [f] | _ => [] end)
        (map (fun o => Printed ("channel: " ++ ch ++ " not found for file: " ++ shown_name o ++ " "))
          (filter (fun o => negb (existsb (String.eqb ch) (channames o))) arr)) = []).
      { generalize (filter (fun o => negb (existsb (String.eqb ch) (channames o))) arr) as l. induction l; [reflexivity|exact IHl]. }
      rewrite P. unfold sv. destruct lgcsave; [|reflexivity]. destruct sp; [|reflexivity].
      destruct (save _); reflexivity. }
    split; [exact I1|]. rewrite Sh. split; [cbn; lia|]. split.
    { unfold files in *. rewrite !flat_map_app. rewrite C4.
      assert (P : flat_map (fun e => match e with Saved p _ => [p] | _ => [] end)
        (map (fun o => Printed ("channel: " ++ ch ++ " not found for file: " ++ shown_name o ++ " "))
          (filter (fun o => negb (existsb (String.eqb ch) (channames o))) arr)) = []).
      { generalize (filter (fun o => negb (existsb (String.eqb ch) (channames o))) arr) as l. induction l; [reflexivity|exact IHl]. }
      rewrite P, I4. unfold sv. destruct lgcsave; [|reflexivity]. destruct sp; [|reflexivity]. cbn [map filter].
      destruct (save _); reflexivity. }
    intros [|k] chan Ek.
    + cbn in Ek. assert (chan = ch) by congruence. subst chan. exists (single ch cs), (mkAxes (Some ch) false cs).
      split; [reflexivity|]. split; [reflexivity|]. split; [reflexivity|]. split; [exact C2|]. exact C3.
    + exact (I3 k chan Ek).
Qed.

(** ** File names *)
Lemma to_uint_nonnil n : Nat.to_uint n <> Decimal.Nil.
Proof.
  rewrite <- (DecimalNat.Unsigned.of_to n), DecimalNat.Unsigned.to_of. apply DecimalFacts.unorm_nonnil.
Qed.

Lemma dec_inj a b : dec a = dec b -> a = b.
Proof.
  unfold dec. intros H. apply (f_equal NilZero.uint_of_string) in H.
  rewrite !NilZero.usu in H by apply to_uint_nonnil.
  rewrite <- (DecimalNat.Unsigned.of_to a), <- (DecimalNat.Unsigned.of_to b). congruence.
Qed.

Lemma app_inj_l p a b : (p ++ a = p ++ b)%string -> a = b.
Proof. induction p as [|c p IH]; cbn; intros H; [exact H|]. apply IH. congruence. Qed.

Lemma app_length_s a b : String.length (a ++ b) = (String.length a + String.length b)%nat.
Proof. induction a as [|c a IH]; cbn; congruence. Qed.

Lemma app_inj_r a b s : (a ++ s = b ++ s)%string -> a = b.
Proof.
  revert b. induction a as [|c a IH]; intros [|d b] H; cbn in H.
  - reflexivity.
  - apply (f_equal String.length) in H. cbn in H. rewrite app_length_s in H. lia.
  - apply (f_equal String.length) in H. cbn in H. rewrite app_length_s in H. lia.
  - f_equal; [congruence|]. apply IH. congruence.
Qed.

Lemma csd_file_inj p n a b : (p ++ underscored n ++ "_csd" ++ dec a ++ ".png" = p ++ underscored n ++ "_csd" ++ dec b ++ ".png")%string -> a = b.
Proof.
  intros H. apply app_inj_l in H. apply app_inj_l in H. apply app_inj_l in H. apply app_inj_r in H. apply dec_inj. exact H.
Qed.

(** The files of one plot_csd call, when every path can be written. *)
Lemma csd_figs_files o part spec p nm : reachable o -> pname o = Some nm ->
  (forall i j, length (spec i j) = length (freqs o)) -> forall ps ii,
  (forall x y, In (x, y) ps -> (x < length (channames o))%nat /\ (y < length (channames o))%nat) ->
  files (fst (csd_figures (fun _ => true) o part spec true (Some p) ii ps)) =
  map (fun k => p ++ underscored nm ++ "_csd" ++ dec k ++ ".png")%string (seq ii (length ps)).
Proof.
  intros Rc En Hs. induction ps as [|[x y] ps IH]; intros ii Hp; [reflexivity|].
  cbn [csd_figures]. destruct (Hp x y (or_introl eq_refl)) as [Hx Hy].
  destruct (nth_error_lt (channames o) x Hx) as [nx Ex]. destruct (nth_error_lt (channames o) y Hy) as [ny Ey].
  unfold row_at. rewrite Ex, Ey. cbn [bind].
  destruct (values_draw (freqs o) (spec x y) None (Hs x y)) as [D V]. rewrite D. cbn [bind andthen quiet snd fst app finish].
  unfold try_save. rewrite En. cbv zeta iota. cbn [length seq map]. rewrite <- (IH (S ii)) by (intros; apply Hp; now right).
  unfold files. rewrite !flat_map_app. reflexivity.
Qed.

Lemma csd_files o ls ps lgcreal p nm csd re im : reachable o -> pname o = Some nm ->
  n_csd (pn o) = Some csd -> n_real_csd (pn o) = Some re -> n_imag_csd (pn o) = Some im ->
  scan_labels (nchan (pn o)) ls = Ok (Indices ps) ->
  let fs := files (fst (plot_csd (fun _ => true) o ls lgcreal true (Some p))) in
  NoDup fs /\ (length fs = length ls)%nat /\
  forall k, (k < length ls)%nat -> nth_error fs k = Some (p ++ underscored nm ++ "_csd" ++ dec k ++ ".png")%string.
Proof.
  intros Rc En E1 E2 E3 Es fs. destruct (reach_facts o Rc) as (S & T & _ & Hc & Hl & Hb & Hf & Ef).
  destruct S as (_ & _ & _ & _ & _ & S6 & S7).
  destruct (scan_range _ _ _ Es) as [L Hr].
  assert (E : fs = map (fun k => p ++ underscored nm ++ "_csd" ++ dec k ++ ".png")%string (seq 0 (length ls))).
  { unfold fs, plot_csd. rewrite E1, E2, E3, Es. cbn [andthen quiet snd fst app]. rewrite <- L. apply csd_figs_files; [exact Rc|exact En| |].
    - intros i j. rewrite Hl. destruct lgcreal; [apply S6|apply S7]; assumption.
    - intros x y Hin. rewrite <- Hc. destruct (Hr x y Hin) as (? & ? & _). auto. }
  rewrite E. split.
  { apply FinFun.Injective_map_NoDup; [|apply seq_NoDup]. intros a b H. apply csd_file_inj in H. exact H. }
  rewrite map_length, seq_length. split; [reflexivity|]. intros k Hk. rewrite nth_error_map.
  rewrite (nth_error_nth' _ 0%nat) by (rewrite seq_length; exact Hk). cbn [option_map]. now rewrite seq_nth.
Qed.
