(** * Proofs about the noise plots: cross spectra, de-correlated noise, comparison, files *)
From Coq Require Import String Ascii DecimalString DecimalNat Permutation.
From Verif Require Import Base ListLemmas Dft UtilsModel NoiseModel NoiseSpec NoiseProofs7 PlotModel PlotSpec PlotProofs1 PlotProofs2 PlotProofs3.
Open Scope R_scope.

(** ** plot_csd: reading the labels *)
Lemma int_of_char_range a k : int_of_char a = Ok k -> (k < 10)%nat.
Proof.
  unfold int_of_char. destruct ((48 <=? nat_of_ascii a)%nat && (nat_of_ascii a <=? 57)%nat) eqn:E; [|discriminate].
  apply andb_prop in E. destruct E as [E1 E2]. apply Nat.leb_le in E1. apply Nat.leb_le in E2. intros H.
  assert (k = nat_of_ascii a - 48)%nat by congruence. lia.
Qed.

Lemma int_of_digit k : (k < 10)%nat -> int_of_char (ascii_of_nat (48 + k)) = Ok k.
Proof. intros H. do 10 (destruct k as [|k]; [reflexivity|]). lia. Qed.

Lemma scan_range n ls ps : scan_labels n ls = Ok (Indices ps) ->
  length ps = length ls /\ forall x y, In (x, y) ps -> (x < n)%nat /\ (y < n)%nat /\ (x < 10)%nat /\ (y < 10)%nat.
Proof.
  revert ps. induction ls as [|l ls IH]; intros ps E.
  - cbn in E. assert (ps = []) by congruence. subst. split; [reflexivity|]. intros ? ? [].
  - destruct l as [s|]; [|discriminate]. cbn [scan_labels] in E.
    destruct (char_at s 0) as [a|]; [|discriminate]. cbn [bind] in E. destruct (int_of_char a) as [x|] eqn:Ex; [|discriminate]. cbn [bind] in E.
    destruct (char_at s 1) as [b|]; [|discriminate]. cbn [bind] in E. destruct (int_of_char b) as [y|] eqn:Ey; [|discriminate]. cbn [bind] in E.
    destruct (Nat.leb_spec n x); [discriminate|]. destruct (Nat.leb_spec n y); [discriminate|]. cbn [orb] in E.
    destruct (scan_labels n ls) as [[qs|m]|e]; [|discriminate|discriminate]. cbn [bind] in E.
    assert (Ep : ps = (x, y) :: qs) by congruence. rewrite Ep. destruct (IH qs eq_refl) as [L H1].
    split; [cbn; lia|]. intros x' y' [Hin|Hin]; [|apply H1; exact Hin].
    assert (x' = x /\ y' = y) as [-> ->] by (split; congruence).
    apply int_of_char_range in Ex. apply int_of_char_range in Ey. auto.
Qed.

(** A two-character label of two digits within range is accepted. *)
Lemma scan_digits n (ps : list (nat * nat)) :
  (forall x y, In (x, y) ps -> (x < n)%nat /\ (y < n)%nat /\ (x < 10)%nat /\ (y < 10)%nat) ->
  scan_labels n (map (fun p => LStr (String (ascii_of_nat (48 + fst p)) (String (ascii_of_nat (48 + snd p)) EmptyString))) ps)
  = Ok (Indices ps).
Proof.
  induction ps as [|[x y] ps IH]; intros H; [reflexivity|].
  destruct (H x y (or_introl eq_refl)) as (H1 & H2 & H3 & H4).
  cbn [map scan_labels fst snd]. unfold char_at at 1 2. cbn [String.get bind].
  rewrite (int_of_digit x H3). cbn [bind]. rewrite (int_of_digit y H4). cbn [bind].
  destruct (Nat.leb_spec n x); [lia|]. destruct (Nat.leb_spec n y); [lia|]. cbn [orb].
  rewrite IH by (intros; apply H; now right). reflexivity.
Qed.

Lemma csd_figs save o part spec lgcsave sp : reachable o ->
  (forall i j, length (spec i j) = length (freqs o)) -> forall ps ii,
  (forall x y, In (x, y) ps -> (x < length (channames o))%nat /\ (y < length (channames o))%nat) ->
  let r := csd_figures save o part spec lgcsave sp ii ps in
  snd r = Ok tt /\ length (shown (fst r)) = length ps /\
  (forall k x y, nth_error ps k = Some (x, y) -> exists f c nx ny,
     nth_error (shown (fst r)) k = Some f /\ nth_error (channames o) x = Some nx /\ nth_error (channames o) y = Some ny /\
     f_title f = (shown_name o ++ " " ++ part ++ "(CSD) for channels: " ++ nx ++ "-" ++ ny)%string /\
     f_rows f = [[mkAxes (Some (f_title f)) false [c]]] /\ shows_values (freqs o) (spec x y) None c) /\
  (lgcsave = false -> fst r = map Shown (shown (fst r))).
Proof.
  intros Rc Hs. induction ps as [|[x y] ps IH]; intros ii Hp.
  - cbn. repeat split. intros [|k] x y E; discriminate.
  - cbn [csd_figures]. destruct (Hp x y (or_introl eq_refl)) as [Hx Hy].
    destruct (nth_error_lt (channames o) x Hx) as [nx Ex]. destruct (nth_error_lt (channames o) y Hy) as [ny Ey].
    unfold row_at. rewrite Ex, Ey. cbn [bind].
    destruct (values_draw (freqs o) (spec x y) None (Hs x y)) as [D V]. rewrite D. cbn [bind andthen quiet snd fst app finish].
    destruct (IH (S ii) ltac:(intros; apply Hp; now right)) as (I1 & I2 & I3 & I4).
    set (f := single (shown_name o ++ " " ++ part ++ "(CSD) for channels: " ++ nx ++ "-" ++ ny) [mkCurve (tl (freqs o)) (map Some (tl (spec x y))) None]).
    set (r := csd_figures save o part spec lgcsave sp (S ii) ps) in *.
    assert (Sh : shown ((try_save save lgcsave sp (pname o) ("_csd" ++ dec ii ++ ".png") f ++ [Shown f]) ++ fst r) = f :: shown (fst r)).
    { unfold shown. rewrite !flat_map_app. unfold try_save. destruct lgcsave; [|reflexivity]. destruct sp; [|reflexivity].
      destruct (pname o); [|reflexivity]. destruct (save _); reflexivity. }
    split; [exact I1|]. rewrite Sh. split; [cbn; lia|]. split.
    + intros [|k] x' y' Ek.
      * cbn in Ek. assert (x' = x /\ y' = y) as [-> ->] by (split; congruence). exists f. do 3 eexists.
        split; [reflexivity|]. split; [exact Ex|]. split; [exact Ey|]. split; [reflexivity|]. split; [reflexivity|]. exact V.
      * cbn in Ek. exact (I3 k x' y' Ek).
    + intros El. rewrite (I4 El) at 1. subst lgcsave. reflexivity.
Qed.

Lemma csd_plot save o ls ps lgcreal lgcsave sp csd re im : reachable o ->
  n_csd (pn o) = Some csd -> n_real_csd (pn o) = Some re -> n_imag_csd (pn o) = Some im ->
  scan_labels (nchan (pn o)) ls = Ok (Indices ps) ->
  let r := plot_csd save o ls lgcreal lgcsave sp in
  snd r = Ok tt /\ length (shown (fst r)) = length ls /\
  forall k x y, nth_error ps k = Some (x, y) -> exists f c nx ny,
     nth_error (shown (fst r)) k = Some f /\ nth_error (channames o) x = Some nx /\ nth_error (channames o) y = Some ny /\
     f_title f = (shown_name o ++ " " ++ (if lgcreal then "Re" else "Im") ++ "(CSD) for channels: " ++ nx ++ "-" ++ ny)%string /\
     f_rows f = [[mkAxes (Some (f_title f)) false [c]]] /\
     shows_values (freqs o) ((if lgcreal then re else im) x y) None c.
Proof.
  intros Rc E1 E2 E3 Es r. subst r. destruct (reach_facts o Rc) as (S & T & _ & Hc & Hl & Hb & Hf & Ef).
  destruct S as (_ & _ & _ & _ & _ & S6 & S7).
  destruct (scan_range _ _ _ Es) as [L Hr].
  unfold plot_csd. rewrite E1, E2, E3, Es. cbn [andthen quiet snd fst app].
  destruct (csd_figs save o (if lgcreal then "Re" else "Im") (if lgcreal then re else im) lgcsave sp Rc) with (ps := ps) (ii := 0%nat)
    as (I1 & I2 & I3 & _).
  { intros i j. rewrite Hl. destruct lgcreal; [apply S6|apply S7]; assumption. }
  { intros x y Hin. rewrite <- Hc. destruct (Hr x y Hin) as (? & ? & _). auto. }
  split; [exact I1|]. split; [lia|]. exact I3.
Qed.

(** No selection draws a pair with a channel index of two digits. *)
Lemma csd_no_two_digits n ls ps x y : scan_labels n ls = Ok (Indices ps) -> In (x, y) ps -> (x < 10)%nat /\ (y < 10)%nat.
Proof. intros E H. destruct (scan_range _ _ _ E) as [_ Hr]. destruct (Hr x y H) as (_ & _ & ? & ?). auto. Qed.

Lemma csd_refused save o ls m lgcreal lgcsave sp csd re im :
  n_csd (pn o) = Some csd -> n_real_csd (pn o) = Some re -> n_imag_csd (pn o) = Some im ->
  scan_labels (nchan (pn o)) ls = Ok (Refused m) ->
  plot_csd save o ls lgcreal lgcsave sp = ([Printed m], Ok tt).
Proof. intros E1 E2 E3 Es. unfold plot_csd. rewrite E1, E2, E3, Es. reflexivity. Qed.

Lemma csd_raises save o ls e lgcreal lgcsave sp csd re im :
  n_csd (pn o) = Some csd -> n_real_csd (pn o) = Some re -> n_imag_csd (pn o) = Some im ->
  scan_labels (nchan (pn o)) ls = Err e ->
  plot_csd save o ls lgcreal lgcsave sp = ([], Err e).
Proof. intros E1 E2 E3 Es. unfold plot_csd. rewrite E1, E2, E3, Es. reflexivity. Qed.

(** ** plot_decorrelatednoise *)
Lemma overlay_decorr save o f1 f2 f3 f4 lgcsave sp unc : reachable o -> n_uncorr (pn o) = Some unc ->
  let r := plot_decorrelatednoise save o true f1 f2 f3 f4 lgcsave sp in
  exists f a, shown (fst r) = [f] /\ snd r = Ok tt /\ f_rows f = [[a]] /\ a_hidden a = false /\
    length (a_curves a) = length (channames o) /\
    forall i name, nth_error (channames o) i = Some name -> exists c row,
       nth_error (a_curves a) i = Some c /\ nth_error unc i = Some row /\ shows_amplitude (freqs o) row (Some name) c.
Proof.
  intros Rc E r. subst r. destruct (reach_facts o Rc) as (S & T & _ & Hc & Hl & Hb & Hf & Ef).
  destruct S as (_ & _ & _ & S4 & _). destruct (S4 unc E) as [Lp Lr].
  unfold plot_decorrelatednoise. rewrite E. cbv zeta.
  destruct (overlay_spec (freqs o) unc (channames o) 0) as (cs & Ec & Lc & H); [cbn; lia|intros r Hr; rewrite Hl; apply Lr, Hr|].
  rewrite Ec. cbn [andthen quiet snd fst app finish].
  exists (single (shown_name o ++ " de-correlated noise") cs). eexists. split.
  { unfold try_save. destruct lgcsave; [|reflexivity]. destruct sp; [|reflexivity]. destruct (pname o); [|reflexivity].
    destruct (save _); reflexivity. }
  split; [reflexivity|]. split; [reflexivity|]. split; [reflexivity|]. split; [exact Lc|]. cbn [a_curves].
  intros i name Ei. destruct (H i name Ei) as (c & r & H1 & H2 & H3). exists c, r. split; [exact H1|]. split; [exact H2|].
  rewrite H3. apply amplitude_draw. rewrite Hl. apply Lr. eapply nth_error_In; exact H2.
Qed.

Definition zipadd (u c : list R) : list R := map (fun p => fst p + snd p) (combine u c).

Lemma zipadd_tl u c : zipadd (tl u) (tl c) = tl (zipadd u c).
Proof. destruct u, c; try reflexivity. cbn. destruct u; reflexivity. Qed.

Lemma decorr_subplots save o (f1 f2 f3 f4 : bool) lgcsave sp unc cor rc : reachable o ->
  n_uncorr (pn o) = Some unc -> n_corr (pn o) = Some cor -> n_real_csd (pn o) = Some rc -> channames o <> [] ->
  let r := plot_decorrelatednoise save o false f1 f2 f3 f4 lgcsave sp in
  exists f, shown (fst r) = [f] /\ snd r = Ok tt /\
    laid_out (length (channames o)) (fun i a => a_title a = nth_error (channames o) i /\
       exists ru rk cd cu ck cs, nth_error unc i = Some ru /\ nth_error cor i = Some rk /\
         a_curves a = ((if f1 then [cd] else []) ++ (if f2 then [cu] else []) ++ (if f3 then [ck] else []) ++ (if f4 then [cs] else []))%list /\
         shows_amplitude (freqs o) (rc i i) (Some "Data"%string) cd /\
         shows_amplitude (freqs o) ru (Some "Uncorrelated Noise"%string) cu /\
         shows_amplitude (freqs o) rk (Some "Correlated Noise"%string) ck /\
         shows_amplitude (freqs o) (zipadd ru rk) (Some "Total Noise"%string) cs) f.
Proof.
  intros Rc E1 E2 E3 Hne r. subst r. destruct (reach_facts o Rc) as (S & T & _ & Hc & Hl & Hb & Hf & Ef).
  destruct S as (_ & _ & _ & S4 & S5 & S6 & _). destruct (S4 unc E1) as [Lp1 Lr1]. destruct (S5 cor E2) as [Lp2 Lr2].
  unfold plot_decorrelatednoise. rewrite E1. cbv zeta.
  set (content := fun ii => do t <- row_at (channames o) ii; do cs <- decorr_curves o unc f1 f2 f3 f4 ii; Ok (mkAxes (Some t) false cs)).
  match goal with |- context [laid_out _ ?g _] => set (good := g) end.
  destruct (subplots_ok content (length (channames o)) (shown_name o ++ " de-correlated noise")%string good) as (rows & Er & Lay & _).
  { destruct (channames o); [contradiction|cbn; lia]. }
  { intros i Hi. destruct (nth_error_lt (channames o) i Hi) as [nm En].
    destruct (nth_error_lt unc i) as [ru Eu]; [lia|]. destruct (nth_error_lt cor i) as [rk Ek]; [lia|].
    assert (Lu : length ru = length (freqs o)) by (rewrite Hl; apply Lr1; eapply nth_error_In; exact Eu).
    assert (Lk : length rk = length (freqs o)) by (rewrite Hl; apply Lr2; eapply nth_error_In; exact Ek).
    destruct (amplitude_draw (freqs o) (rc i i) (Some "Data"%string) ltac:(rewrite Hl; apply S6; exact E3)) as [D1 A1].
    destruct (amplitude_draw (freqs o) ru (Some "Uncorrelated Noise"%string) Lu) as [D2 A2].
    destruct (amplitude_draw (freqs o) rk (Some "Correlated Noise"%string) Lk) as [D3 A3].
    destruct (amplitude_draw (freqs o) (zipadd ru rk) (Some "Total Noise"%string)) as [D4 A4].
    { unfold zipadd. rewrite map_length, combine_length. lia. }
    assert (Add : add_rows (tl ru) (tl rk) = Ok (tl (zipadd ru rk))).
    { unfold add_rows. rewrite !length_tl, Lu, Lk, Nat.eqb_refl. f_equal. apply zipadd_tl. }
    exists (mkAxes (Some nm) false
      ((if f1 then [mkCurve (tl (freqs o)) (asd (rc i i)) (Some "Data"%string)] else []) ++
       (if f2 then [mkCurve (tl (freqs o)) (asd ru) (Some "Uncorrelated Noise"%string)] else []) ++
       (if f3 then [mkCurve (tl (freqs o)) (asd rk) (Some "Correlated Noise"%string)] else []) ++
       (if f4 then [mkCurve (tl (freqs o)) (asd (zipadd ru rk)) (Some "Total Noise"%string)] else []))%list).
    split; [|split; [reflexivity|]].
    - unfold content, decorr_curves, row_at. rewrite En, Eu, E2, E3. cbn [bind subscriptable]. rewrite Ek. cbn [bind].
      rewrite D1, D2, D3, Add. cbn [bind]. unfold asd in D4. rewrite D4. cbn [bind].
      destruct f1, f2, f3, f4; reflexivity.
    - unfold good. cbn [a_title a_curves]. split; [symmetry; exact En|]. do 6 eexists. split; [exact Eu|]. split; [exact Ek|].
      split; [reflexivity|]. auto. }
  rewrite Er. cbn [andthen quiet snd fst app finish].
  exists (mkFig (shown_name o ++ " de-correlated noise") rows). split.
  { unfold try_save. destruct lgcsave; [|reflexivity]. destruct sp; [|reflexivity]. destruct (pname o); [|reflexivity].
    destruct (save _); reflexivity. }
  split; [reflexivity|]. exact Lay.
Qed.

(** Right after calculate_uncorr_noise the parts add up to the cross spectrum's diagonal. *)
Lemma uncorr_total inv o o' : sized o -> together o -> calculate_uncorr_noise inv o = (o', Ok tt) ->
  exists unc cor rc, n_uncorr o' = Some unc /\ n_corr o' = Some cor /\ n_real_csd o' = Some rc /\
    forall i, (i < nchan o')%nat -> exists ru rk, nth_error unc i = Some ru /\ nth_error cor i = Some rk /\ zipadd ru rk = rc i i.
Proof.
  intros S T.
  assert (X : forall o1, sized o1 -> forall r, r = match n_csd o1, n_real_csd o1 with
      | Some csd, Some rc =>
          match invert_bins inv (nchan o1) csd (seq 0 (lenpsd (nbins o1))) with
          | Err e => (o1, Err e)
          | Ok invs => (mkNoise (nbins o1) (nchan o1) (nfs o1) (ntime o1) (traces o1)
              (n_psd o1) (n_real_psd o1) (n_imag_psd o1) (n_corrcoeff o1)
              (Some (mk (nchan o1) (fun j => map (fun b : cmatrix => 1 / Complex.Cmod (b j j)) invs)))
              (Some (mk (nchan o1) (fun j =>
                 map (fun p : R * cmatrix => fst p - 1 / Complex.Cmod (snd p j j)) (combine (rc j j) invs))))
              (n_csd o1) (n_real_csd o1) (n_imag_csd o1) (n_real_csd_std o1) (n_imag_csd_std o1), Ok tt)
          end
      | _, _ => (o1, Err TypeError)
      end -> r = (o', Ok tt) -> exists unc cor rc, n_uncorr o' = Some unc /\ n_corr o' = Some cor /\ n_real_csd o' = Some rc /\
    forall i, (i < nchan o')%nat -> exists ru rk, nth_error unc i = Some ru /\ nth_error cor i = Some rk /\ zipadd ru rk = rc i i).
  { intros o1 S1 r -> E. destruct (n_csd o1) as [csd|]; [|discriminate]. destruct (n_real_csd o1) as [rc|] eqn:Erc; [|discriminate].
    destruct (invert_bins _ _ _ _) as [invs|] eqn:Ei; [|discriminate].
    assert (Hl := NoiseProofs3.invert_bins_length _ _ _ _ _ Ei). rewrite seq_length, lenpsd_half in Hl.
    destruct S1 as (_ & _ & _ & _ & _ & S6 & _).
    match type of E with (?a, _) = _ => assert (Eo : o' = a) by congruence end. rewrite Eo. clear E Eo.
    cbn [n_uncorr n_corr n_real_csd nchan]. do 3 eexists. split; [reflexivity|]. split; [reflexivity|]. split; [reflexivity|].
    intros i Hi. rewrite !mk_nth_error. destruct (Nat.ltb_spec i (nchan o1)); [|lia]. do 2 eexists. split; [reflexivity|]. split; [reflexivity|].
    unfold zipadd. specialize (S6 rc Erc i i). rewrite <- Hl in S6. clear -S6. revert S6. generalize (rc i i). clear.
    induction invs as [|b invs IH]; intros l L; destruct l as [|v l]; try discriminate; [reflexivity|].
    cbn [map combine fst snd]. rewrite IH by (cbn in L; lia). f_equal. ring. }
  intros E. unfold calculate_uncorr_noise in E. destruct (n_csd o) eqn:Ec.
  - exact (X o S _ eq_refl E).
  - destruct (calculate_csd o) as [o1 [u|e]] eqn:Eo; [|discriminate].
    assert (S1 : sized o1). { pose proof (sized_run (fun _ _ => None) OpCsd o S T) as [Q _]. cbn [run_noise] in Q. rewrite Eo in Q. exact Q. }
    exact (X o1 S1 _ eq_refl E).
Qed.

(** ** compare_noise *)
Lemma compare_noise_fails save arr decor lgcsave sp : forall chans c,
  In c chans -> (exists o, In o arr /\ In c (channames o)) ->
  let r := compare_noise save (map as_built arr) (ChanList chans) decor lgcsave sp in
  snd r = Err AttributeError /\ shown (fst r) = [] /\ files (fst r) = [].
Proof.
  intros chans c Hc (o & Ho & Hn). cbn [compare_noise].
  assert (Ne : arr <> []) by (intros ->; destruct Ho).
  assert (Ex : existsb (String.eqb c) (concat (map (fun c => channames (cmp c)) (map as_built arr))) = true).
  { apply existsb_exists. exists c. split; [|apply String.eqb_refl]. apply in_concat. exists (channames o). split; [|exact Hn].
    rewrite map_map. cbn [as_built cmp]. apply in_map_iff. eauto. }
  induction chans as [|d chans IH]; [destruct Hc|]. cbn [compare_channels].
  destruct (existsb (String.eqb d) _) eqn:Ed.
  - destruct arr as [|o1 arr']; [contradiction|]. cbn [map compare_curves as_built chann_dict andthen snd fst]. auto.
  - destruct Hc as [->|Hc]; [rewrite Ex in Ed; discriminate|].
    destruct (IH Hc) as (H1 & H2 & H3). cbn [andthen snd fst]. split; [exact H1|].
    unfold shown, files in *. cbn [app flat_map]. auto.
Qed.

Lemma compare_noise_unknown save arr decor lgcsave sp chans :
  (forall c o, In c chans -> In o arr -> ~ In c (channames (cmp o))) ->
  compare_noise save arr (ChanList chans) decor lgcsave sp =
  (map (fun c => Printed ("Invalid channel name: " ++ c ++ " ")) chans, Ok tt).
Proof.
  cbn [compare_noise]. induction chans as [|c chans IH]; intros H; [reflexivity|]. cbn [compare_channels map].
  destruct (existsb (String.eqb c) _) eqn:E.
  - exfalso. apply existsb_exists in E. destruct E as (x & Hx & Ex). apply String.eqb_eq in Ex. subst x.
    apply in_concat in Hx. destruct Hx as (l & Hl & Hx). apply in_map_iff in Hl. destruct Hl as (o & <- & Ho).
    exact (H c o (or_introl eq_refl) Ho Hx).
  - cbn [andthen snd fst app]. rewrite IH by (intros; apply H; [now right|assumption]). reflexivity.
Qed.

(** ** Saving *)
Lemma try_save_cases save lgcsave sp name suffix f :
  try_save save lgcsave sp name suffix f =
  (if lgcsave then
     match sp, name with
     | Some p, Some s => if save (p ++ underscored s ++ suffix)%string then [Saved (p ++ underscored s ++ suffix) f] else [Printed not_saved]
     | _, _ => [Printed not_saved]
     end
   else [])%list.
Proof. reflexivity. Qed.

Lemma underscored_no_space s : forall k, String.get k (underscored s) <> Some " "%char.
Proof.
  induction s as [|c s IH]; intros [|k]; cbn; try discriminate; [|apply IH].
  destruct (Ascii.eqb_spec c " "); [discriminate|]. congruence.
Qed.

Lemma underscored_length s : String.length (underscored s) = String.length s.
Proof. induction s as [|c s IH]; cbn; congruence. Qed.

Lemma underscored_same s : (forall k, String.get k s <> Some " "%char) -> underscored s = s.
Proof.
  induction s as [|c s IH]; intros H; [reflexivity|]. cbn. rewrite IH by (intros k; exact (H (S k))).
  destruct (Ascii.eqb_spec c " "); [|reflexivity]. subst c. exfalso. exact (H O eq_refl).
Qed.

Lemma last_char_ok s : s <> EmptyString -> exists c p, last_char s = Ok c /\ s = (p ++ String c EmptyString)%string.
Proof.
  induction s as [|a s IH]; intros H; [congruence|]. destruct s as [|b s].
  - exists a, EmptyString. auto.
  - destruct IH as (c & p & E & Es); [discriminate|]. exists c, (String a p). split; [exact E|]. cbn. now rewrite <- Es.
Qed.

Lemma string_app_assoc a b c : ((a ++ b) ++ c = a ++ (b ++ c))%string.
Proof. induction a as [|x a IH]; cbn; [reflexivity|now rewrite IH]. Qed.

Lemma string_app_nil a : (a ++ "" = a)%string.
Proof. induction a as [|x a IH]; cbn; [reflexivity|now rewrite IH]. Qed.

Lemma last_char_app p c : last_char (p ++ String c EmptyString) = Ok c.
Proof.
  induction p as [|a p IH]; [reflexivity|]. cbn [append last_char].
  destruct (p ++ String c EmptyString)%string eqn:E; [destruct p; discriminate|exact IH].
Qed.

Lemma save_path o name dir : pname o = Some name ->
  Noise_save o (dir ++ "/") = Ok (dir ++ "/" ++ underscored name ++ ".pkl")%string /\
  (dir <> EmptyString -> last_char dir <> Ok "/"%char ->
   Noise_save o dir = Ok (dir ++ "/" ++ underscored name ++ ".pkl")%string).
Proof.
  intros E. split.
  - unfold Noise_save. rewrite (last_char_app dir "/"). cbn [bind]. rewrite Ascii.eqb_refl, E. cbn [bind].
    now rewrite string_app_assoc.
  - intros Hd Hl. unfold Noise_save. destruct (last_char_ok dir Hd) as (c & p & Ec & _). rewrite Ec in *. cbn [bind].
    destruct (Ascii.eqb_spec c "/"); [subst c; congruence|]. rewrite E. cbn [bind]. now rewrite string_app_assoc.
Qed.

Lemma save_errors o path :
  (path = EmptyString -> Noise_save o path = Err IndexError) /\
  (path <> EmptyString -> pname o = None -> Noise_save o path = Err AttributeError).
Proof.
  split; [intros ->; reflexivity|]. intros H E. unfold Noise_save. destruct (last_char_ok path H) as (c & p & Ec & _).
  rewrite Ec. cbn [bind]. rewrite E. reflexivity.
Qed.
