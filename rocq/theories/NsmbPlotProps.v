(** * Properties of the N-template plot *)
From Coq Require Import String Reals ZArith List Lia Lra Bool.
From Coquelicot Require Import Coquelicot.
From Verif Require Import Base Dft FilterModel NsmbModel NsmbSpec NsmbProofs2 NsmbProofs3 NsmbProofs4 NsmbProps
  NsmbPlotModel NsmbPlotSpec NsmbPlotProofs1 NsmbPlotProofs2.
Import ListNotations.
Local Open Scope R_scope.

(** ** C150: plotnsmb draws the data, the fit and its parts *)

(** [bkgs] and [sigs]: each background but the last two, and the signal if its amplitude is not
    negligible, with slope and offset added. *)
Theorem C150_figure : forall pinv nt s bs psd fs st pulse e a lp save xlim prefix shifts path data,
  0 < fs -> (forall f, (1 <= f < nt)%nat -> 0 < psd f) -> of_nsmb_setup pinv nt s bs psd fs = Ok st ->
  (2 <= length bs)%nat -> (forall sh, shifts = Some sh -> (length bs <= length sh)%nat) ->
  (lp = None -> data = [mkNc (mk nt pulse) (Some (NText "Data"))]) ->
  (forall fc, lp = Some fc -> exists y, lowpassfilter [mk nt pulse] fc fs = Ok [y] /\
     data = [mkNc y (Some (NText "Data (LP filtered)")); mkNc (mk nt pulse) (Some (NText "Data"))]) ->
  exists fig file bkgs sigs,
    plotnsmb pulse fs (IZR e / fs) a (s_tf st) 1 (length bs) nt (s_psddnu st) lp save xlim prefix shifts path = Ok (fig, file) /\
    let total := sb_model nt s bs a e in
    nf_curves fig = (data ++ mkNc (mk nt total) (Some (NChi2 (trace_chi2 nt nt (bin_noise nt psd fs) (trace_minus pulse total))))
                     :: bkgs ++ sigs)%list /\
    length bkgs = (length bs - 2)%nat /\
    (forall k, (k < length bs - 2)%nat -> nth_error bkgs k =
       Some (mkNc (mk nt (fun t => bkg_part bs a k t + last_two bs a t))
                  (if (k =? 0)%nat then Some (NText "Background Fit") else None))) /\
    (1 / 10 ^ 20 < Rabs (a O) ->
       sigs = [mkNc (mk nt (fun t => signal_part nt s a e t + last_two bs a t)) (Some (NText "Signal Fit"))]) /\
    (Rabs (a O) <= 1 / 10 ^ 20 -> sigs = []) /\
    (shifts = None -> nf_vlines fig = []) /\
    (forall sh, shifts = Some sh -> length (nf_vlines fig) = length bs /\
       forall k, (k < length bs)%nat -> nth_error (nf_vlines fig) k =
         Some (nth k sh None, if (k =? 0)%nat then Some "Bckg. Start Times"%string else None)) /\
    nf_xlim fig = xlim /\
    (save = FBool false \/ save = FInt 0 -> file = None) /\
    (save = FBool true -> file = Some (path ++ prefix ++ "True.png")%string) /\
    (forall z, z <> 0%Z -> save = FInt z ->
       file = Some (path ++ prefix ++ DecimalString.NilZero.string_of_int (Z.to_int z) ++ ".png")%string).
Proof.
  intros pinv nt s bs psd fs st pulse e a lp save xlim prefix shifts path data Hfs Hpsd E Hb HS D0 D1.
  apply setup_inv in E. destruct E as [_ [Hnt [_ ->]]].
  assert (HD : data_shown nt fs pulse lp data) by (destruct lp as [fc|]; [exact (D1 fc eq_refl)|exact (D0 eq_refl)]).
  eexists. eexists.
  exists (mk (length bs - 2) (fun k => mkNc (mk nt (fun t => bkg_part bs a k t + last_two bs a t))
                                        (if (k =? 0)%nat then Some (NText "Background Fit") else None))).
  exists (if Rltb (1 / 10 ^ 20) (Rabs (a O))
          then [mkNc (mk nt (fun t => signal_part nt s a e t + last_two bs a t)) (Some (NText "Signal Fit"))] else []).
  split; [exact (plot_shape pinv nt s bs psd fs Hnt Hfs Hpsd Hb pulse e a lp save xlim prefix shifts path data HD HS)|].
  cbn [nf_curves nf_vlines nf_xlim]. split; [reflexivity|]. split; [apply mk_length|]. split.
  { intros k Hk. erewrite nth_error_nth' with (d := mkNc [] None) by now rewrite mk_length. now rewrite mk_nth. }
  split; [intros H; now rewrite Rltb_true|]. split; [intros H; now rewrite Rltb_false by lra|].
  split; [intros ->; reflexivity|]. split.
  { intros sh ->. split; [apply mk_length|]. intros k Hk.
    erewrite nth_error_nth' with (d := (None, None)) by now rewrite mk_length. now rewrite mk_nth. }
  split; [reflexivity|]. split; [intros [->| ->]; reflexivity|]. split; [intros ->; reflexivity|].
  intros z Hz ->. cbn. destruct (Z.eqb_spec z 0); [contradiction|reflexivity].
Qed.
Print Assumptions C150_figure.

(** The drawn parts add up: the total is the signal, the backgrounds and slope and offset once. *)
Theorem C150_parts : forall nt s bs a e t, (2 <= length bs)%nat ->
  sb_model nt s bs a e t =
  signal_part nt s a e t + rsum (length bs - 2) (fun k => bkg_part bs a k t) + last_two bs a t.
Proof.
  intros nt s bs a e t H. unfold sb_model, last_two, signal_part.
  change (rsum (length bs) (fun k => a (S k) * nth k bs (fun _ => 0) t)) with (rsum (length bs) (fun k => bkg_part bs a k t)).
  replace (length bs) with (S (S (length bs - 2))) at 1 by lia. cbn [rsum].
  replace (S (length bs - 2)) with (length bs - 1)%nat by lia. ring.
Qed.
Print Assumptions C150_parts.

(** Low-pass frequencies outside (0, fs/2) and short traces are rejected, as are too few shifts. *)
Theorem C150_rejects : forall pinv nt s bs psd fs st pulse e a save xlim prefix shifts path,
  0 < fs -> (forall f, (1 <= f < nt)%nat -> 0 < psd f) -> of_nsmb_setup pinv nt s bs psd fs = Ok st ->
  (2 <= length bs)%nat ->
  (forall fc, ~ (0 < fc < fs / 2) \/ (nt <= 6)%nat ->
     plotnsmb pulse fs (IZR e / fs) a (s_tf st) 1 (length bs) nt (s_psddnu st) (Some fc) save xlim prefix shifts path = Err ValueError) /\
  (forall sh, shifts = Some sh -> (length sh < length bs)%nat ->
     plotnsmb pulse fs (IZR e / fs) a (s_tf st) 1 (length bs) nt (s_psddnu st) None save xlim prefix shifts path = Err IndexError).
Proof.
  intros pinv nt s bs psd fs st pulse e a save xlim prefix shifts path Hfs Hpsd E Hb.
  apply setup_inv in E. destruct E as [_ [Hnt [_ ->]]]. split.
  - intros fc H. exact (plot_unfilterable pinv nt s bs psd fs Hfs pulse _ a fc save xlim prefix shifts path H).
  - intros sh -> H. exact (plot_short pinv nt s bs psd fs Hnt Hfs Hpsd Hb pulse e a None save xlim prefix sh path _ eq_refl H).
Qed.
Print Assumptions C150_rejects.

(** Division by a sampling rate of zero. *)
Theorem C150_zero_rate : forall pulse tdel a tf nS nB nt J lp save xlim prefix shifts path,
  plotnsmb pulse 0 tdel a tf nS nB nt J lp save xlim prefix shifts path = Err ZeroDivisionError.
Proof. intros. unfold plotnsmb. now rewrite Reqb_true. Qed.
Print Assumptions C150_zero_rate.

Example C150_ex : forall pinv, exists st,
  of_nsmb_setup pinv 8 (fun t => INR t) [fun t => INR (t * t); fun t => INR t; fun _ => 1] (fun _ => 1) 100000 = Ok st /\
  exists y, lowpassfilter [mk 8 (fun t => INR t)] 30000 100000 = Ok [y].
Proof.
  intros pinv. eexists. split; [apply setup_ok; [lra|lia|cbn; lia]|].
  destruct (filter_ok 8 100000 ltac:(lra) (fun t => INR t) 30000 ltac:(lra) ltac:(lia)) as (y & E & _). now exists y.
Qed.

(** ** C151: a fit with lgcplot=True returns the same result and draws that result *)

(** Curve 2 of the figure is the fit: its label is the chi2 of what is drawn. *)
Theorem C151_nsmb : forall pinv nt s bs psd fs st pulse window lf shifts save out fig file,
  0 < fs -> (forall f, (1 <= f < nt)%nat -> 0 < psd f) -> pinv_ok pinv ->
  of_nsmb_setup pinv nt s bs psd fs = Ok st ->
  of_nsmb_plot st (of_nsmb_getiP pinv st) pulse fs window lf shifts save = Ok (out, (fig, file)) ->
  of_nsmb st (of_nsmb_getiP pinv st) pulse fs window lf = Ok out /\
  (exists y, lowpassfilter [mk nt pulse] 30000 fs = Ok [y] /\
     nth_error (nf_curves fig) 0 = Some (mkNc y (Some (NText "Data (LP filtered)")))) /\
  nth_error (nf_curves fig) 1 = Some (mkNc (mk nt pulse) (Some (NText "Data"))) /\
  nth_error (nf_curves fig) 2 = Some (mkNc (mk nt (fun t => pulse t - o_resid out t)) (Some (NChi2 (o_chi2 out)))) /\
  (save = FBool false -> file = None) /\ (save = FBool true -> file = Some "./scFitTrue.png"%string) /\
  (save = FInt 1 -> file = Some "./scFit1.png"%string) /\
  start_lines (length bs) shifts (nf_vlines fig).
Proof.
  intros pinv nt s bs psd fs st pulse window lf shifts save out fig file Hfs Hpsd Hp E H.
  unfold of_nsmb_plot in H. destruct (of_nsmb _ _ _ _ _ _) as [o|] eqn:F; [|discriminate]. cbn [bind] in H.
  destruct (plot_fit _ _ _ _ _ _ _ _) as [p|] eqn:G; [|discriminate]. cbn [bind] in H.
  assert (o = out) by congruence. subst o. assert (p = (fig, file)) by congruence. subst p. clear H.
  destruct (C54_nsmb pinv nt s bs psd fs st pulse window lf out Hfs Hpsd Hp E F) as (d & _ & (e & T & M & _) & HR & HC & _).
  assert (Hb : (2 <= length bs)%nat).
  { assert (X := E). apply setup_inv in X. destruct X as [_ [_ [X ->]]]. destruct bs as [|b [|b' bs]]; cbn in X |- *; try lia.
    unfold of_nsmb in F. cbn in F. destruct (Reqb fs 0); [discriminate|]. destruct (wrap_window _ _); discriminate. }
  apply setup_inv in E. destruct E as [_ [Hnt [_ ->]]].
  rewrite T in G. assert (SL := plot_fit_lines pinv nt s bs psd fs Hnt Hfs Hpsd Hb _ _ _ _ _ _ _ _ G).
  apply (plot_fit_curves pinv nt s bs psd fs Hnt Hfs Hpsd Hb) in G. destruct G as (-> & y & Y & ->).
  assert (Q : forall t, (t < nt)%nat -> sb_model nt s bs (o_amp out) e t = pulse t - o_resid out t).
  { intros t Ht. rewrite HR by exact Ht. rewrite (sb_model_mod nt s bs (o_amp out) e d t M). ring. }
  split; [reflexivity|]. split; [exists y; split; [exact Y|reflexivity]|]. split; [reflexivity|]. split.
  - cbn [nth_error app]. do 2 f_equal.
    + apply mk_ext. exact Q.
    + do 2 f_equal. rewrite HC. apply trace_chi2_ext. intros t Ht. unfold trace_minus. rewrite Q by exact Ht. ring.
  - split; [intros ->; reflexivity|]. split; [intros ->; reflexivity|]. split; [intros ->; reflexivity|exact SL].
Qed.
Print Assumptions C151_nsmb.

Theorem C151_con : forall pinv polyfit nt s bs psd fs st pulse windows lf c0 cs shifts save out fig file,
  0 < fs -> (forall f, (1 <= f < nt)%nat -> 0 < psd f) -> pinv_ok pinv ->
  of_nsmb_setup pinv nt s bs psd fs = Ok st -> length cs = length bs -> (2 <= length bs)%nat ->
  of_nsmb_con_plot pinv polyfit st pulse fs windows lf (Some cs) (SigArr [c0]) shifts save = Ok (out, (fig, file)) ->
  of_nsmb_con pinv polyfit st pulse fs windows lf (Some cs) (SigArr [c0]) = Ok out /\
  (exists y, lowpassfilter [mk nt pulse] 30000 fs = Ok [y] /\
     nth_error (nf_curves fig) 0 = Some (mkNc y (Some (NText "Data (LP filtered)")))) /\
  nth_error (nf_curves fig) 1 = Some (mkNc (mk nt pulse) (Some (NText "Data"))) /\
  nth_error (nf_curves fig) 2 = Some (mkNc (mk nt (fun t => pulse t - c_resid out t)) (Some (NChi2 (c_chi2 out)))) /\
  (save = FBool false -> file = None) /\ (save = FBool true -> file = Some "./scFitTrue.png"%string) /\
  (save = FInt 1 -> file = Some "./scFit1.png"%string) /\
  start_lines (length bs) shifts (nf_vlines fig).
Proof.
  intros pinv polyfit nt s bs psd fs st pulse windows lf c0 cs shifts save out fig file Hfs Hpsd Hp E HL Hb H.
  unfold of_nsmb_con_plot in H. destruct (of_nsmb_con _ _ _ _ _ _ _ _ _) as [o|] eqn:F; [|discriminate]. cbn [bind] in H.
  destruct (plot_fit _ _ _ _ _ _ _ _) as [p|] eqn:G; [|discriminate]. cbn [bind] in H.
  assert (o = out) by congruence. subst o. assert (p = (fig, file)) by congruence. subst p. clear H.
  destruct (C55_con_partial pinv polyfit nt s bs psd fs st pulse windows lf c0 cs out Hfs Hpsd Hp E HL F)
    as (w & d & _ & _ & (e & T & M) & HR & HC & _).
  apply setup_inv in E. destruct E as [_ [Hnt [_ ->]]].
  rewrite T in G. assert (SL := plot_fit_lines pinv nt s bs psd fs Hnt Hfs Hpsd Hb _ _ _ _ _ _ _ _ G).
  apply (plot_fit_curves pinv nt s bs psd fs Hnt Hfs Hpsd Hb) in G. destruct G as (-> & y & Y & ->).
  assert (Q : forall t, (t < nt)%nat -> sb_model nt s bs (c_amp out) e t = pulse t - c_resid out t).
  { intros t Ht. rewrite HR by exact Ht. rewrite (sb_model_mod nt s bs (c_amp out) e d t M). ring. }
  split; [reflexivity|]. split; [exists y; split; [exact Y|reflexivity]|]. split; [reflexivity|]. split.
  - cbn [nth_error app]. do 2 f_equal.
    + apply mk_ext. exact Q.
    + do 2 f_equal. rewrite HC. apply trace_chi2_ext. intros t Ht. unfold trace_minus. rewrite Q by exact Ht. ring.
  - split; [intros ->; reflexivity|]. split; [intros ->; reflexivity|]. split; [intros ->; reflexivity|exact SL].
Qed.
Print Assumptions C151_con.

(** The background-only fit has no signal curve. *)
Theorem C151_mb : forall pinv nt s bs psd fs st pulse lf con shifts save out fig file,
  0 < fs -> (forall f, (1 <= f < nt)%nat -> 0 < psd f) -> pinv_ok pinv ->
  of_nsmb_setup pinv nt s bs psd fs = Ok st -> length con = length bs -> (2 <= length bs)%nat ->
  of_mb_plot pinv st pulse fs lf (Some con) shifts save = Ok (out, (fig, file)) ->
  of_mb pinv st pulse lf (Some con) = Ok out /\
  (exists y, lowpassfilter [mk nt pulse] 30000 fs = Ok [y] /\
     nth_error (nf_curves fig) 0 = Some (mkNc y (Some (NText "Data (LP filtered)")))) /\
  nth_error (nf_curves fig) 1 = Some (mkNc (mk nt pulse) (Some (NText "Data"))) /\
  nth_error (nf_curves fig) 2 = Some (mkNc (mk nt (b_model bs (b_amp out))) (Some (NChi2 (b_chi2 out)))) /\
  (forall c, In c (nf_curves fig) -> nc_label c <> Some (NText "Signal Fit")) /\
  length (nf_curves fig) = (1 + length bs)%nat /\
  (save = FBool false -> file = None) /\ (save = FBool true -> file = Some "./bcFitTrue.png"%string) /\
  (save = FInt 1 -> file = Some "./bcFit1.png"%string) /\
  start_lines (length bs) shifts (nf_vlines fig).
Proof.
  intros pinv nt s bs psd fs st pulse lf con shifts save out fig file Hfs Hpsd Hp E HL Hb H.
  unfold of_mb_plot in H. destruct (of_mb _ _ _ _ _) as [o|] eqn:F; [|discriminate]. cbn [bind] in H.
  destruct (plot_fit _ _ _ _ _ _ _ _) as [p|] eqn:G; [|discriminate]. cbn [bind] in H.
  assert (o = out) by congruence. subst o. assert (p = (fig, file)) by congruence. subst p. clear H.
  destruct (C54_mb pinv nt s bs psd fs st pulse lf con out Hfs Hpsd Hp E HL F) as (a0 & _ & _ & HC & _).
  apply setup_inv in E. destruct E as [_ [Hnt [_ ->]]].
  set (a := fun k => match k with O => 0 | S k => b_amp out k end) in G.
  replace 0 with (IZR 0 / fs) in G at 1 by (field; lra).
  assert (SL := plot_fit_lines pinv nt s bs psd fs Hnt Hfs Hpsd Hb _ _ _ _ _ _ _ _ G).
  apply (plot_fit_curves pinv nt s bs psd fs Hnt Hfs Hpsd Hb) in G. destruct G as (-> & y & Y & ->).
  assert (Q : forall t, sb_model nt s bs a 0 t = b_model bs (b_amp out) t).
  { intros t. unfold sb_model, b_model, a. ring. }
  rewrite (Rltb_false (1 / 10 ^ 20) (Rabs (a O))) by (unfold a; rewrite Rabs_R0; apply Rlt_le; apply Rdiv_lt_0_compat; [lra|apply pow_lt; lra]).
  split; [reflexivity|]. split; [exists y; split; [exact Y|reflexivity]|]. split; [reflexivity|]. split; [|split; [|split]].
  - cbn [nth_error app]. do 2 f_equal.
    + apply mk_ext. intros t _. apply Q.
    + do 2 f_equal. rewrite HC. apply trace_chi2_ext. intros t Ht. unfold trace_minus. now rewrite Q.
  - intros c Hc. rewrite app_nil_r in Hc. apply in_app_or in Hc. destruct Hc as [Hc|Hc].
    + destruct Hc as [<-|[<-|[<-|[]]]]; discriminate.
    + apply in_map_iff in Hc. destruct Hc as (k & <- & _). cbn. destruct (k =? 0)%nat; discriminate.
  - rewrite app_nil_r, app_length, mk_length. cbn. lia.
  - split; [intros ->; reflexivity|]. split; [intros ->; reflexivity|]. split; [intros ->; reflexivity|exact SL].
Qed.
Print Assumptions C151_mb.

(** A fit that succeeds without the plot succeeds with it if and only if the sampling rate is above
    60 kHz, the trace has more than six bins, and the shifts, if given, are as many as the backgrounds. *)
Theorem C151_when_partial : forall pinv nt s bs psd fs st pulse window lf shifts save out,
  0 < fs -> (forall f, (1 <= f < nt)%nat -> 0 < psd f) -> pinv_ok pinv ->
  of_nsmb_setup pinv nt s bs psd fs = Ok st ->
  of_nsmb st (of_nsmb_getiP pinv st) pulse fs window lf = Ok out ->
  let plotted := of_nsmb_plot st (of_nsmb_getiP pinv st) pulse fs window lf shifts save in
  ((exists p, plotted = Ok (out, p)) <->
   60000 < fs /\ (6 < nt)%nat /\ (forall sh, shifts = Some sh -> (length bs <= length sh)%nat)) /\
  (~ (60000 < fs /\ (6 < nt)%nat) -> plotted = Err ValueError) /\
  (60000 < fs -> (6 < nt)%nat -> forall sh, shifts = Some sh -> (length sh < length bs)%nat -> plotted = Err IndexError).
Proof.
  intros pinv nt s bs psd fs st pulse window lf shifts save out Hfs Hpsd Hp E F plotted.
  destruct (C54_nsmb pinv nt s bs psd fs st pulse window lf out Hfs Hpsd Hp E F) as (d & _ & (e & T & _) & _).
  assert (Hb : (2 <= length bs)%nat).
  { assert (X := E). apply setup_inv in X. destruct X as [_ [_ [X ->]]]. destruct bs as [|b [|b' bs]]; cbn in X |- *; try lia.
    unfold of_nsmb in F. cbn in F. destruct (Reqb fs 0); [discriminate|]. destruct (wrap_window _ _); discriminate. }
  apply setup_inv in E. destruct E as [_ [Hnt [_ ->]]].
  destruct (plot_fit_when pinv nt s bs psd fs Hnt Hfs Hpsd Hb pulse e (o_amp out) save "scFit" shifts) as (W1 & W2 & W3).
  assert (X : plotted = do p <- plot_fit (the_setup pinv nt s bs psd fs) pulse fs (IZR e / fs) (o_amp out) save "scFit" shifts; Ok (out, p)).
  { unfold plotted, of_nsmb_plot. rewrite F. cbn [bind]. now rewrite T. }
  rewrite X. split; [|split].
  - rewrite <- W1. split; intros [p P].
    + destruct (plot_fit _ _ _ _ _ _ _ _) as [q|]; [now exists q|discriminate].
    + exists p. now rewrite P.
  - intros H. now rewrite W2.
  - intros H1 H2 sh Hs H3. now rewrite (W3 H1 H2 sh Hs H3).
Qed.
Print Assumptions C151_when_partial.

(** So asking for the plot can turn a fit that succeeds into an exception. *)
Theorem C151_plot_only_refuted : forall pinv, pinv_ok pinv -> exists st out,
  of_nsmb_setup pinv 8 (fun t => INR t) [fun t => INR t; fun _ => 1] (fun _ => 1) 60000 = Ok st /\
  of_nsmb st (of_nsmb_getiP pinv st) (fun t => INR t + 1) 60000 [0]%Z 2 = Ok out /\
  forall shifts save, of_nsmb_plot st (of_nsmb_getiP pinv st) (fun t => INR t + 1) 60000 [0]%Z 2 shifts save = Err ValueError.
Proof.
  intros pinv Hp.
  destruct (C54_nsmb_succeeds pinv 8 (fun t => INR t) [fun t => INR t; fun _ => 1] (fun _ => 1) 60000 (fun t => INR t + 1) [0]%Z 2)
    as (st & out & E1 & E2); try lra; try lia; try discriminate; intros; try lra.
  - cbn. lia.
  - cbn in H. lia.
  - exists st, out. split; [exact E1|]. split; [exact E2|]. intros shifts save.
    destruct (C151_when_partial pinv 8 (fun t => INR t) [fun t => INR t; fun _ => 1] (fun _ => 1) 60000 st (fun t => INR t + 1) [0]%Z 2 shifts save out)
      as (_ & W & _); try assumption; try lra; [intros; lra|]. apply W. intros [A _]. lra.
Qed.
Print Assumptions C151_plot_only_refuted.

Example C151_ex : forall pinv, pinv_ok pinv -> exists st out p,
  of_nsmb_setup pinv 8 (fun t => INR t) [fun t => INR t; fun _ => 1] (fun _ => 1) 100000 = Ok st /\
  of_nsmb_plot st (of_nsmb_getiP pinv st) (fun t => INR t + 1) 100000 [0]%Z 2 (Some [None; None]) (FInt 1) = Ok (out, p).
Proof.
  intros pinv Hp.
  destruct (C54_nsmb_succeeds pinv 8 (fun t => INR t) [fun t => INR t; fun _ => 1] (fun _ => 1) 100000 (fun t => INR t + 1) [0]%Z 2)
    as (st & out & E1 & E2); try lra; try lia; try discriminate; intros; try lra.
  - cbn. lia.
  - cbn in H. lia.
  - destruct (C151_when_partial pinv 8 (fun t => INR t) [fun t => INR t; fun _ => 1] (fun _ => 1) 100000 st (fun t => INR t + 1) [0]%Z 2 (Some [None; None]) (FInt 1) out)
      as [[_ W] _]; try assumption; try lra; [intros; lra|].
    destruct W as [p P]; [|exists st, out, p; split; assumption].
    split; [lra|]. split; [lia|]. intros sh H. assert (sh = [None; None]) by congruence. subst. cbn. lia.
Qed.
