(** * The N-template fits that draw *)
From Coq Require Import String Reals ZArith List Lia Lra Bool.
From Coquelicot Require Import Coquelicot.
From Verif Require Import Base ListLemmas Dft FilterModel FilterProofs2 NsmbModel NsmbSpec NsmbProofs1 NsmbProofs2 NsmbProofs3 NsmbProofs4
  NsmbPlotModel NsmbPlotSpec NsmbPlotProofs1.
Import ListNotations.
Local Open Scope R_scope.

Lemma loop_short {A} (f : nat -> res A) (sh : list (option R)) n m :
  (length sh < m + n)%nat -> (m <= length sh)%nat ->
  (forall i, (length sh <= i)%nat -> f i = Err IndexError) -> (forall i, (i < length sh)%nat -> exists a, f i = Ok a) ->
  loop f (seq m n) = Err IndexError.
Proof.
  revert m. induction n as [|n IH]; intros m H1 H2 HE HO; [lia|]. cbn [seq loop].
  destruct (Nat.eq_dec m (length sh)) as [E|E].
  - rewrite HE by lia. reflexivity.
  - destruct (HO m ltac:(lia)) as [a ->]. cbn [bind]. rewrite IH by (auto; lia). reflexivity.
Qed.

Section Fits.
Variables (pinv : nat -> (nat -> nat -> R) -> nat -> nat -> R) (nt : nat) (s : nat -> R) (bs : list (nat -> R)) (psd : nat -> R) (fs : R).
Hypothesis Hnt : (2 <= nt)%nat.
Hypothesis Hfs : 0 < fs.
Hypothesis Hpsd : forall f, (1 <= f < nt)%nat -> 0 < psd f.
Hypothesis Hb : (2 <= length bs)%nat.
Let st := the_setup pinv nt s bs psd fs.

Lemma plot_unfilterable pulse tdel a fc save xlim prefix shifts path :
  ~ (0 < fc < fs / 2) \/ (nt <= 6)%nat ->
  plotnsmb pulse fs tdel a (s_tf st) ns (length bs) nt (s_psddnu st) (Some fc) save xlim prefix shifts path = Err ValueError.
Proof.
  intros H. unfold plotnsmb. rewrite Reqb_false by lra. rewrite (lowpass_errors (mk nt pulse) fc fs Hfs).
  - reflexivity.
  - rewrite mk_length. exact H.
Qed.
Lemma plot_short pulse e a lp save xlim prefix sh path data :
  data_shown nt fs pulse lp data -> (length sh < length bs)%nat ->
  plotnsmb pulse fs (IZR e / fs) a (s_tf st) ns (length bs) nt (s_psddnu st) lp save xlim prefix (Some sh) path = Err IndexError.
Proof.
  intros HD HS.
  assert (P := plot_shape pinv nt s bs psd fs Hnt Hfs Hpsd Hb pulse e a lp save xlim prefix None path data HD ltac:(discriminate)).
  assert (V : loop (fun i => do x <- pyindex sh (Z.of_nat i);
                 Ok (x, first_label i "Bckg. Start Times"%string)) (seq 0 (length bs)) = Err IndexError).
  { apply loop_short with sh; [lia|lia| |].
    - intros i Hi. unfold pyindex. destruct (Z.ltb_spec (Z.of_nat i) 0); [lia|]. destruct (Z.ltb_spec (Z.of_nat i) 0); [lia|].
      rewrite Nat2Z.id. replace (nth_error sh i) with (@None (option R)) by (symmetry; now apply nth_error_None). reflexivity.
    - intros i Hi. unfold pyindex. destruct (Z.ltb_spec (Z.of_nat i) 0); [lia|]. destruct (Z.ltb_spec (Z.of_nat i) 0); [lia|].
      rewrite Nat2Z.id. rewrite nth_error_nth' with (d := None) by lia. eexists. reflexivity. }
  unfold plotnsmb in *. rewrite V. destruct (Reqb fs 0); [discriminate|].
  destruct (match lp with Some fc => _ | None => _ end); [|discriminate]. cbn [bind] in *.
  destruct (nt =? 0)%nat; [discriminate|]. destruct (loop _ _); [|discriminate]. cbn [bind] in *.
  destruct (ns + length bs =? 0)%nat; [discriminate|].
  destruct (if Rltb _ _ then _ else _); [|discriminate]. reflexivity.
Qed.

Lemma filter_ok pulse fc : 0 < fc < fs / 2 -> (6 < nt)%nat ->
  exists y, lowpassfilter [mk nt pulse] fc fs = Ok [y] /\ length y = nt.
Proof.
  intros Hc H6. rewrite lowpass_one. apply nyq_range in Hc; [|exact Hfs]. apply butter1_errors in Hc. destruct Hc as [[g p] ->].
  cbn [bind]. destruct (filtfilt_ok (fst (g, p)) (snd (g, p)) (mk nt pulse)) as [y E]; [now rewrite mk_length|].
  rewrite E. exists y. split; [reflexivity|]. apply filtfilt_length in E. now rewrite mk_length in E.
Qed.

Lemma plot_fit_when pulse e a save prefix shifts :
  ((exists p, plot_fit st pulse fs (IZR e / fs) a save prefix shifts = Ok p) <->
   60000 < fs /\ (6 < nt)%nat /\ (forall sh, shifts = Some sh -> (length bs <= length sh)%nat)) /\
  (~ (60000 < fs /\ (6 < nt)%nat) -> plot_fit st pulse fs (IZR e / fs) a save prefix shifts = Err ValueError) /\
  (60000 < fs -> (6 < nt)%nat -> forall sh, shifts = Some sh -> (length sh < length bs)%nat ->
   plot_fit st pulse fs (IZR e / fs) a save prefix shifts = Err IndexError).
Proof.
  assert (U : ~ (60000 < fs /\ (6 < nt)%nat) -> plot_fit st pulse fs (IZR e / fs) a save prefix shifts = Err ValueError).
  { intros H. apply plot_unfilterable. destruct (Rlt_dec 60000 fs) as [H1|H1]; [right|left; lra].
    destruct (le_lt_dec nt 6); [assumption|]. exfalso. auto. }
  assert (V : 60000 < fs -> (6 < nt)%nat -> forall sh, shifts = Some sh -> (length sh < length bs)%nat ->
   plot_fit st pulse fs (IZR e / fs) a save prefix shifts = Err IndexError).
  { intros H1 H2 sh -> H3. destruct (filter_ok pulse 30000 ltac:(lra) H2) as (y & E & L).
    unfold plot_fit. eapply plot_short; [|exact H3]. exists y. split; [exact E|reflexivity]. }
  split; [|split; assumption]. split.
  - intros [p E]. assert (W : 60000 < fs /\ (6 < nt)%nat).
    { destruct (Rlt_dec 60000 fs) as [H1|H1]; [|rewrite U in E by tauto; discriminate].
      destruct (le_lt_dec nt 6); [rewrite U in E by lia; discriminate|]. now split. }
    destruct W as [W1 W2]. split; [exact W1|]. split; [exact W2|]. intros sh Hs.
    destruct (le_lt_dec (length bs) (length sh)); [assumption|]. rewrite (V W1 W2 sh Hs) in E by assumption. discriminate.
  - intros (W1 & W2 & W3). destruct (filter_ok pulse 30000 ltac:(lra) W2) as (y & E & L).
    eexists. unfold plot_fit. eapply plot_shape; try eassumption. exists y. split; [exact E|reflexivity].
Qed.

Lemma plot_fit_curves pulse e a save prefix shifts fig path :
  plot_fit st pulse fs (IZR e / fs) a save prefix shifts = Ok (fig, path) ->
  path = (if truthy save then Some ("./" ++ prefix ++ flag_str save ++ ".png")%string else None) /\
  exists y, lowpassfilter [mk nt pulse] 30000 fs = Ok [y] /\
  nf_curves fig =
    ([mkNc y (Some (NText "Data (LP filtered)")); mkNc (mk nt pulse) (Some (NText "Data"));
      mkNc (mk nt (sb_model nt s bs a e))
           (Some (NChi2 (trace_chi2 nt nt (bin_noise nt psd fs) (trace_minus pulse (sb_model nt s bs a e)))))]
     ++ mk (length bs - 2) (fun k => mkNc (mk nt (fun t => bkg_part bs a k t + last_two bs a t))
                                       (if (k =? 0)%nat then Some (NText "Background Fit") else None))
     ++ (if Rltb (1 / 10 ^ 20) (Rabs (a O))
         then [mkNc (mk nt (fun t => signal_part nt s a e t + last_two bs a t)) (Some (NText "Signal Fit"))] else []))%list.
Proof.
  intros H. destruct (plot_fit_when pulse e a save prefix shifts) as [[W _] _].
  destruct (W (ex_intro _ _ H)) as (W1 & W2 & W3).
  destruct (filter_ok pulse 30000 ltac:(lra) W2) as (y & E & L).
  assert (HD : data_shown nt fs pulse (Some 30000)
     [mkNc y (Some (NText "Data (LP filtered)")); mkNc (mk nt pulse) (Some (NText "Data"))]) by (exists y; split; [exact E|reflexivity]).
  assert (X := plot_shape pinv nt s bs psd fs Hnt Hfs Hpsd Hb pulse e a (Some 30000) save None prefix shifts "./" _ HD W3).
  unfold plot_fit in H.
  change (plotnsmb pulse fs (IZR e / fs) a (s_tf st) ns (length bs) nt (s_psddnu st) (Some 30000) save None prefix shifts "./" = Ok (fig, path)) in H.
  unfold st in H. rewrite X in H.
  split; [|exists y; split; [exact E|]].
  - assert (Q := f_equal (fun r => match r with Ok p => snd p | Err _ => None end) H). exact (eq_sym Q).
  - assert (Q := f_equal (fun r => match r with Ok p => nf_curves (fst p) | Err _ => [] end) H). exact (eq_sym Q).
Qed.

Lemma plot_fit_lines pulse e a save prefix shifts fig path :
  plot_fit st pulse fs (IZR e / fs) a save prefix shifts = Ok (fig, path) -> start_lines (length bs) shifts (nf_vlines fig).
Proof.
  intros H. destruct (plot_fit_when pulse e a save prefix shifts) as [[W _] _].
  destruct (W (ex_intro _ _ H)) as (W1 & W2 & W3).
  destruct (filter_ok pulse 30000 ltac:(lra) W2) as (y & E & L).
  assert (HD : data_shown nt fs pulse (Some 30000)
     [mkNc y (Some (NText "Data (LP filtered)")); mkNc (mk nt pulse) (Some (NText "Data"))]) by (exists y; split; [exact E|reflexivity]).
  assert (X := plot_shape pinv nt s bs psd fs Hnt Hfs Hpsd Hb pulse e a (Some 30000) save None prefix shifts "./" _ HD W3).
  unfold plot_fit in H.
  change (plotnsmb pulse fs (IZR e / fs) a (s_tf st) ns (length bs) nt (s_psddnu st) (Some 30000) save None prefix shifts "./" = Ok (fig, path)) in H.
  unfold st in H. rewrite X in H.
  assert (Q := f_equal (fun r => match r with Ok p => nf_vlines (fst p) | Err _ => [] end) H). cbn [fst nf_vlines] in Q. rewrite <- Q.
  unfold start_lines. destruct shifts as [sh|]; [|reflexivity]. split; [apply mk_length|]. intros k Hk.
  erewrite nth_error_nth' with (d := (None, None)) by now rewrite mk_length. now rewrite mk_nth.
Qed.

Lemma tdel_whole ind : exists e, tdel_of nt fs ind = IZR e / fs.
Proof. eexists. unfold tdel_of. unfold Rdiv. rewrite Rmult_1_l. reflexivity. Qed.
End Fits.
