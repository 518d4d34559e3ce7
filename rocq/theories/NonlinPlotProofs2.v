(** * The fitted pulse, the texts, the window and the baseline of the plot of the nonlinear fit *)
From Coq Require Import String Reals ZArith List Lia Lra Bool.
From Coquelicot Require Import Complex.
From Verif Require Import Base ListLemmas Dft UtilsModel UtilsSpec UtilsProofs1 OFModel PlotModel NonlinModel NonlinSpec NonlinProofs1
  NonlinProofs2 NonlinProofs4 NonlinPlotModel NonlinPlotSpec NonlinPlotProofs.
Import ListNotations.
Local Open Scope R_scope.

Lemma shape_shift n fs (u f : R -> R) k : (forall t, u t = f t) ->
  exists y, shift (map f (nl_time n fs)) k 0 = Ok y /\ is_shift_of (mk n (fun i => u (INR i / fs))) k 0 y.
Proof.
  intros H. destruct (shift_correct (map f (nl_time n fs)) k 0) as (y & E & S). exists y. split; [exact E|].
  replace (mk n (fun i => u (INR i / fs))) with (map f (nl_time n fs)); [exact S|].
  unfold nl_time, mk. rewrite map_map. apply map_ext. intros i. symmetry. apply H.
Qed.
Lemma two_form n fs sc A tr tf t0 : (sc = true -> 0 < tr /\ 0 < tf /\ tr <> tf) ->
  exists f u c y, twopole n fs sc A tr tf t0 = Some f /\ twopoletime n fs sc A tr tf t0 = Ok (Some y) /\
    (forall t, u t = c * (exp (- t / tf) - exp (- t / tr))) /\ (if sc then has_peak u A else c = A) /\
    is_shift_of (mk n (fun i => u (INR i / fs))) (int_trunc (t0 * fs)) 0 y.
Proof.
  intros H. destruct sc.
  - destruct (H eq_refl) as (Hr & Hf & N).
    destruct (scaled_twopole n fs A tr tf t0 Hr Hf N) as (c & y & f & E1 & E2 & Pk & S & _).
    exists f, (fun t => c * (exp (- t / tf) - exp (- t / tr))), c, y.
    split; [exact E2|]. split; [exact E1|]. split; [reflexivity|]. split; [exact Pk|exact S].
  - unfold twopoletime.
    destruct (shape_shift n fs (fun t => A * (exp (- t / tf) - exp (- t / tr))) (fun t => A * exp (- t / tf) - A * exp (- t / tr))
                (int_trunc (t0 * fs))) as (y & -> & S); [intros; ring|].
    eexists. exists (fun t => A * (exp (- t / tf) - exp (- t / tr))), A, y. split; [reflexivity|]. split; [reflexivity|].
    split; [reflexivity|]. split; [reflexivity|exact S].
Qed.

Lemma usable_model n fs npole sc rise p : usable_start npole sc rise p -> length p = param_count npole ->
  exists f, nl_model n fs npole sc rise p = Ok (Some f).
Proof.
  intros (Hpos & U2 & U1) L. unfold nl_model.
  destruct (Z.eqb_spec npole 4) as [->|N4].
  { do 9 (destruct p as [|? p]; try discriminate L). eexists. reflexivity. }
  destruct (Z.eqb_spec npole 3) as [->|N3].
  { do 7 (destruct p as [|? p]; try discriminate L). eexists. reflexivity. }
  destruct (Z.eqb_spec npole 2) as [->|N2].
  { do 5 (destruct p as [|? p]; try discriminate L).
    destruct (two_form n fs sc r r0 r1 r2) as (f & u & c & y & -> & _).
    - intros ->. split; [apply Hpos; cbn; tauto|]. split; [apply Hpos; cbn; tauto|]. exact (U2 eq_refl eq_refl).
    - exists f. reflexivity. }
  destruct (U1 N2 N3 N4) as (tau & -> & Ht).
  assert (Lp : length p = 3%nat).
  { rewrite L. destruct npole as [|[[?|?|]|[?|[?|?|]|]|]|?]; try reflexivity; exfalso; lia. }
  do 4 (destruct p as [|? p]; try discriminate Lp). unfold onepole.
  destruct (two_form n fs sc r tau r0 r1) as (f & u & c & y & E & _).
  - intros S. destruct (Ht S) as [T1 T2]. split; [exact T1|]. split; [apply Hpos; cbn; tauto|exact T2].
  - exists f. now rewrite E.
Qed.

Lemma unpack_form o p e : usable_start (l_npole o) (l_scale o) (l_rise o) p -> length p = param_count (l_npole o) -> length e = length p ->
  exists h u y, unpack o p e = Ok h /\ h_time h = Ok (Some y) /\ pulse_form (l_npole o) (l_scale o) (l_rise o) p u /\
    is_shift_of (mk (l_n o) (fun i => u (INR i / l_fs o))) (int_trunc (last p 0 * l_fs o)) 0 y.
Proof.
  intros (Hpos & U2 & U1) L Le. unfold unpack, pulse_form.
  destruct (Z.eqb_spec (l_npole o) 4) as [E|N4].
  { rewrite E in *. do 9 (destruct p as [|? p]; try discriminate L). do 9 (destruct e as [|? e]; try discriminate Le).
    eexists. exists (fun t => r * exp (- t / r3) + r0 * exp (- t / r4) + r1 * exp (- t / r5) - (r + r0 + r1) * exp (- t / r2)).
    match goal with |- context [fourpoletime ?n ?fs ?A ?B ?D ?a ?b ?c ?d ?t] =>
      destruct (shape_shift n fs (fun t => A * exp (- t / b) + B * exp (- t / c) + D * exp (- t / d) - (A + B + D) * exp (- t / a)) _
                  (int_trunc (t * fs)) (fun _ => eq_refl)) as (y & Y & S) end.
    exists y. split; [reflexivity|]. cbn [h_time]. unfold fourpoletime. rewrite Y. cbn [bind]. split; [reflexivity|].
    split; [intros t; reflexivity|]. exact S. }
  destruct (Z.eqb_spec (l_npole o) 3) as [E|N3].
  { rewrite E in *. do 7 (destruct p as [|? p]; try discriminate L). do 7 (destruct e as [|? e]; try discriminate Le).
    eexists. exists (fun t => r * exp (- t / r2) + r0 * exp (- t / r3) - (r + r0) * exp (- t / r1)).
    match goal with |- context [threepoletime ?n ?fs ?A ?B ?a ?b ?c ?t] =>
      destruct (shape_shift n fs (fun t => A * exp (- t / b) + B * exp (- t / c) - (A + B) * exp (- t / a)) _
                  (int_trunc (t * fs)) (fun _ => eq_refl)) as (y & Y & S) end.
    exists y. split; [reflexivity|]. cbn [h_time]. unfold threepoletime. rewrite Y. cbn [bind]. split; [reflexivity|].
    split; [intros t; reflexivity|]. exact S. }
  destruct (Z.eqb_spec (l_npole o) 2) as [E|N2].
  { rewrite E in *. do 5 (destruct p as [|? p]; try discriminate L). do 5 (destruct e as [|? e]; try discriminate Le).
    destruct (two_form (l_n o) (l_fs o) (l_scale o) r r0 r1 r2) as (f & u & c & y & _ & T & F & Pk & S).
    - intros Q. split; [apply Hpos; cbn; tauto|]. split; [apply Hpos; cbn; tauto|]. exact (U2 eq_refl Q).
    - eexists. exists u, y. split; [reflexivity|]. cbn [h_time]. split; [exact T|]. split; [|exact S].
      exists r0, c. split; [reflexivity|]. split; [exact F|exact Pk]. }
  destruct (U1 N2 N3 N4) as (tau & E & Ht). rewrite E.
  assert (Lp : length p = 3%nat).
  { rewrite L. destruct (l_npole o) as [|[[?|?|]|[?|[?|?|]|]|]|?]; try reflexivity; exfalso; lia. }
  do 4 (destruct p as [|? p]; try discriminate Lp). do 4 (destruct e as [|? e]; try discriminate Le).
  destruct (two_form (l_n o) (l_fs o) (l_scale o) r tau r0 r1) as (f & u & c & y & _ & T & F & Pk & S).
  - intros Q. destruct (Ht Q) as [T1 T2]. split; [exact T1|]. split; [apply Hpos; cbn; tauto|exact T2].
  - eexists. exists u, y. split; [reflexivity|]. cbn [h_time]. split; [exact T|]. split; [|exact S].
    assert (Q : exists t0 c0, rise_of (l_npole o) (Some tau) [r; r0; r1] = Some t0 /\
        (forall t, u t = c0 * (exp (- t / fall_of (l_npole o) [r; r0; r1]) - exp (- t / t0))) /\
        (if l_scale o then has_peak u (nth 0 [r; r0; r1] 0) else c0 = nth 0 [r; r0; r1] 0)).
    { exists tau, c. destruct (l_npole o) as [|[[?|?|]|[?|[?|?|]|]|]|?]; try (exfalso; lia); split; try reflexivity; split; assumption. }
    destruct (l_npole o) as [|[[?|?|]|[?|[?|?|]|]|]|?]; try exact Q; exfalso; lia.
Qed.

Lemma unpack_texts o p e h : unpack o p e = Ok h ->
  let v i := nth i p 0 in let w i := nth i e 0 in
  let uA s i := mkEntry s (v i * 10 ^ 6) (w i * 10 ^ 6) "$\mu$A" in
  let us s i := mkEntry s (v i * 10 ^ 6) (w i * 10 ^ 6) "$\mu$s" in
  let ms s i := mkEntry s (v i * 10 ^ 3) (w i * 10 ^ 3) "ms" in
  let texts := firstn (length p) (h_labels h) in
  (l_npole o = 4%Z -> h_title h = Some "Non-Linear Four Pole Fit"%string /\
     texts = [uA "A"%string 0%nat; uA "B"%string 1%nat; uA "C"%string 2%nat; us "τ, f1"%string 4%nat; us "τ, f2"%string 5%nat;
              us "τ, f3"%string 6%nat; ms "$t_0$"%string 7%nat; us "τ$_r$"%string 3%nat]) /\
  (l_npole o = 3%Z -> h_title h = Some "Non-Linear Three Pole Fit"%string /\
     texts = [uA "A"%string 0%nat; uA "B"%string 1%nat; us "τ, f1"%string 3%nat; us "τ, f2"%string 4%nat; ms "$t_0$"%string 5%nat;
              us "τ$_r$"%string 2%nat]) /\
  (l_npole o = 2%Z -> h_title h = Some "Non-Linear Two Pole Fit"%string /\
     texts = [uA "A"%string 0%nat; us "τ$_f$"%string 2%nat; ms "$t_0$"%string 3%nat; us "τ$_r$"%string 1%nat]) /\
  (l_npole o <> 4%Z -> l_npole o <> 3%Z -> l_npole o <> 2%Z ->
     h_title h = (if (l_npole o =? 1)%Z then Some "Non-Linear Two Pole Fit (Fixed Rise Time)"%string else None) /\
     texts = [uA "A"%string 0%nat; us "τ$_f$"%string 1%nat; ms "$t_0$"%string 2%nat]).
Proof.
  unfold unpack. intros H. cbv zeta.
  destruct (Z.eqb_spec (l_npole o) 4) as [E|N4].
  { do 9 (destruct p as [|? p]; try discriminate H). do 9 (destruct e as [|? e]; try discriminate H).
    injection H as <-. rewrite E. repeat split; intros; try discriminate; try congruence. }
  destruct (Z.eqb_spec (l_npole o) 3) as [E|N3].
  { do 7 (destruct p as [|? p]; try discriminate H). do 7 (destruct e as [|? e]; try discriminate H).
    injection H as <-. rewrite E. repeat split; intros; try discriminate; try congruence. }
  destruct (Z.eqb_spec (l_npole o) 2) as [E|N2].
  { do 5 (destruct p as [|? p]; try discriminate H). do 5 (destruct e as [|? e]; try discriminate H).
    injection H as <-. rewrite E. repeat split; intros; try discriminate; try congruence. }
  do 4 (destruct p as [|? p]; try discriminate H). do 4 (destruct e as [|? e]; try discriminate H).
  destruct (l_rise o) as [tr|]; [|discriminate H]. injection H as <-.
  split; [intros; contradiction|]. split; [intros; contradiction|]. split; [intros; contradiction|]. intros _ _ _.
  split; reflexivity.
Qed.

(** ** The baseline *)
Lemma mean_part (l part : list R) a b : samples l a b part -> (a < b)%nat -> (a < length l)%nat -> npmean part = Some (lmean part).
Proof.
  intros [L _] H1 H2. unfold npmean. destruct part as [|x part]; [cbn in L; lia|reflexivity].
Qed.
Lemma baseline_late fs t0 pulse : (1000 < int_trunc (fs * t0))%Z -> pulse <> [] ->
  exists part, samples pulse 0 (Z.to_nat (int_trunc (fs * t0) - 1000)) part /\
    baseline_removed fs t0 pulse = map (fun v => Some (v - lmean part)) pulse.
Proof.
  intros H N. exists (pyslice pulse 0 (int_trunc (fs * t0) - 1000)).
  assert (S := slice_samples pulse 0 (int_trunc (fs * t0) - 1000) ltac:(lia) ltac:(lia)). split; [exact S|].
  unfold baseline_removed. destruct (Z.ltb_spec 0 (int_trunc (fs * t0) - 1000)); [|lia].
  erewrite mean_part; [reflexivity|exact S|lia|]. destruct pulse; [now exfalso|cbn; lia].
Qed.
Lemma baseline_early fs t0 pulse : (int_trunc (fs * t0) <= 1000)%Z -> (-9000 <= int_trunc (fs * t0))%Z ->
  (int_trunc (fs * t0) + 9000 < Z.of_nat (length pulse))%Z ->
  exists part, samples pulse (Z.to_nat (int_trunc (fs * t0) + 9000)) (length pulse) part /\
    baseline_removed fs t0 pulse = map (fun v => Some (v - lmean part)) pulse.
Proof.
  intros H1 H2 H3. exists (pyslice pulse (int_trunc (fs * t0) + 9000) (Z.of_nat (length pulse))).
  assert (S := slice_samples pulse (int_trunc (fs * t0) + 9000) (Z.of_nat (length pulse)) ltac:(lia) ltac:(lia)).
  rewrite Nat2Z.id in S. split; [exact S|].
  unfold baseline_removed. destruct (Z.ltb_spec 0 (int_trunc (fs * t0) - 1000)); [lia|].
  replace (int_trunc (fs * t0) - 1000 + 10000)%Z with (int_trunc (fs * t0) + 9000)%Z by ring.
  erewrite mean_part; [reflexivity|exact S|lia|lia].
Qed.
Lemma baseline_nan fs t0 pulse : (int_trunc (fs * t0) <= 1000)%Z -> (-9000 <= int_trunc (fs * t0))%Z ->
  (Z.of_nat (length pulse) <= int_trunc (fs * t0) + 9000)%Z ->
  baseline_removed fs t0 pulse = map (fun _ => None) pulse.
Proof.
  intros H1 H2 H3. unfold baseline_removed. destruct (Z.ltb_spec 0 (int_trunc (fs * t0) - 1000)); [lia|].
  replace (int_trunc (fs * t0) - 1000 + 10000)%Z with (int_trunc (fs * t0) + 9000)%Z by ring.
  assert (S := slice_samples pulse (int_trunc (fs * t0) + 9000) (Z.of_nat (length pulse)) ltac:(lia) ltac:(lia)).
  destruct S as [L _]. destruct (pyslice _ _ _); [reflexivity|]. cbn in L. lia.
Qed.
Lemma slice_wraps {A} (l : list A) lo hi : (lo < 0)%Z -> (0 <= hi)%Z ->
  samples l (Z.to_nat (Z.of_nat (length l) + lo)) (Z.to_nat hi) (pyslice l lo hi).
Proof.
  intros H1 H2. split.
  - rewrite length_pyslice. unfold slice_bound. destruct (Z.ltb_spec lo 0), (Z.ltb_spec hi 0); lia.
  - intros i Hi. rewrite nth_error_pyslice. unfold slice_bound.
    destruct (Z.ltb_spec lo 0), (Z.ltb_spec hi 0); try lia.
    match goal with |- context [if (?a <? ?b)%Z then _ else _] => destruct (Z.ltb_spec a b) end; [|lia]. f_equal. lia.
Qed.
Lemma slice_empty {A} (l : list A) lo hi : (lo < 0)%Z -> (0 <= hi)%Z -> (hi <= Z.of_nat (length l) + lo)%Z -> pyslice l lo hi = [].
Proof.
  intros H1 H2 H3. apply length_zero_iff_nil. rewrite length_pyslice. unfold slice_bound.
  destruct (Z.ltb_spec lo 0), (Z.ltb_spec hi 0); lia.
Qed.

Lemma plot_rejects : forall o pulse params errors,
  (length params <> param_count (l_npole o) \/ length errors <> param_count (l_npole o) ->
     plotnonlin o pulse params errors = Err ValueError) /\
  (length params = param_count (l_npole o) -> length errors = param_count (l_npole o) ->
   l_npole o <> 4%Z -> l_npole o <> 3%Z -> l_npole o <> 2%Z -> l_rise o = None ->
     plotnonlin o pulse params errors = Err TypeError).
Proof.
  intros o pulse p e. unfold plotnonlin. split.
  - intros H. replace (unpack o p e) with (@Err shape ValueError); [reflexivity|]. unfold unpack.
    destruct (Z.eqb_spec (l_npole o) 4) as [E|N4].
    { rewrite E in H. cbn [param_count] in H.
      do 9 (destruct p as [|? p]; try reflexivity). do 9 (destruct e as [|? e]; try reflexivity). cbn [length] in H. lia. }
    destruct (Z.eqb_spec (l_npole o) 3) as [E|N3].
    { rewrite E in H. cbn [param_count] in H.
      do 7 (destruct p as [|? p]; try reflexivity). do 7 (destruct e as [|? e]; try reflexivity). cbn [length] in H. lia. }
    destruct (Z.eqb_spec (l_npole o) 2) as [E|N2].
    { rewrite E in H. cbn [param_count] in H.
      do 5 (destruct p as [|? p]; try reflexivity). do 5 (destruct e as [|? e]; try reflexivity). cbn [length] in H. lia. }
    assert (Q : param_count (l_npole o) = 3%nat).
    { destruct (l_npole o) as [|[[?|?|]|[?|[?|?|]|]|]|?]; try reflexivity; exfalso; lia. }
    rewrite Q in H. do 4 (destruct p as [|? p]; try reflexivity). do 4 (destruct e as [|? e]; try reflexivity). cbn [length] in H. lia.
  - intros L Le N4 N3 N2 R0. replace (unpack o p e) with (@Err shape TypeError); [reflexivity|]. unfold unpack.
    destruct (Z.eqb_spec (l_npole o) 4) as [E|_]; [contradiction|]. destruct (Z.eqb_spec (l_npole o) 3) as [E|_]; [contradiction|].
    destruct (Z.eqb_spec (l_npole o) 2) as [E|_]; [contradiction|].
    assert (Q : param_count (l_npole o) = 3%nat).
    { destruct (l_npole o) as [|[[?|?|]|[?|[?|?|]|]|]|?]; try reflexivity; exfalso; lia. }
    rewrite Q in L, Le. rewrite R0.
    do 4 (destruct p as [|? p]; try discriminate L). do 4 (destruct e as [|? e]; try discriminate Le). reflexivity.
Qed.

Lemma fit_fst lsq pinv psd fs template taurise0 pulse npole errscale guess bounds taurise sc r :
  snd (fit_falltimes lsq pinv psd fs template taurise0 pulse npole errscale guess bounds taurise sc) = Ok r ->
  fst (fit_falltimes lsq pinv psd fs template taurise0 pulse npole errscale guess bounds taurise sc)
    = rise_time taurise0 npole taurise /\ length (nl_errors r) = length (nl_variables r).
Proof.
  unfold fit_falltimes, rise_time.
  destruct ((npole =? 1)%Z && match taurise with None => true | Some _ => false end)%bool; [discriminate|]. cbv zeta. cbn [fst snd].
  intros H. split; [reflexivity|].
  destruct (Nat.eqb (length pulse) (length psd)); cbn [negb] in H; [|discriminate].
  destruct (match guess with Some g => _ | None => _ end) as [[p0|]|]; cbn [bind] in H; try discriminate.
  destruct (least_squares _ _ _ _ _) as [x|]; cbn [bind] in H; [|discriminate].
  destruct (nl_model _ _ _ _ _ _); cbn [bind] in H; [|discriminate]. injection H as <-. cbn [nl_errors nl_variables]. apply mk_length.
Qed.

Lemma fit_plot_same : forall lsq pinv psd fs template taurise0 pulse npole errscale guess bounds taurise sc, 0 < fs ->
  let plain := fit_falltimes lsq pinv psd fs template taurise0 pulse npole errscale guess bounds taurise sc in
  let plotted := fit_falltimes_plot lsq pinv psd fs template taurise0 pulse npole errscale guess bounds taurise sc in
  fst plotted = fst plain /\
  (forall e, snd plain = Err e -> snd plotted = Err e) /\
  (forall r, snd plain = Ok r -> exists g f1 f2 f3, snd plotted = Ok (r, g) /\ a_curves (g_freq g) = [f1; f2; f3] /\
     let K := ((length psd - 1) / 2)%nat in let n := length psd in
     c_x f1 = mk K (fun j => INR (j + 1) * fs / INR n) /\ c_x f2 = c_x f1 /\ c_x f3 = c_x f1 /\
     c_y f1 = mk K (fun j => Some (Cmod (dft n (fun i => RtoC (nth i pulse 0)) (Z.of_nat (j + 1)) / RtoC (sqrt (fs * INR n)))%C)) /\
     c_y f3 = mk K (fun j => Some (sqrt (nth (j + 1) psd 0 / errscale))) /\
     plotnonlin (mkNlo n fs npole sc (fst plain) (nl_data fs pulse) (nl_error (nl_psd psd) errscale)) pulse (nl_variables r) (nl_errors r)
       = Ok g).
Proof.
  intros lsq pinv psd fs template taurise0 pulse npole errscale guess bounds taurise sc Hf plain plotted.
  split; [reflexivity|]. split.
  { intros e H. unfold plotted, fit_falltimes_plot. cbn [snd]. fold plain. rewrite H. reflexivity. }
  intros r H. destruct (fit_fst _ _ _ _ _ _ _ _ _ _ _ _ _ _ H) as [F Le]. fold plain in F.
  destruct (fit_inv lsq pinv psd fs template taurise0 pulse npole errscale taurise sc guess bounds r H)
    as (Lp & p0 & lb & ub & _ & _ & _ & _ & _ & _ & _ & m & M & _).
  destruct (plot_ok (mkNlo (length psd) fs npole sc (fst plain) (nl_data fs pulse) (nl_error (nl_psd psd) errscale)) pulse
             (nl_variables r) (nl_errors r) Hf Lp m) as (h & y & _ & _ & _ & _ & _ & _ & _ & _ & _ & G).
  { cbn [l_n l_fs l_npole l_scale l_rise]. rewrite F. exact M. }
  { exact Le. }
  do 4 eexists. split.
  { unfold plotted, fit_falltimes_plot. cbn [snd]. fold plain. rewrite H. cbn [bind]. rewrite G. reflexivity. }
  cbn [g_freq a_curves]. split; [reflexivity|]. cbn [c_x c_y l_n l_fs l_data l_error].
  split; [apply mk_ext; intros j _; now rewrite Nat.add_1_r|]. split; [reflexivity|]. split; [reflexivity|].
  split; [|split; [|exact G]].
  - apply mk_ext. intros j _. unfold nl_data. rewrite Lp, Nat.add_1_r. reflexivity.
  - apply mk_ext. intros j _. rewrite Nat.add_1_r. reflexivity.
Qed.
