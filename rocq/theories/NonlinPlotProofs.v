(** * Proofs about the plot of the nonlinear fit *)
From Coq Require Import String Reals ZArith List Lia Lra Bool.
From Coquelicot Require Import Complex.
From Verif Require Import Base ListLemmas Dft UtilsModel UtilsSpec UtilsProofs1 OFModel PlotModel NonlinModel NonlinSpec NonlinProofs4 NonlinPlotModel
  NonlinPlotSpec.
Import ListNotations.
Local Open Scope R_scope.

Lemma filter_all {A} (p : A -> bool) l : (forall x, In x l -> p x = true) -> filter p l = l.
Proof.
  induction l as [|x l IH]; intros H; [reflexivity|]. cbn [filter]. rewrite (H x) by now left. f_equal. apply IH.
  intros y Hy. apply H. now right.
Qed.
Lemma filter_none {A} (p : A -> bool) l : (forall x, In x l -> p x = false) -> filter p l = [].
Proof.
  induction l as [|x l IH]; intros H; [reflexivity|]. cbn [filter]. rewrite (H x) by now left. apply IH.
  intros y Hy. apply H. now right.
Qed.
Lemma fftfreq_positive n fs k : 0 < fs -> (k < n)%nat -> Rltb 0 (fftfreq n fs k) = ((0 <? k) && (2 * k <? n))%nat.
Proof.
  intros Hf Hk. assert (Hn : 0 < INR n) by (apply lt_0_INR; lia). unfold fftfreq, freqnum.
  assert (P : forall z, Rltb 0 (IZR z * fs / INR n) = (0 <? z)%Z).
  { intros z. destruct (Z.ltb_spec 0 z) as [H|H].
    - apply Rltb_true. apply Rdiv_lt_0_compat; [|exact Hn]. apply Rmult_lt_0_compat; [now apply IZR_lt|exact Hf].
    - apply Rltb_false. apply IZR_le in H. unfold Rdiv. rewrite Rmult_assoc.
      assert (0 < fs * / INR n) by (apply Rmult_lt_0_compat; [exact Hf|now apply Rinv_0_lt_compat]). nra. }
  rewrite P. destruct (Z.ltb_spec (2 * Z.of_nat k) (Z.of_nat n)), (Nat.ltb_spec 0 k), (Nat.ltb_spec (2 * k) n); cbn [andb];
    try lia; try (apply Z.ltb_lt; lia); apply Z.ltb_ge; lia.
Qed.
Lemma at_positive_spec {A} o (a : nat -> A) : 0 < l_fs o ->
  at_positive o a = mk ((l_n o - 1) / 2) (fun j => a (S j)).
Proof.
  intros Hf. unfold at_positive, mk. set (n := l_n o). set (m := ((n - 1) / 2)%nat).
  rewrite <- (map_map S a), seq_shift. f_equal.
  assert (M : (2 * m <= n - 1 < 2 * m + 2)%nat).
  { unfold m. assert (X := Nat.div_mod (n - 1) 2 ltac:(lia)). assert (Y := Nat.mod_upper_bound (n - 1) 2 ltac:(lia)). lia. }
  clearbody m. destruct n as [|n'] eqn:En.
  { assert (m = 0%nat) by lia. subst m. reflexivity. }
  assert (S3 : seq 0 (S n') = seq 0 1 ++ seq 1 m ++ seq (1 + m) (n' - m)).
  { rewrite <- seq_app. change (seq 1 (m + (n' - m))) with (seq (0 + 1) (m + (n' - m))). rewrite <- seq_app. f_equal. lia. }
  rewrite S3, !filter_app.
  rewrite (filter_none _ (seq 0 1)), (filter_all _ (seq 1 m)), (filter_none _ (seq (1 + m) (n' - m))).
  - cbn [app]. now rewrite app_nil_r.
  - intros k Hk. apply in_seq in Hk. rewrite fftfreq_positive by (try exact Hf; lia).
    apply andb_false_iff. right. apply Nat.ltb_ge. lia.
  - intros k Hk. apply in_seq in Hk. rewrite fftfreq_positive by (try exact Hf; lia).
    apply andb_true_iff. split; apply Nat.ltb_lt; lia.
  - intros k Hk. apply in_seq in Hk. rewrite fftfreq_positive by (try exact Hf; lia).
    apply andb_false_iff. left. apply Nat.ltb_ge. lia.
Qed.

Lemma draw_ok x y l : length x = length y -> draw x y l = Ok (mkCurve x y l).
Proof. intros H. unfold draw. rewrite H, Nat.eqb_refl. reflexivity. Qed.
Lemma slices_same {A B} (a : list A) (b : list B) lo hi : length a = length b -> length (pyslice a lo hi) = length (pyslice b lo hi).
Proof. intros H. now rewrite !length_pyslice, H. Qed.
Lemma slice_samples {A} (l : list A) lo hi : (0 <= lo)%Z -> (0 <= hi)%Z -> samples l (Z.to_nat lo) (Z.to_nat hi) (pyslice l lo hi).
Proof.
  intros H1 H2. split.
  - rewrite length_pyslice. unfold slice_bound. destruct (Z.ltb_spec lo 0), (Z.ltb_spec hi 0); lia.
  - intros i Hi. rewrite nth_error_pyslice. unfold slice_bound.
    destruct (Z.ltb_spec lo 0), (Z.ltb_spec hi 0); try lia.
    destruct (Z.ltb_spec (Z.of_nat i) (Z.min hi (Z.of_nat (length l)) - Z.min lo (Z.of_nat (length l)))); [|lia].
    f_equal. lia.
Qed.
Lemma nl_time_length n fs : length (nl_time n fs) = n.
Proof. apply mk_length. Qed.

(** Every pulse shape in the time domain is an array of the length of [time]. *)
Lemma shape_time n fs (f : R -> R) k : exists y, shift (map f (nl_time n fs)) k 0 = Ok y /\ length y = n.
Proof.
  destruct (shift_correct (map f (nl_time n fs)) k 0) as (y & E & L & _). exists y. split; [exact E|].
  rewrite L, map_length. apply nl_time_length.
Qed.
Lemma twopoletime_length n fs sc A tr tf t0 : exists y, twopoletime n fs sc A tr tf t0 = Ok y /\ forall l, y = Some l -> length l = n.
Proof.
  unfold twopoletime. destruct sc.
  - destruct (scaled_amp A tr tf) as [amp|].
    + destruct (shape_time n fs (fun t => amp * (exp (- t / tf) - exp (- t / tr))) (int_trunc (t0 * fs))) as (y & -> & L).
      exists (Some y). split; [reflexivity|]. intros l E. assert (l = y) by congruence. now subst.
    + exists None. split; [reflexivity|discriminate].
  - destruct (shape_time n fs (fun t => A * exp (- t / tf) - A * exp (- t / tr)) (int_trunc (t0 * fs))) as (y & -> & L).
    exists (Some y). split; [reflexivity|]. intros l E. assert (l = y) by congruence. now subst.
Qed.

Lemma unpack_model o params errors m : nl_model (l_n o) (l_fs o) (l_npole o) (l_scale o) (l_rise o) params = Ok m -> length errors = length params ->
  exists h, unpack o params errors = Ok h /\ h_freq h = m /\
    (exists y, h_time h = Ok y /\ forall l, y = Some l -> length l = l_n o) /\
    rise_of (l_npole o) (l_rise o) params = Some (h_rise h) /\ h_fall h = fall_of (l_npole o) params /\
    h_factor h = falls_shown (l_npole o) /\ h_t0 h = last params 0 /\ length params = param_count (l_npole o).
Proof.
  unfold nl_model, unpack. intros H L.
  destruct (Z.eqb_spec (l_npole o) 4) as [E|N4].
  { rewrite E. do 9 (destruct params as [|? params]; try discriminate H). do 9 (destruct errors as [|? errors]; try discriminate L).
    eexists. split; [reflexivity|]. cbn. split; [congruence|]. split.
    { unfold fourpoletime.
      match goal with |- context [shift (map ?f _) ?k 0] => destruct (shape_time (l_n o) (l_fs o) f k) as (y & -> & Y) end.
      exists (Some y). split; [reflexivity|]. intros l Q. assert (l = y) by congruence. now subst. }
    repeat split. }
  destruct (Z.eqb_spec (l_npole o) 3) as [E|N3].
  { rewrite E. do 7 (destruct params as [|? params]; try discriminate H). do 7 (destruct errors as [|? errors]; try discriminate L).
    eexists. split; [reflexivity|]. cbn. split; [congruence|]. split.
    { unfold threepoletime.
      match goal with |- context [shift (map ?f _) ?k 0] => destruct (shape_time (l_n o) (l_fs o) f k) as (y & -> & Y) end.
      exists (Some y). split; [reflexivity|]. intros l Q. assert (l = y) by congruence. now subst. }
    repeat split. }
  destruct (Z.eqb_spec (l_npole o) 2) as [E|N2].
  { rewrite E. do 5 (destruct params as [|? params]; try discriminate H). do 5 (destruct errors as [|? errors]; try discriminate L).
    eexists. split; [reflexivity|]. cbn. split; [congruence|]. split; [apply twopoletime_length|].
    repeat split. }
  do 4 (destruct params as [|? params]; try discriminate H). do 4 (destruct errors as [|? errors]; try discriminate L).
  unfold onepole in H. destruct (l_rise o) as [tr|]; [|discriminate].
  eexists. split; [reflexivity|]. cbn [h_freq h_time h_rise h_fall h_factor h_t0]. split; [congruence|]. split; [apply twopoletime_length|].
  assert (Q : rise_of (l_npole o) (Some tr) [r; r0; r1] = Some tr /\ r0 = fall_of (l_npole o) [r; r0; r1] /\
              7 = falls_shown (l_npole o) /\ 3%nat = param_count (l_npole o)).
  { destruct (l_npole o) as [|[[?|?|]|[?|[?|?|]|]|]|?]; try (repeat split); exfalso; lia. }
  destruct Q as (Q1 & Q2 & Q3 & Q4). repeat split; assumption.
Qed.

Section Figure.
Variables (o : nlobj) (pulse params errors : list R).
Let n := l_n o.
Let fs := l_fs o.

Lemma baseline_length t0 : length (baseline_removed fs t0 pulse) = length pulse.
Proof. unfold baseline_removed. destruct (npmean _); now rewrite map_length. Qed.

Hypothesis Hfs : 0 < fs.
Hypothesis Hp : length pulse = n.
Lemma plot_ok m : nl_model n fs (l_npole o) (l_scale o) (l_rise o) params = Ok m -> length errors = length params ->
  exists h y, unpack o params errors = Ok h /\ h_freq h = m /\ h_time h = Ok y /\ (forall l, y = Some l -> length l = n) /\
    rise_of (l_npole o) (l_rise o) params = Some (h_rise h) /\ h_fall h = fall_of (l_npole o) params /\
    h_factor h = falls_shown (l_npole o) /\ h_t0 h = last params 0 /\ length params = param_count (l_npole o) /\
    let K := ((n - 1) / 2)%nat in
    let F := mk K (fun j => INR (S j) * fs / INR n) in
    let T := mk n (fun k => INR k / fs * 10 ^ 3) in
    let shown := baseline_removed fs (last params 0) pulse in
    let fit := match y with Some l => map Some l | None => map (fun _ => None) T end in
    let t0ind := int_trunc (last params 0 * fs) in
    let nmin := (t0ind - int_trunc (5 * h_rise h * fs))%Z in
    let nmax := (t0ind + int_trunc (falls_shown (l_npole o) * fall_of (l_npole o) params * fs))%Z in
    plotnonlin o pulse params errors = Ok (mkNlf (h_title h)
      (mkAxes (Some "Frequency Domain Trace"%string) false
        [mkCurve F (mk K (fun j => Some (Cmod (l_data o (S j))))) (Some "Pulse"%string);
         mkCurve F (mk K (fun j => option_map (fun g : nat -> C => Cmod (g (S j))) m)) (Some "Fit"%string);
         mkCurve F (mk K (fun j => Some (l_error o (S j)))) (Some "$\sqrt{PSD}$"%string)])
      (mkAxes (Some "Time Series Trace (Zoomed)"%string) false
        [mkCurve (pyslice T nmin nmax) (pyslice shown nmin nmax) (Some "Pulse"%string);
         mkCurve (pyslice T nmin nmax) (pyslice fit nmin nmax) (Some "Time Domain"%string)])
      (mkAxes (Some "Time Series Trace (Full)"%string) false
        [mkCurve T shown (Some "Pulse"%string); mkCurve T fit (Some "Time Domain"%string)])
      (mkAxes None true
        (mkCurve [] [] (Some "Best Fit"%string) :: mkCurve [] [] (Some "Raw Data"%string) :: mkCurve [] [] (Some "$\sqrt{PSD}$"%string)
         :: map (fun _ => mkCurve [] [] None) params))
      (firstn (length params) (h_labels h))).
Proof.
  intros H L. destruct (unpack_model o params errors m H L) as (h & E & Hm & (y & Hy & Yl) & Hr & Hfall & Hfac & Ht & HL).
  exists h, y. split; [exact E|]. split; [exact Hm|]. split; [exact Hy|]. split; [exact Yl|].
  split; [exact Hr|]. split; [exact Hfall|]. split; [exact Hfac|]. split; [exact Ht|]. split; [exact HL|].
  cbv zeta. unfold plotnonlin. rewrite E. cbn [bind]. fold fs n.
  rewrite !at_positive_spec by exact Hfs. fold n.
  replace (mk ((n - 1) / 2) (fun j => fftfreq n fs (S j))) with (mk ((n - 1) / 2) (fun j => INR (S j) * fs / INR n)).
  2: { apply mk_ext. intros j Hj. unfold fftfreq, freqnum.
       assert (X := Nat.div_mod (n - 1) 2 ltac:(lia)). assert (Y := Nat.mod_upper_bound (n - 1) 2 ltac:(lia)).
       destruct (Z.ltb_spec (2 * Z.of_nat (S j)) (Z.of_nat n)); [|lia]. now rewrite <- INR_IZR_INZ. }
  replace (map (fun t => t * 10 ^ 3) (nl_time n fs)) with (mk n (fun k => INR k / fs * 10 ^ 3)).
  2: { unfold nl_time, mk. now rewrite map_map. }
  rewrite !draw_ok by now rewrite !mk_length. cbn [bind]. rewrite Hfac, Hfall, Ht.
  assert (LB := baseline_length (last params 0)).
  rewrite draw_ok by (apply slices_same; rewrite mk_length; congruence). cbn [bind]. rewrite Hy. cbn [bind].
  assert (LF : length (match y with Some l => map Some l | None => map (fun _ => @None R) (mk n (fun k => INR k / fs * 10 ^ 3)) end) = n).
  { destruct y as [l|]; rewrite map_length; [now apply Yl|apply mk_length]. }
  rewrite draw_ok by (apply slices_same; rewrite mk_length; congruence). cbn [bind].
  rewrite draw_ok by (rewrite mk_length; congruence). cbn [bind].
  rewrite draw_ok by (rewrite mk_length; congruence). cbn [bind].
  rewrite Hm. destruct m; reflexivity.
Qed.
End Figure.
