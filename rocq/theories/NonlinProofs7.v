(** * Bounds, start values and results of the nonlinear fits *)
From Coq Require Import Reals ZArith List Bool Lia Lra.
From Verif Require Import Base ListLemmas Dft UtilsModel UtilsSpec UtilsProofs3 WindowModel WindowProofs CutModel OFModel OFProofs2
  NonlinModel NonlinSpec NonlinProofs1 NonlinProofs2 NonlinProofs3 NonlinProofs4 NonlinProofs5 NonlinProofs6.
From Coquelicot Require Import Complex.
Import ListNotations.
Local Open Scope R_scope.

(** The kinds of the parameters by position *)
Lemma kinds_spec npole i : (i < param_count npole)%nat ->
  ((i < amp_count npole)%nat -> nth i (nl_kinds npole) PTime = PAmp) /\
  ((amp_count npole <= i < param_count npole - 1)%nat -> nth i (nl_kinds npole) PAmp = PTau) /\
  (i = (param_count npole - 1)%nat -> nth i (nl_kinds npole) PAmp = PTime).
Proof.
  rewrite <- dof_count. unfold nl_kinds, nl_dof, amp_count.
  destruct (Z.eqb_spec npole 4) as [->|N4].
  { intros H. repeat split; intros X; do 8 (destruct i as [|i]; [cbn; try reflexivity; exfalso; lia|]); exfalso; lia. }
  destruct (Z.eqb_spec npole 3) as [->|N3].
  { intros H. repeat split; intros X; do 6 (destruct i as [|i]; [cbn; try reflexivity; exfalso; lia|]); exfalso; lia. }
  destruct (Z.eqb_spec npole 2) as [->|N2].
  { intros H. repeat split; intros X; do 4 (destruct i as [|i]; [cbn; try reflexivity; exfalso; lia|]); exfalso; lia. }
  assert (E : match npole with 4%Z => 3%nat | 3%Z => 2%nat | _ => 1%nat end = 1%nat).
  { destruct npole as [|[[?|?|]|[?|[?|?|]|]|]|?]; try reflexivity; exfalso; lia. }
  rewrite E.
  intros H. repeat split; intros X; do 3 (destruct i as [|i]; [cbn; try reflexivity; exfalso; lia|]); exfalso; lia.
Qed.

Lemma default_box fs npole g : length g = param_count npole ->
  documented_box fs npole g (fst (default_bounds fs npole g)) (snd (default_bounds fs npole g)).
Proof.
  intros L. assert (K := kinds_length npole). rewrite dof_count in K.
  unfold documented_box, default_bounds. cbn [fst snd].
  split; [rewrite map_length, combine_length; lia|]. split; [rewrite map_length, combine_length; lia|].
  intros i Hi. rewrite !nth_combine_map by (congruence || lia). cbn [fst snd].
  destruct (kinds_spec npole i Hi) as (KA & KT & K0).
  split; [|split]; intros X; split.
  - rewrite (nth_indep _ PAmp PTime) by lia. rewrite (KA X). reflexivity.
  - rewrite (nth_indep _ PAmp PTime) by lia. rewrite (KA X). unfold default_upper. f_equal. ring.
  - now rewrite (KT X).
  - rewrite (KT X). unfold default_upper. f_equal. ring.
  - now rewrite (K0 X).
  - now rewrite (K0 X).
Qed.

Section fit.
  Context (lsq : lsq_oracle) (pinv : nat -> (nat -> nat -> R) -> nat -> nat -> R) (psd : list R) (fs : R)
    (template : option (list R)) (tr0 : option R) (pulse : list R) (npole : Z) (es : R)
    (taurise : option R) (sc : bool).
  Let fit guess bounds := fit_falltimes lsq pinv psd fs template tr0 pulse npole es guess bounds taurise sc.

  (** What the minimizer is given and what is reported *)
  Lemma fit_result g bounds r : snd (fit (Some g) bounds) = Ok r ->
    exists f lb ub,
      (forall p z, nl_residuals (length psd) fs (nl_data fs pulse) (nl_error (nl_psd psd) es) npole sc (rise_time tr0 npole taurise) p
                   = Ok (Some z) -> f p = z) /\
      match bounds with Some b => b = (lb, ub) | None => documented_box fs npole g lb ub end /\
      let out := lsq f g lb ub g in
      nl_variables r = lsq_x out /\ nl_success r = lsq_success out /\
      nl_cov r = pinv (length (lsq_x out)) (fun i j => rsum (2 * length psd) (fun k => lsq_jac out k i * lsq_jac out k j)) /\
      length (nl_errors r) = length (lsq_x out) /\
      forall i, (i < length (lsq_x out))%nat -> nth i (nl_errors r) 0 = sqrt (nl_cov r i i).
  Proof.
    unfold fit, fit_falltimes.
    destruct ((npole =? 1)%Z && match taurise with None => true | Some _ => false end)%bool; [intros X; discriminate X|].
    cbv zeta. cbn [snd]. destruct (Nat.eqb (length pulse) (length psd)) eqn:L; cbn [negb]; [|intros X; discriminate X].
    destruct (Nat.eqb (length g) (nl_dof npole)) eqn:G; cbn [bind]; [|intros X; discriminate X].
    apply Nat.eqb_eq in G. rewrite dof_count in G.
    fold (rise_time tr0 npole taurise).
    set (rs := nl_residuals (length psd) fs (nl_data fs pulse) (nl_error (nl_psd psd) es) npole sc (rise_time tr0 npole taurise)).
    set (b := match bounds with Some b => b | None => default_bounds fs npole g end).
    destruct b as [lb ub] eqn:Eb.
    destruct (least_squares lsq rs g (lb, ub) g) as [out|] eqn:LS; cbn [bind]; [|intros X; discriminate X].
    destruct (nl_model _ fs npole sc (rise_time tr0 npole taurise) (lsq_x out)) as [m|] eqn:M; cbn [bind]; [|intros X; discriminate X].
    intros X. assert (Er := f_equal (fun o => match o with Ok a => a | Err _ => r end) X). cbv beta iota in Er. clear X.
    apply least_squares_inv in LS. destruct LS as (_ & _ & _ & _ & Ers).
    exists (resid_fun rs), lb, ub. split; [intros p z E; unfold resid_fun; now rewrite E|]. split.
    { destruct bounds as [b'|]; [exact Eb|]. assert (D := default_box fs npole g G). change (default_bounds fs npole g) with b in D. rewrite Eb in D. exact D. }
    cbv zeta. rewrite <- Ers, <- Er. cbn [nl_variables nl_success nl_cov nl_errors].
    split; [reflexivity|]. split; [reflexivity|]. split; [reflexivity|]. split; [apply mk_length|].
    intros i Hi. now rewrite nth_mk.
  Qed.

  (** The attribute [taurise] *)
  Lemma fit_rise guess bounds : fst (fit guess bounds) =
    match npole, taurise with 1%Z, Some tau => Some tau | _, _ => tr0 end.
  Proof.
    unfold fit, fit_falltimes. destruct (Z.eqb_spec npole 1) as [->|N].
    - destruct taurise; reflexivity.
    - cbn [andb fst]. destruct npole as [|[]|]; try reflexivity. contradiction.
  Qed.

  Lemma fit_start g bounds : nl_guess fs npole template pulse = Ok (Some g) -> length g = param_count npole ->
    snd (fit None bounds) = snd (fit (Some g) bounds).
  Proof.
    intros E L. unfold fit, fit_falltimes.
    destruct ((npole =? 1)%Z && match taurise with None => true | Some _ => false end)%bool; [reflexivity|].
    cbv zeta. cbn [snd]. destruct (negb _); [reflexivity|]. rewrite E. rewrite dof_count, L, Nat.eqb_refl. reflexivity.
  Qed.
End fit.

(** Power of the transformed data *)
Lemma data_power fs pulse : 0 < fs -> pulse <> [] ->
  rsum (length pulse) (fun k => cn2 (nl_data fs pulse k)) * (fs / INR (length pulse))
  = lmean (map (fun v => v * v) pulse).
Proof.
  intros Hf Np. set (n := length pulse).
  assert (Hn : (0 < n)%nat) by (unfold n; destruct pulse; [contradiction|simpl; lia]).
  assert (Pn : 0 < INR n) by now apply lt_0_INR.
  assert (S2 : sqrt (fs * INR n) * sqrt (fs * INR n) = fs * INR n) by (apply sqrt_sqrt; apply Rmult_le_pos; lra).
  assert (Sn : sqrt (fs * INR n) <> 0) by (intros E; rewrite E in S2; assert (0 < fs * INR n) by (apply Rmult_lt_0_compat; lra); lra).
  rewrite (rsum_ext n _ (fun k => / (fs * INR n) * cn2 (dft n (fun j => RtoC (nth j pulse 0)) (Z.of_nat k)))).
  2:{ intros k Hk. unfold nl_data. fold n. unfold Cdiv. rewrite <- RtoC_inv by exact Sn.
      rewrite <- S2 at 2. revert Sn. clear. generalize (dft n (fun j => RtoC (nth j pulse 0)) (Z.of_nat k)) (sqrt (fs * INR n)).
      intros [x y] s Sn. unfold cn2, RtoC, Cmult. cbn [fst snd]. field. exact Sn. }
  rewrite rsum_scal_l, parseval by exact Hn.
  rewrite (rsum_ext n _ (fun j => nth j pulse 0 * nth j pulse 0)) by (intros j _; unfold cn2, RtoC; cbn [fst snd]; ring).
  unfold lmean. rewrite map_length. fold n.
  rewrite (lsum_nth (map (fun v => v * v) pulse)). rewrite map_length. fold n.
  rewrite (rsum_ext n (fun i => nth i (map (fun v => v * v) pulse) 0) (fun j => nth j pulse 0 * nth j pulse 0)).
  - field. split; lra.
  - intros j Hj. rewrite (nth_indep _ 0 ((fun v => v * v) 0)) by (rewrite map_length; exact Hj).
    exact (map_nth (fun v => v * v) pulse 0 j).
Qed.

(** The automatic start values *)
Lemma guess_values fs npole template pulse m s : 0 < fs -> pulse <> [] ->
  match template with Some t => is_range pulse s | None => s = 1 end ->
  let tg := match template with Some t => t | None => pulse end in
  first_max tg m -> (7 <= m)%nat ->
  (npole <> 3%Z -> npole <> 4%Z -> (m + 1 < length pulse)%nat /\ 10000 / 3 <= fs) ->
  exists g, auto_start fs npole pulse m (s * lmean (pyslice tg (Z.of_nat m - 7) (Z.of_nat m + 7))) g /\
    nl_guess fs npole template pulse = Ok (Some g) /\ length g = param_count npole.
Proof.
  intros Hf Np Hs tg M H7 W. unfold nl_guess.
  destruct (Nat.eqb_spec (length pulse) 0) as [X|_]; [apply length_zero_nil in X; contradiction|].
  fold tg. rewrite (proj2 (np_argmax_spec tg m) M). cbn [bind]. cbv zeta. destruct (M) as (Lm & _).
  assert (Em : npmean (pyslice tg (Z.of_nat m - 7) (Z.of_nat m + 7)) = Some (lmean (pyslice tg (Z.of_nat m - 7) (Z.of_nat m + 7)))).
  { destruct (pyslice tg (Z.of_nat m - 7) (Z.of_nat m + 7)) eqn:E; [|reflexivity].
    exfalso. apply (f_equal (@length R)) in E. rewrite length_pyslice in E. unfold slice_bound in E. simpl length in E.
    destruct (Z.ltb_spec (Z.of_nat m - 7) 0), (Z.ltb_spec (Z.of_nat m + 7) 0); lia. }
  rewrite Em.
  assert (Es : match template with Some _ => lmaxR pulse - lminR pulse | None => 1 end = s).
  { destruct template; [|congruence]. symmetry. now apply range_unique. }
  rewrite Es. rewrite (Rmult_comm _ s). set (a := s * lmean (pyslice tg (Z.of_nat m - 7) (Z.of_nat m + 7))).
  unfold auto_start. rewrite <- dof_count. unfold nl_dof.
  destruct (Z.eqb_spec npole 4) as [->|N4]; [eexists; repeat split|].
  destruct (Z.eqb_spec npole 3) as [->|N3]; [eexists; repeat split|].
  destruct (W N3 N4) as (Lp & Fs).
  set (e := int_trunc (300 / 10 ^ 6 * fs)).
  assert (K : 300 / 10 ^ 6 * fs = fs * 3 / 10000) by (simpl; field).
  assert (He : (1 <= e)%Z /\ IZR e <= 300 / 10 ^ 6 * fs < IZR e + 1).
  { unfold e. unfold int_trunc, Rltb. destruct (Rlt_dec (300 / 10 ^ 6 * fs) 0); [exfalso; lra|].
    destruct (base_Int_part (300 / 10 ^ 6 * fs)) as (B1 & B2). split; [|lra].
    assert (Y : 0 < IZR (Int_part (300 / 10 ^ 6 * fs))) by lra. apply lt_IZR in Y. lia. }
  destruct He as (He & He1 & He2).
  set (w := pyslice pulse (Z.of_nat m + 1) (Z.of_nat m + 1 + e)).
  assert (Lw : length w = Nat.min (Z.to_nat e) (length pulse - (m + 1))).
  { unfold w. rewrite length_pyslice. unfold slice_bound.
    destruct (Z.ltb_spec (Z.of_nat m + 1) 0), (Z.ltb_spec (Z.of_nat m + 1 + e) 0); lia. }
  assert (Nw : forall i, (i < length w)%nat -> nth i w 0 = nth (m + S i) pulse 0).
  { intros i Hi. rewrite (nth_of_error w), (nth_of_error pulse). unfold w. rewrite nth_error_pyslice.
    unfold slice_bound. destruct (Z.ltb_spec (Z.of_nat m + 1) 0), (Z.ltb_spec (Z.of_nat m + 1 + e) 0); try lia.
    match goal with |- context [Z.ltb ?x ?y] => destruct (Z.ltb_spec x y); [|exfalso; lia] end.
    replace (Z.to_nat (Z.min (Z.of_nat m + 1) (Z.of_nat (length pulse))) + i)%nat with (m + S i)%nat by lia. reflexivity. }
  assert (Inw : forall i, (1 <= i)%nat /\ INR i / fs <= 300 / 10 ^ 6 /\ (m + i < length pulse)%nat <-> (1 <= i <= length w)%nat).
  { intros i. assert (Q : INR i / fs <= 300 / 10 ^ 6 <-> (Z.of_nat i <= e)%Z).
    { assert (D : INR i / fs * fs = INR i) by (field; lra). split; intros X.
      - apply Z.lt_succ_r, lt_IZR. rewrite succ_IZR, <- INR_IZR_INZ.
        apply Rmult_le_compat_r with (r := fs) in X; lra.
      - apply IZR_le in X. rewrite <- INR_IZR_INZ in X. apply Rmult_le_reg_r with fs; lra. }
    rewrite Q. lia. }
  assert (Nn : map (fun v => Rabs (v - 37 / 100 * a)) w <> []).
  { intros X. apply (f_equal (@length R)) in X. rewrite map_length in X. simpl in X. lia. }
  destruct (argmin_ok _ Nn) as (j & Ej). rewrite Ej. cbn [bind].
  assert (T : (INR (j + m + 1) - INR m) / fs = INR (S j) / fs).
  { f_equal. rewrite S_INR, !plus_INR. simpl. ring. }
  rewrite T.
  assert (Cl : first_closest fs pulse m (300 / 10 ^ 6) (37 / 100 * a) (S j)).
  { destruct (argmin_spec _ _ Ej) as (J1 & J2). rewrite map_length in J1, J2.
    set (F := fun v => Rabs (v - 37 / 100 * a)) in *.
    assert (NF : forall i, (i < length w)%nat -> nth i (map F w) 0 = Rabs (nth (m + S i) pulse 0 - 37 / 100 * a)).
    { intros i Hi. rewrite (nth_indep _ 0 (F 0)) by (rewrite map_length; lia). rewrite map_nth, Nw by lia. reflexivity. }
    split; [apply Inw; lia|]. intros i Hi. apply Inw in Hi. destruct i as [|i]; [exfalso; lia|].
    destruct (J2 i ltac:(lia)) as (J3 & J4). rewrite !NF in J3, J4 by lia. split; [exact J3|]. intros X. apply J4. lia. }
  destruct (Z.eqb_spec npole 2) as [->|N2].
  - eexists. split; [exists (S j); split; [exact Cl|reflexivity]|]. split; reflexivity.
  - eexists. split; [|split; [reflexivity|reflexivity]].
    destruct npole as [|[[?|?|]|[?|[?|?|]|]|]|?]; try (exfalso; lia); exists (S j); (split; [exact Cl|reflexivity]).
Qed.

(** The parameter lists *)
Lemma params_fourier n fs sc rise A B D tr t1 t2 t3 t0 : 0 < tr -> 0 < t1 -> 0 < t2 -> 0 < t3 ->
  (exists f, nl_model n fs 4 sc rise [A; B; D; tr; t1; t2; t3; t0] = Ok (Some f) /\ forall k, exists z,
     fourier (fun t => A * exp (- t / t1) + B * exp (- t / t2) + D * exp (- t / t3) - (A + B + D) * exp (- t / tr)) (2 * PI * fftfreq n fs k) z /\
     f k = shape_at n fs t0 k z) /\
  (exists f, nl_model n fs 3 sc rise [A; B; tr; t1; t2; t0] = Ok (Some f) /\ forall k, exists z,
     fourier (fun t => A * exp (- t / t1) + B * exp (- t / t2) - (A + B) * exp (- t / tr)) (2 * PI * fftfreq n fs k) z /\
     f k = shape_at n fs t0 k z) /\
  (exists f, nl_model n fs 2 false rise [A; tr; t1; t0] = Ok (Some f) /\ forall k, exists z,
     fourier (fun t => A * exp (- t / t1) - A * exp (- t / tr)) (2 * PI * fftfreq n fs k) z /\
     f k = shape_at n fs t0 k z).
Proof.
  intros H1 H2 H3 H4. split; [|split].
  - eexists. split; [reflexivity|]. exact (proj2 (proj2 (fourpole_fourier n fs A B D tr t1 t2 t3 t0 H1 H2 H3 H4))).
  - eexists. split; [reflexivity|]. exact (proj2 (proj2 (threepole_fourier n fs A B tr t1 t2 t0 H1 H2 H3))).
  - destruct (proj2 (proj2 (twopole_fourier n fs A tr t1 t0 H1 H2))) as (f & E & F). exists f. split; [|exact F].
    unfold nl_model. change (2 =? 4)%Z with false. change (2 =? 3)%Z with false. change (2 =? 2)%Z with true. cbv iota. now rewrite E.
Qed.
