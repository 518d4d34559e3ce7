(** * When the nonlinear fits accept their start, and what they report *)
From Coq Require Import Reals ZArith List Bool Lia Lra.
From Verif Require Import Base ListLemmas Dft UtilsModel UtilsSpec WindowModel WindowProofs CutModel OFModel OFProofs2
  NonlinModel NonlinSpec NonlinProofs1 NonlinProofs2 NonlinProofs3.
From Coquelicot Require Import Complex.
Import ListNotations.
Local Open Scope R_scope.

Lemma dof_count npole : nl_dof npole = param_count npole.
Proof.
  unfold nl_dof, param_count. destruct npole as [|p|p]; try reflexivity.
  destruct p as [p|p|]; try reflexivity; destruct p as [p|p|]; try reflexivity; destruct p; reflexivity.
Qed.
Lemma kinds_length npole : length (nl_kinds npole) = nl_dof npole.
Proof. unfold nl_kinds, nl_dof. destruct (npole =? 4)%Z, (npole =? 3)%Z, (npole =? 2)%Z; reflexivity. Qed.

(** The model is defined at a usable start. *)
Lemma twopole_some n fs sc A r g t0 : 0 < g -> (sc = true -> 0 < r /\ r <> g) -> exists f, twopole n fs sc A r g t0 = Some f.
Proof.
  intros Hg H. unfold twopole. destruct sc; [|eexists; reflexivity].
  destruct (H eq_refl) as (Hr & N). rewrite (scaled_amp_ok A r g Hr Hg N). eexists; reflexivity.
Qed.
Lemma model_total n fs npole sc tr g : length g = param_count npole -> usable_start npole sc tr g ->
  exists f, nl_model n fs npole sc tr g = Ok (Some f).
Proof.
  rewrite <- dof_count. unfold nl_dof, nl_model. intros L (P & T & O).
  destruct (npole =? 4)%Z eqn:E4.
  { destruct g as [|A [|B [|D [|r [|g1 [|g2 [|g3 [|t0 [|]]]]]]]]]; simpl in L; try (exfalso; lia). eexists; reflexivity. }
  destruct (npole =? 3)%Z eqn:E3.
  { destruct g as [|A [|B [|r [|g1 [|g2 [|t0 [|]]]]]]]; simpl in L; try (exfalso; lia). eexists; reflexivity. }
  destruct (npole =? 2)%Z eqn:E2.
  { destruct g as [|A [|r [|g [|t0 [|]]]]]; simpl in L; try (exfalso; lia).
    destruct (twopole_some n fs sc A r g t0) as (f & Ef).
    - apply P. simpl; tauto.
    - intros S. split; [apply P; simpl; tauto|]. apply Z.eqb_eq in E2. exact (T E2 S).
    - exists f. now rewrite Ef. }
  apply Z.eqb_neq in E4, E3, E2. destruct (O E2 E3 E4) as (tau & -> & H).
  destruct g as [|A [|g [|t0 [|]]]]; simpl in L; try (exfalso; lia).
  destruct (twopole_some n fs sc A tau g t0) as (f & Ef).
  - apply P. simpl; tauto.
  - exact H.
  - exists f. unfold onepole. now rewrite Ef.
Qed.

(** Default bounds *)
Lemma nth_combine_map {A} (f : pkind * R -> A) ks p i d : length ks = length p -> (i < length p)%nat ->
  nth i (map f (combine ks p)) d = f (nth i ks PAmp, nth i p 0).
Proof.
  intros L Hi. rewrite (nth_indep _ d (f (PAmp, 0))). 2: { rewrite map_length, combine_length. lia. }
  rewrite map_nth, combine_nth by exact L. reflexivity.
Qed.

Lemma default_inside fs npole p0 : 0 < fs -> length p0 = param_count npole -> (forall v, In v p0 -> 0 < v) ->
  inside (fst (default_bounds fs npole p0)) (snd (default_bounds fs npole p0)) p0 /\
  proper_bounds (fst (default_bounds fs npole p0)) (snd (default_bounds fs npole p0)).
Proof.
  intros Hf L P. rewrite <- dof_count, <- kinds_length in L.
  unfold default_bounds. cbn [fst snd].
  assert (Q : forall i, (i < length p0)%nat -> 0 < nth i p0 0) by (intros i Hi; apply P; now apply nth_In).
  assert (F : 0 < 30 / fs) by (apply Rdiv_lt_0_compat; lra).
  assert (B : forall k v, 0 < v -> default_lower fs k v < v < default_upper fs k v).
  { intros [] v Hv; unfold default_lower, default_upper; lra. }
  split.
  - split; [|split].
    + rewrite map_length, combine_length. lia.
    + rewrite map_length, combine_length. lia.
    + intros i Hi. rewrite !nth_combine_map by (assumption || now symmetry). cbn [fst snd].
      specialize (B (nth i (nl_kinds npole) PAmp) _ (Q i Hi)).
      split; intros x X; assert (Y := f_equal (fun o => match o with Some a => a | None => 0 end) X); cbv beta iota in Y; lra.
  - intros i l u El Eu. destruct (Nat.lt_ge_cases i (length p0)) as [Hi|Hi].
    + rewrite nth_combine_map in El, Eu by (assumption || now symmetry). cbn [fst snd] in El, Eu.
      specialize (B (nth i (nl_kinds npole) PAmp) _ (Q i Hi)).
      assert (Y := f_equal (fun o => match o with Some a => a | None => 0 end) El).
      assert (Z := f_equal (fun o => match o with Some a => a | None => 0 end) Eu). cbv beta iota in Y, Z. lra.
    + rewrite nth_overflow in El by (rewrite map_length, combine_length; lia). discriminate El.
Qed.

Section fit.
  Context (lsq : lsq_oracle) (pinv : nat -> (nat -> nat -> R) -> nat -> nat -> R) (psd : list R) (fs : R)
    (template : option (list R)) (tr0 : option R) (pulse : list R) (npole : Z) (es : R)
    (taurise : option R) (sc : bool).
  Let n := length psd.
  Definition rise_time : option R := if (npole =? 1)%Z then taurise else tr0.
  Definition fit_resid : list R -> res (option (list R)) :=
    nl_residuals (length psd) fs (nl_data fs pulse) (nl_error (nl_psd psd) es) npole sc rise_time.
  Let fit guess bounds := fit_falltimes lsq pinv psd fs template tr0 pulse npole es guess bounds taurise sc.

  Lemma fit_inv guess bounds r : snd (fit guess bounds) = Ok r ->
    length pulse = n /\ exists p0 lb ub,
      match guess with Some g => p0 = g /\ length g = param_count npole | None => nl_guess fs npole template pulse = Ok (Some p0) end /\
      match bounds with Some b => b | None => default_bounds fs npole p0 end = (lb, ub) /\
      inside lb ub p0 /\ proper_bounds lb ub /\ (forall v, In v p0 -> 0 < v) /\
      (exists z, fit_resid p0 = Ok (Some z)) /\
      nl_variables r = lsq_x (lsq (resid_fun fit_resid) p0 lb ub p0) /\
      exists m, nl_model n fs npole sc rise_time (nl_variables r) = Ok m /\
        nl_chi2 r = match m with
                    | Some f => nl_calcchi2 n (param_count npole) (nl_data fs pulse) f (nl_error (nl_psd psd) es)
                    | None => None
                    end.
  Proof.
    unfold fit, fit_falltimes. fold n.
    destruct ((npole =? 1)%Z && match taurise with None => true | Some _ => false end)%bool; [intros X; discriminate X|].
    cbv zeta. cbn [snd]. destruct (Nat.eqb (length pulse) n) eqn:L; cbn [negb]; [|intros X; discriminate X].
    apply Nat.eqb_eq in L.
    destruct (match guess with Some g => if Nat.eqb (length g) (nl_dof npole) then Ok (Some g) else Err ValueError
              | None => nl_guess fs npole template pulse end) as [[p0|]|] eqn:G; cbn [bind]; try (intros X; discriminate X).
    fold rise_time. unfold n at 1. fold fit_resid. fold n.
    set (b := match bounds with Some b => b | None => default_bounds fs npole p0 end).
    destruct b as [lb ub] eqn:Eb.
    destruct (least_squares lsq fit_resid p0 (lb, ub) p0) as [rs|] eqn:LS; cbn [bind]; [|intros X; discriminate X].
    destruct (nl_model n fs npole sc rise_time (lsq_x rs)) as [m|] eqn:M; cbn [bind]; [|intros X; discriminate X].
    intros X. assert (Er := f_equal (fun o => match o with Ok a => a | Err _ => r end) X). cbv beta iota in Er. clear X.
    apply least_squares_inv in LS. destruct LS as (I & P & S & Z & Ers).
    split; [exact L|]. exists p0, lb, ub. split; [|split].
    - destruct guess as [g|]; [|exact G].
      destruct (Nat.eqb (length g) (nl_dof npole)) eqn:Eg; [|discriminate G].
      apply Nat.eqb_eq in Eg. rewrite dof_count in Eg.
      assert (Y := f_equal (fun o => match o with Ok (Some a) => a | _ => p0 end) G). cbv beta iota in Y. subst p0. split; [reflexivity|exact Eg].
    - exact Eb.
    - split; [exact I|]. split; [exact P|]. split; [exact S|]. split; [exact Z|].
      rewrite <- Er. cbn [nl_variables nl_chi2]. split; [now rewrite Ers|].
      exists m. split; [exact M|]. rewrite <- dof_count. reflexivity.
  Qed.

  Lemma resid_model p f : nl_model n fs npole sc rise_time p = Ok (Some f) ->
    fit_resid p = Ok (Some (z1d n (nl_data fs pulse) f (nl_error (nl_psd psd) es))).
  Proof. intros E. unfold fit_resid, nl_residuals. fold n. rewrite E. reflexivity. Qed.

  Lemma resid_fun_model p : resid_fun fit_resid p <> [] ->
    exists f, nl_model n fs npole sc rise_time p = Ok (Some f).
  Proof.
    unfold resid_fun, fit_resid, nl_residuals. fold n.
    destruct (nl_model n fs npole sc rise_time p) as [[f|]|]; cbn [bind]; [|contradiction|contradiction].
    intros _. now exists f.
  Qed.
  Lemma z1d_nonempty f : (0 < n)%nat -> z1d n (nl_data fs pulse) f (nl_error (nl_psd psd) es) <> [].
  Proof. intros Hn X. apply (f_equal (@length R)) in X. unfold z1d in X. rewrite mk_length in X. simpl in X. lia. Qed.

  Lemma fit_chi2 guess bounds r c : snd (fit guess bounds) = Ok r -> nl_chi2 r = Some c ->
    exists z, fit_resid (nl_variables r) = Ok (Some z) /\ sumsq z = c * (INR n - INR (param_count npole)) /\
      ((forall k, (0 < k < n)%nat -> 0 < nth k psd 0) -> 0 < es ->
       exists f, nl_model n fs npole sc rise_time (nl_variables r) = Ok (Some f) /\
                 sumsq z = weighted n (nl_psd psd) es (fun k => nl_data fs pulse k - f k)%C).
  Proof.
    intros E C. destruct (fit_inv _ _ _ E) as (_ & p0 & lb & ub & _ & _ & _ & _ & _ & _ & _ & m & M & H).
    rewrite H in C. destruct m as [f|]; [|discriminate C].
    eexists. split; [apply (resid_model _ _ M)|]. rewrite z1d_sumsq.
    unfold nl_calcchi2 in C. destruct (Nat.eqb_spec n (param_count npole)) as [X|X]; [discriminate C|].
    assert (Y := f_equal (fun o => match o with Some a => a | None => 0 end) C). cbv beta iota in Y. subst c. split.
    - field. assert (N : INR n <> INR (param_count npole)) by now apply not_INR. lra.
    - intros Hp He. exists f. split; [exact M|]. apply chi2_weighted; [|exact He].
      intros k Hk. unfold nl_psd. destruct (Nat.eqb_spec k 0); [apply pow_lt; lra|apply Hp; lia].
  Qed.

  Lemma fit_descent guess bounds r : minimizer_ok lsq_x lsq -> (0 < n)%nat -> snd (fit guess bounds) = Ok r ->
    exists p0 lb ub z0 z,
      match guess with Some g => p0 = g | None => nl_guess fs npole template pulse = Ok (Some p0) end /\
      match bounds with Some b => b | None => default_bounds fs npole p0 end = (lb, ub) /\
      inside lb ub (nl_variables r) /\ length (nl_variables r) = length p0 /\
      fit_resid p0 = Ok (Some z0) /\ fit_resid (nl_variables r) = Ok (Some z) /\ sumsq z <= sumsq z0 /\
      (n <> param_count npole -> nl_chi2 r = Some (sumsq z / (INR n - INR (param_count npole)))).
  Proof.
    intros O Hn E. destruct (fit_inv _ _ _ E) as (L & p0 & lb & ub & G & B & I & P & S & (z0 & Z0) & V & m & M & H).
    assert (Ne : resid_fun fit_resid p0 <> []).
    { unfold resid_fun. rewrite Z0. unfold fit_resid, nl_residuals in Z0. fold n in Z0.
      destruct (nl_model n fs npole sc rise_time p0) as [[f|]|]; cbn [bind] in Z0; try discriminate Z0.
      assert (Y := f_equal (fun o => match o with Ok (Some a) => a | _ => [] end) Z0). cbv beta iota in Y. rewrite <- Y.
      now apply z1d_nonempty. }
    destruct (O (resid_fun fit_resid) p0 lb ub p0 Ne I) as (O1 & O2 & O3 & O4).
    cbv zeta in *. rewrite <- V in *. destruct (resid_fun_model _ O3) as (f & F).
    exists p0, lb, ub, z0. eexists. split; [destruct guess; [apply G|exact G]|].
    split; [exact B|]. split; [exact O2|]. split; [exact O1|]. split; [exact Z0|].
    assert (Rf := resid_model _ _ F). split; [exact Rf|]. split.
    - unfold resid_fun in O4. rewrite Rf, Z0 in O4. exact O4.
    - intros N. rewrite F in M. assert (Y := f_equal (fun o => match o with Ok a => a | _ => m end) M). cbv beta iota in Y. subst m.
      rewrite H. unfold nl_calcchi2. destruct (Nat.eqb_spec n (param_count npole)); [contradiction|].
      rewrite z1d_sumsq. reflexivity.
  Qed.

  Lemma fit_succeeds guess bounds p0 : minimizer_ok lsq_x lsq -> (0 < n)%nat -> length pulse = n -> 0 < fs ->
    (npole = 1%Z -> taurise <> None) ->
    match guess with Some g => p0 = g | None => nl_guess fs npole template pulse = Ok (Some p0) end ->
    length p0 = param_count npole -> usable_start npole sc rise_time p0 ->
    match bounds with Some (lb, ub) => inside lb ub p0 /\ proper_bounds lb ub | None => True end ->
    exists r, snd (fit guess bounds) = Ok r.
  Proof.
    intros O Hn L Hf T G Lg U B. unfold fit, fit_falltimes. fold n.
    replace ((npole =? 1)%Z && match taurise with None => true | Some _ => false end)%bool with false.
    2: { symmetry. destruct (Z.eqb_spec npole 1) as [X|X]; [|reflexivity]. specialize (T X). destruct taurise; [reflexivity|contradiction]. }
    cbv zeta. cbn [snd]. rewrite L, Nat.eqb_refl. cbn [negb].
    replace (match guess with Some g => if Nat.eqb (length g) (nl_dof npole) then Ok (Some g) else Err ValueError
              | None => nl_guess fs npole template pulse end) with (Ok (Some p0)).
    2: { destruct guess as [g|]; [|now symmetry]. subst g. now rewrite Lg, dof_count, Nat.eqb_refl. }
    cbn [bind]. fold rise_time. unfold n at 1. fold fit_resid. fold n.
    destruct (model_total n fs npole sc rise_time p0 Lg U) as (f & F).
    assert (Z := resid_model _ _ F).
    set (b := match bounds with Some b => b | None => default_bounds fs npole p0 end).
    assert (IB : inside (fst b) (snd b) p0 /\ proper_bounds (fst b) (snd b)).
    { unfold b. destruct bounds as [[lb ub]|]; [exact B|]. apply default_inside; [exact Hf|exact Lg|apply U]. }
    destruct b as [lb ub]. cbn [fst snd] in IB. destruct IB as (I & P).
    rewrite (least_squares_ok lsq fit_resid p0 lb ub p0 _ I P (proj1 U) Z). cbn [bind].
    assert (Ne : resid_fun fit_resid p0 <> []).
    { unfold resid_fun. rewrite Z. now apply z1d_nonempty. }
    destruct (O (resid_fun fit_resid) p0 lb ub p0 Ne I) as (O1 & O2 & O3 & O4). cbv zeta in *.
    destruct (resid_fun_model _ O3) as (h & Hh). rewrite Hh. cbn [bind]. eexists. reflexivity.
  Qed.

  (** A start value that is not positive is rejected, whatever the bounds. *)
  Lemma fit_nonpositive guess bounds v : In v guess -> v <= 0 -> snd (fit (Some guess) bounds) = Err ValueError.
  Proof.
    intros Hv N. unfold fit, fit_falltimes.
    destruct ((npole =? 1)%Z && match taurise with None => true | Some _ => false end)%bool; [reflexivity|].
    cbv zeta. cbn [snd]. destruct (negb _); [reflexivity|].
    destruct (Nat.eqb (length guess) (nl_dof npole)); cbn [bind]; [|reflexivity].
    rewrite (least_squares_scale lsq _ guess _ guess v Hv N). reflexivity.
  Qed.

  Lemma fit_auto_error bounds : nl_guess fs npole template pulse = Err ValueError \/ nl_guess fs npole template pulse = Ok None ->
    snd (fit None bounds) = Err ValueError.
  Proof.
    intros G. unfold fit, fit_falltimes.
    destruct ((npole =? 1)%Z && match taurise with None => true | Some _ => false end)%bool; [reflexivity|].
    cbv zeta. cbn [snd]. destruct (negb _); [reflexivity|].
    destruct G as [-> | ->]; reflexivity.
  Qed.
  Lemma fit_nan bounds p0 : nl_guess fs npole template pulse = Ok (Some p0) ->
    nl_model n fs npole sc rise_time p0 = Ok None -> snd (fit None bounds) = Err ValueError.
  Proof.
    intros G M. unfold fit, fit_falltimes.
    destruct ((npole =? 1)%Z && match taurise with None => true | Some _ => false end)%bool; [reflexivity|].
    cbv zeta. cbn [snd]. destruct (negb _); [reflexivity|].
    rewrite G. cbn [bind]. fold rise_time.
    rewrite least_squares_nan; [reflexivity|]. unfold nl_residuals. fold n. rewrite M. reflexivity.
  Qed.
End fit.
