(** * Unsupported pole numbers and the muon tail fit *)
From Coq Require Import Reals ZArith List Bool Lia Lra.
From Verif Require Import Base ListLemmas Dft UtilsModel UtilsSpec UtilsProofs3 WindowModel WindowProofs CutModel OFModel OFProofs2
  NonlinModel NonlinSpec NonlinProofs1 NonlinProofs2 NonlinProofs3 NonlinProofs4 NonlinProofs5.
From Coquelicot Require Import Complex.
Import ListNotations.
Local Open Scope R_scope.

Lemma other_pole lsq pinv psd fs template tau tr0' pulse npole es guess bounds taurise sc :
  npole <> 1%Z -> npole <> 2%Z -> npole <> 3%Z -> npole <> 4%Z ->
  snd (fit_falltimes lsq pinv psd fs template (Some tau) pulse npole es guess bounds taurise sc)
  = snd (fit_falltimes lsq pinv psd fs template tr0' pulse 1 es guess bounds (Some tau) sc).
Proof.
  intros N1 N2 N3 N4. apply Z.eqb_neq in N1, N2, N3, N4.
  unfold fit_falltimes, nl_residuals, nl_model, nl_guess, nl_dof, default_bounds, nl_kinds.
  rewrite N1, N2, N3, N4.
  change (1 =? 1)%Z with true. change (1 =? 2)%Z with false. change (1 =? 3)%Z with false. change (1 =? 4)%Z with false.
  cbv iota. cbn [andb snd]. reflexivity.
Qed.

Lemma other_pole_type lsq pinv psd fs template pulse npole es g taurise sc :
  npole <> 1%Z -> npole <> 2%Z -> npole <> 3%Z -> npole <> 4%Z -> 0 < fs -> length pulse = length psd ->
  length g = 3%nat -> (forall v, In v g -> 0 < v) ->
  snd (fit_falltimes lsq pinv psd fs template None pulse npole es (Some g) None taurise sc) = Err TypeError.
Proof.
  intros N1 N2 N3 N4 Hf L Lg P.
  assert (Dg : length g = param_count npole).
  { rewrite <- dof_count. unfold nl_dof. apply Z.eqb_neq in N2, N3, N4. now rewrite N2, N3, N4. }
  destruct (default_inside fs npole g Hf Dg P) as (I & Pr).
  unfold fit_falltimes. assert (E1 := proj2 (Z.eqb_neq _ _) N1). rewrite E1. cbn [andb]. cbv zeta. cbn [snd].
  rewrite L, Nat.eqb_refl. cbn [negb]. rewrite dof_count, Dg, Nat.eqb_refl. cbn [bind].
  destruct (default_bounds fs npole g) as [lb ub]. cbn [fst snd] in I, Pr. destruct (I) as (Ll & Lu & _).
  unfold least_squares. rewrite Ll, Lu, Nat.eqb_refl. cbn [andb negb].
  rewrite (proj2 (proper_iff lb ub ltac:(congruence)) Pr). cbn [negb].
  rewrite (proj2 (inside_iff lb ub g Ll Lu) I). cbn [negb].
  assert (F : forallb (fun v => Rltb 0 v) g = true).
  { apply forallb_forall. intros v Hv. apply Rltb_t. now apply P. }
  rewrite F. cbn [negb]. unfold nl_residuals, nl_model.
  apply Z.eqb_neq in N2, N3, N4. rewrite N2, N3, N4.
  destruct g as [|A [|b [|c [|]]]]; simpl in Lg; try (exfalso; lia). reflexivity.
Qed.

(** ** Muon tails *)
Lemma lmaxR_spec l : l <> [] -> In (lmaxR l) l /\ forall v, In v l -> v <= lmaxR l.
Proof.
  destruct l as [|x l]; [contradiction|]. intros _. simpl lmaxR. split; [exact (lmax_In x l)|].
  destruct (lmax_ge x l) as (H1 & H2). intros v [<-|Hv]; [exact H1|now apply H2].
Qed.
Lemma lminR_spec l : l <> [] -> In (lminR l) l /\ forall v, In v l -> lminR l <= v.
Proof.
  intros N. assert (N' : map Ropp l <> []) by (destruct l; [contradiction|discriminate]).
  destruct (lmaxR_spec _ N') as (H1 & H2). unfold lminR. split.
  - apply in_map_iff in H1. destruct H1 as (v & E & Hv). rewrite <- E, Ropp_involutive. exact Hv.
  - intros v Hv. assert (X := H2 (- v) (in_map Ropp l v Hv)). lra.
Qed.
Lemma range_unique l a : l <> [] -> is_range l a -> a = lmaxR l - lminR l.
Proof.
  intros N ((i & j & Hi & Hj & E) & H).
  destruct (lmaxR_spec l N) as (M1 & M2). destruct (lminR_spec l N) as (K1 & K2).
  destruct (In_nth l _ 0 M1) as (p & Hp & Ep). destruct (In_nth l _ 0 K1) as (q & Hq & Eq).
  assert (X := H p q Hp Hq). rewrite Ep, Eq in X.
  assert (Y := M2 _ (nth_In l 0 Hi)). assert (Z := K2 _ (nth_In l 0 Hj)). lra.
Qed.
Lemma range_exists l : l <> [] -> is_range l (lmaxR l - lminR l).
Proof.
  intros N. destruct (lmaxR_spec l N) as (M1 & M2). destruct (lminR_spec l N) as (K1 & K2).
  destruct (In_nth l _ 0 M1) as (p & Hp & Ep). destruct (In_nth l _ 0 K1) as (q & Hq & Eq). split.
  - exists p, q. rewrite Ep, Eq. auto.
  - intros i j Hi Hj. assert (Y := M2 _ (nth_In l 0 Hi)). assert (Z := K2 _ (nth_In l 0 Hj)). lra.
Qed.

Lemma muon_guess_spec fs signal a : signal <> [] -> is_range signal a ->
  exists i, muon_guess fs signal = Ok [a; INR i / fs] /\ (i < length signal)%nat /\
    (i = 0%nat <-> forall j, (j < length signal)%nat ->
        Rabs (nth 0 signal 0 - a / exp 1) <= Rabs (nth j signal 0 - a / exp 1)).
Proof.
  intros N Ra. assert (Ea := range_unique _ _ N Ra).
  assert (Nn : map (fun v => Rabs (v - a / exp 1)) signal <> []) by (destruct signal; [contradiction|discriminate]).
  destruct (argmin_ok _ Nn) as (i & E). exists i.
  destruct (argmin_spec _ _ E) as (J1 & J2). rewrite map_length in J1, J2.
  set (F := fun v => Rabs (v - a / exp 1)) in *.
  assert (Fm : forall j, (j < length signal)%nat -> nth j (map F signal) 0 = F (nth j signal 0)).
  { intros j Hj. rewrite (nth_indep _ 0 (F 0)) by (rewrite map_length; lia). apply map_nth. }
  split; [|split].
  - unfold muon_guess. destruct signal as [|x l]; [contradiction|]. rewrite <- Ea. fold F. rewrite E. reflexivity.
  - exact J1.
  - assert (L0 : (0 < length signal)%nat) by lia. split.
    + intros ->. intros j Hj. destruct (J2 j Hj) as (H & _). rewrite !Fm in H by assumption. exact H.
    + intros H. destruct (Nat.eq_dec i 0) as [|Ni]; [assumption|exfalso].
      destruct (J2 0%nat L0) as (_ & H'). specialize (H' ltac:(lia)). rewrite !Fm in H' by assumption.
      specialize (H i J1). unfold F in H'. lra.
Qed.

Lemma muon_inside a t : 0 < a -> 0 < t ->
  inside [Some 0; Some 0] [Some (a * 100); Some (t * 100)] [a; t] /\
  proper_bounds [Some 0; Some 0] [Some (a * 100); Some (t * 100)].
Proof.
  intros Ha Ht. split.
  - split; [reflexivity|]. split; [reflexivity|]. intros [|[|i]] Hi; simpl in *; [| |exfalso; lia];
      (split; intros x X; assert (Y := f_equal (fun o => match o with Some v => v | None => 0 end) X); cbv beta iota in Y; lra).
  - intros [|[|i]] l u El Eu; simpl in El, Eu; [| |destruct i; discriminate El];
      assert (Y := f_equal (fun o => match o with Some v => v | None => 0 end) El);
      assert (Z := f_equal (fun o => match o with Some v => v | None => 0 end) Eu); cbv beta iota in Y, Z; lra.
Qed.

Lemma classic_nearest signal a :
  (forall j, (j < length signal)%nat -> Rabs (nth 0 signal 0 - a / exp 1) <= Rabs (nth j signal 0 - a / exp 1)) \/
  (exists j, (j < length signal)%nat /\ Rabs (nth j signal 0 - a / exp 1) < Rabs (nth 0 signal 0 - a / exp 1)).
Proof.
  generalize (Rabs (nth 0 signal 0 - a / exp 1)). intros m.
  assert (H : forall k, (forall j, (j < k)%nat -> m <= Rabs (nth j signal 0 - a / exp 1)) \/
                        (exists j, (j < k)%nat /\ Rabs (nth j signal 0 - a / exp 1) < m)).
  { induction k as [|k IH]; [left; intros; lia|]. destruct IH as [IH|(j & Hj & Lt)]; [|right; exists j; split; [lia|exact Lt]].
    destruct (Rlt_dec (Rabs (nth k signal 0 - a / exp 1)) m) as [X|X]; [right; exists k; split; [lia|exact X]|].
    left. intros j Hj. destruct (Nat.eq_dec j k) as [->|]; [lra|apply IH; lia]. }
  apply H.
Qed.

Lemma muon_resid_fun n fs data error p : resid_fun (muon_residuals n fs data error) p <> [] ->
  exists A tau, p = [A; tau].
Proof.
  unfold resid_fun, muon_residuals. destruct p as [|A [|tau [|]]]; try contradiction. intros _. now exists A, tau.
Qed.

Lemma muon_iff lsq pinv psd fs signal es a : minimizer_ok lsq_x lsq -> 0 < fs -> (0 < length psd)%nat ->
  length signal = length psd -> is_range signal a ->
  ((exists r, fitmuontail lsq pinv psd fs signal es = Ok r) <->
   0 < a /\ exists j, (j < length signal)%nat /\
     Rabs (nth j signal 0 - a / exp 1) < Rabs (nth 0 signal 0 - a / exp 1)) /\
  (forall e, fitmuontail lsq pinv psd fs signal es = Err e -> e = ValueError).
Proof.
  intros O Hf Hn L Ra.
  assert (N : signal <> []) by (intros X; rewrite X in L; simpl in L; lia).
  destruct (muon_guess_spec fs signal a N Ra) as (i & G & Hi & Iz).
  unfold fitmuontail. rewrite (proj2 (Nat.eqb_eq _ _) L). cbn [negb]. rewrite G. cbn [bind map].
  set (resid := muon_residuals _ _ _ _). set (t := INR i / fs) in *.
  assert (Nz : (0 < i)%nat <-> exists j, (j < length signal)%nat /\
     Rabs (nth j signal 0 - a / exp 1) < Rabs (nth 0 signal 0 - a / exp 1)).
  { split.
    - intros P. destruct (classic_nearest signal a) as [H|H]; [|exact H]. assert (Y := proj2 Iz H). lia.
    - intros (j & Hj & Lt). destruct (Nat.eq_dec i 0) as [X|]; [|lia]. assert (Y := proj1 Iz X j Hj). lra. }
  assert (Bad : ~ (0 < a /\ (0 < i)%nat) -> least_squares lsq resid [a; t] ([Some 0; Some 0], [Some (a * 100); Some (t * 100)]) [Rabs a; Rabs t] = Err ValueError).
  { intros Nb. destruct (least_squares _ _ _ _ _) as [r|e] eqn:LS.
    - exfalso. apply least_squares_inv in LS. destruct LS as (I & P & S & _). apply Nb. split.
      + destruct I as (_ & _ & I). destruct (I 0%nat ltac:(simpl; lia)) as (I0 & _). specialize (I0 0 eq_refl). simpl in I0.
        assert (S0 := S (Rabs a) ltac:(simpl; tauto)). destruct (Req_dec a 0) as [->|]; [rewrite Rabs_R0 in S0; lra|lra].
      + destruct (Nat.eq_dec i 0) as [->|]; [|lia]. assert (S0 := S (Rabs t) ltac:(simpl; tauto)).
        unfold t in S0. simpl in S0. unfold Rdiv in S0. rewrite Rmult_0_l, Rabs_R0 in S0. lra.
    - unfold least_squares in LS.
      repeat match type of LS with (if negb ?c then _ else _) = _ => destruct (negb c) end;
        try (now injection LS as <-). unfold resid, muon_residuals in LS. discriminate LS. }
  assert (Good : 0 < a -> (0 < i)%nat -> exists rs A tau, least_squares lsq resid [a; t] ([Some 0; Some 0], [Some (a * 100); Some (t * 100)]) [Rabs a; Rabs t] = Ok rs /\ lsq_x rs = [A; tau]).
  { intros Pa Pi. assert (Pt : 0 < t) by (apply Rdiv_lt_0_compat; [now apply lt_0_INR|exact Hf]).
    destruct (muon_inside a t Pa Pt) as (I & P).
    assert (S : forall v, In v [Rabs a; Rabs t] -> 0 < v).
    { intros v [<-|[<-|[]]]; rewrite Rabs_right by lra; assumption. }
    assert (Z : exists z, resid [a; t] = Ok (Some z) /\ z <> []).
    { eexists. split; [reflexivity|]. intros X. apply (f_equal (@length R)) in X. unfold z1d in X. rewrite mk_length in X. simpl in X. lia. }
    destruct Z as (z & Z & Nze).
    rewrite (least_squares_ok lsq resid [a; t] _ _ _ z I P S Z).
    assert (Ne : resid_fun resid [a; t] <> []) by (unfold resid_fun; rewrite Z; exact Nze).
    destruct (O (resid_fun resid) [a; t] _ _ [Rabs a; Rabs t] Ne I) as (_ & _ & O3 & _). cbv zeta in O3.
    destruct (muon_resid_fun _ _ _ _ _ O3) as (A & tau & E). eexists. exists A, tau. split; [reflexivity|exact E]. }
  rewrite <- Nz. split.
  - split.
    + intros (r & E). destruct (Rlt_dec 0 a) as [Pa|Pa]; [destruct (Nat.lt_ge_cases 0 i) as [Pi|Pi]; [now split|]|].
      * rewrite Bad in E by lia. discriminate E.
      * rewrite Bad in E by tauto. discriminate E.
    + intros (Pa & Pi). destruct (Good Pa Pi) as (rs & A & tau & E & X). rewrite E. cbn [bind]. rewrite X. eexists. reflexivity.
  - intros e. destruct (Rlt_dec 0 a) as [Pa|Pa]; [destruct (Nat.lt_ge_cases 0 i) as [Pi|Pi]|].
    + destruct (Good Pa Pi) as (rs & A & tau & E & X). rewrite E. cbn [bind]. rewrite X. intros Y. discriminate Y.
    + rewrite Bad by lia. intros Y. now injection Y.
    + rewrite Bad by tauto. intros Y. now injection Y.
Qed.

Lemma muon_chi2 lsq pinv psd fs signal es r c : fitmuontail lsq pinv psd fs signal es = Ok r -> nl_chi2 r = Some c ->
  exists z, muon_residuals (length psd) fs (nl_data fs signal) (nl_error (fun k => nth k psd 0) es) (nl_variables r) = Ok (Some z) /\
    sumsq z = c /\
    ((forall k, (k < length psd)%nat -> 0 < nth k psd 0) -> 0 < es ->
     exists A tau, nl_variables r = [A; tau] /\
       c = weighted (length psd) (fun k => nth k psd 0) es (fun k => nl_data fs signal k - muontailfcn (length psd) fs A tau k)%C).
Proof.
  unfold fitmuontail. destruct (negb _); [intros X; discriminate X|].
  destruct (muon_guess fs signal) as [p0|]; cbn [bind]; [|intros X; discriminate X].
  destruct (least_squares _ _ _ _ _) as [rs|]; cbn [bind]; [|intros X; discriminate X].
  destruct (lsq_x rs) as [|A [|tau [|]]]; try (intros X; discriminate X).
  intros X C. assert (Er := f_equal (fun o => match o with Ok a => a | Err _ => r end) X). cbv beta iota in Er. clear X.
  rewrite <- Er in *. cbn [nl_variables nl_chi2] in *.
  assert (Y := f_equal (fun o => match o with Some a => a | None => 0 end) C). cbv beta iota in Y. subst c. clear C.
  eexists. split; [reflexivity|]. rewrite z1d_sumsq. split; [reflexivity|].
  intros Hp He. exists A, tau. split; [reflexivity|]. now apply chi2_weighted.
Qed.
