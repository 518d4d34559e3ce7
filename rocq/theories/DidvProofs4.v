(** * Proofs: fits, start values, results *)
From Coq Require Import Reals Lra Lia.
From Coquelicot Require Import Complex.
From Verif Require Import Base Dft ListLemmas UtilsModel DidvModel DidvSpec DidvProofs1 DidvProofs2 DidvProofs3.
Local Open Scope R_scope.

(** ** Results over histories *)
Lemma fitresult_set_proc p o dt0 pr : fitresult p (set_proc o dt0 pr) = fitresult p o.
Proof. destruct p as [|[|[|[|p]]]]; reflexivity. Qed.
Lemma fitresult_processtraces p o : fitresult p (fst (processtraces o)) = fitresult p o.
Proof.
  unfold processtraces. destruct (raw o); [reflexivity|]. destruct (process _ _); cbn [fst]; apply fitresult_set_proc.
Qed.
Lemma fitresult_set_res p q o r : (1 <= p <= 3)%nat -> fitresult p (set_res o q r) = if (q =? p)%nat then Some r else fitresult p o.
Proof.
  intros Hp. destruct p as [|[|[|[|p]]]]; try lia; destruct q as [|[|[|[|q]]]]; reflexivity.
Qed.

Lemma dofit_core_cases fit fs q fc o :
  dofit_core fit fs q fc o = (o, snd (dofit_core fit fs q fc o)) /\ snd (dofit_core fit fs q fc o) <> Ok tt
  \/ (1 <= q <= 3)%nat /\ snd (dofit_core fit fs q fc o) = Ok tt /\
     exists p d A0 B0 C0 t1 t2 t3 dt sub popt pcov cost r,
       dproc o = Some p /\ p_data p = Some d /\
       dofit_start o p d q = (A0, B0, C0, t1, t2, t3, dt, sub) /\
       fitdidv fit (fit_bins p d fc) A0 B0 C0 t1 t2 t3 dt q sub = Ok (popt, pcov, cost) /\
       fitresult_of popt pcov (findpolefalltimes fs popt) cost (drsh o) (drp o) (dr0 o) = Ok r /\
       fst (dofit_core fit fs q fc o) = set_res o q r.
Proof.
  unfold dofit_core. destruct ((q =? 1) || (q =? 2) || (q =? 3))%nat eqn:Eq; [|left; split; [reflexivity|discriminate]].
  assert (Hq : (1 <= q <= 3)%nat).
  { apply Bool.orb_true_iff in Eq. destruct Eq as [Eq|Eq]; [apply Bool.orb_true_iff in Eq; destruct Eq as [Eq|Eq]|]; apply Nat.eqb_eq in Eq; lia. }
  destruct (dproc o) as [p|]; [|left; split; [reflexivity|discriminate]].
  destruct (p_data p) as [d|] eqn:Ed; [|left; split; [reflexivity|discriminate]]. cbv zeta.
  destruct (dofit_start o p d q) as [[[[[[[A0 B0] C0] t1] t2] t3] dt] s] eqn:Es.
  destruct (fitdidv _ _ _ _ _ _ _ _ _ _ _) as [[[po pc] co]|e] eqn:Ef; [|left; split; [reflexivity|discriminate]].
  destruct (fitresult_of _ _ _ _ _ _ _) as [r|e] eqn:Er; [|left; split; [reflexivity|discriminate]].
  right. split; [exact Hq|]. split; [reflexivity|].
  exists p, d, A0, B0, C0, t1, t2, t3, dt, s, po, pc, co, r. repeat split; try assumption; try reflexivity.
Qed.


Lemma run_keeps fit fs p op o : (1 <= p <= 3)%nat -> ~ stores fit fs p op o ->
  fitresult p (fst (run_didv fit fs op o)) = fitresult p o.
Proof.
  intros Hp. destruct op as [|q fc]; cbn [run_didv stores]; [intros _; apply fitresult_processtraces|].
  unfold dofit.
  assert (K : forall o', ~ (q = p /\ snd (dofit_core fit fs q fc o') = Ok tt) ->
     fitresult p (fst (dofit_core fit fs q fc o')) = fitresult p o').
  { intros o' Hn. destruct (dofit_core_cases fit fs q fc o') as [[E _]|(Hq & HO & p' & d & A0 & B0 & C0 & t1 & t2 & t3 & dt & s & po & pc & co & r & _ & _ & _ & _ & _ & E)].
    - now rewrite E.
    - rewrite E, fitresult_set_res by exact Hp. destruct (Nat.eqb_spec q p); [exfalso; tauto|reflexivity]. }
  destruct (dproc o); [apply K|].
  assert (F := fitresult_processtraces p o). destruct (processtraces o) as [o' [u|e]]; cbn [fst snd] in *; [|auto].
  intros Hn. rewrite K; [exact F|exact Hn].
Qed.

Lemma runs_keep fit fs p ops o : (1 <= p <= 3)%nat -> no_store fit fs p ops o ->
  fitresult p (run_didvs fit fs ops o) = fitresult p o.
Proof.
  intros Hp. revert o. induction ops as [|op ops IH]; intros o H; [reflexivity|].
  destruct H as [H1 H2]. cbn [run_didvs fold_left]. fold (run_didvs fit fs ops (fst (run_didv fit fs op o))).
  rewrite IH by exact H2. now apply run_keeps.
Qed.
Lemma runs_app fit fs a b o : run_didvs fit fs (a ++ b) o = run_didvs fit fs b (run_didvs fit fs a o).
Proof. unfold run_didvs. apply fold_left_app. Qed.
Lemma history fit fs p fc pre post o : (1 <= p <= 3)%nat ->
  no_store fit fs p post (run_didvs fit fs (pre ++ [OpFit p fc]) o) ->
  fitresult p (run_didvs fit fs (pre ++ OpFit p fc :: post) o)
  = fitresult p (fst (dofit fit fs p fc (run_didvs fit fs pre o))).
Proof.
  intros Hp H. replace (pre ++ OpFit p fc :: post) with ((pre ++ [OpFit p fc]) ++ post) by (rewrite <- app_assoc; reflexivity).
  rewrite runs_app, runs_keep by assumption. now rewrite runs_app.
Qed.

(** What a successful call stores. *)
Lemma dofit_stores fit fs p fc o : snd (dofit fit fs p fc o) = Ok tt ->
  exists pr d popt pcov cost p0 b s r,
    dproc (fst (dofit fit fs p fc o)) = Some pr /\ p_data pr = Some d /\
    fit (didv_residual (fit_bins pr d fc)) p0 b s = Ok (popt, pcov, cost) /\
    fitresult p (fst (dofit fit fs p fc o)) = Some r /\
    r_params r = popt /\ r_cov r = pcov /\ r_cost r = cost /\
    r_errors r = mk (length popt) (fun i => sqrt (nth i (nth i pcov []) 0)) /\
    converttotesvalues popt (drsh o) (dr0 o) (drp o) = Ok (r_ss r) /\
    r_fall r = findpolefalltimes fs popt.
Proof.
  assert (K : forall o, snd (dofit_core fit fs p fc o) = Ok tt ->
    exists pr d popt pcov cost p0 b s r,
    dproc (fst (dofit_core fit fs p fc o)) = Some pr /\ p_data pr = Some d /\
    fit (didv_residual (fit_bins pr d fc)) p0 b s = Ok (popt, pcov, cost) /\
    fitresult p (fst (dofit_core fit fs p fc o)) = Some r /\
    r_params r = popt /\ r_cov r = pcov /\ r_cost r = cost /\
    r_errors r = mk (length popt) (fun i => sqrt (nth i (nth i pcov []) 0)) /\
    converttotesvalues popt (drsh o) (dr0 o) (drp o) = Ok (r_ss r) /\
    r_fall r = findpolefalltimes fs popt).
  { clear o. intros o HO.
    destruct (dofit_core_cases fit fs p fc o) as [[_ N]|(Hq & _ & pr & d & A0 & B0 & C0 & t1 & t2 & t3 & dt & s & po & pc & co & r & H1 & H2 & H3 & H4 & H5 & E)].
    - contradiction.
    - unfold fitdidv, least_squares in H4.
      assert (exists p0 b sc, fit (didv_residual (fit_bins pr d fc)) p0 b sc = Ok (po, pc, co)) as (p0 & b & sc & HF).
      { destruct (finite_weights _); [|discriminate]. cbn [negb] in H4.
        destruct s; repeat destruct (forallb _ _); try discriminate; do 3 eexists; exact H4. }
      exists pr, d, po, pc, co, p0, b, sc, r. rewrite E.
      unfold fitresult_of in H5. destruct (converttotesvalues po (drsh o) (dr0 o) (drp o)) as [ss|e] eqn:Ess; [|discriminate].
      cbn [bind] in H5. destruct (complexadmittance 0 (ss_args ss)) as [y|e]; [|discriminate]. cbn [bind] in H5.
      repeat split; try assumption.
      + rewrite fitresult_set_res, Nat.eqb_refl by exact Hq. reflexivity.
      + now injection H5 as <-.
      + now injection H5 as <-.
      + now injection H5 as <-.
      + now injection H5 as <-.
      + now injection H5 as <-.
      + now injection H5 as <-. }
  unfold dofit. destruct (dproc o) eqn:D; [apply K|].
  unfold processtraces. destruct (raw o); [discriminate|]. destruct (process o (shifted_dt0 o)) as [q|e]; [|discriminate].
  intros H. apply K in H. exact H.
Qed.

Lemma dofit_bad fit fs p fc o : ~ (1 <= p <= 3)%nat -> dproc o <> None -> dofit fit fs p fc o = (o, Err ValueError).
Proof.
  intros Hp Hd. unfold dofit. destruct (dproc o) eqn:E; [|congruence].
  destruct (dofit_core_cases fit fs p fc o) as [_|[H _]]; [|contradiction].
  unfold dofit_core. destruct p as [|[|[|[|p]]]]; try lia; reflexivity.
Qed.
Lemma dofit_bad_fresh fit fs p fc o o' : ~ (1 <= p <= 3)%nat -> dproc o = None -> processtraces o = (o', Ok tt) ->
  dofit fit fs p fc o = (o', Err ValueError).
Proof.
  intros Hp Hd H. unfold dofit. rewrite Hd, H. unfold dofit_core. destruct p as [|[|[|[|p]]]]; try lia; reflexivity.
Qed.

(** ** didv0 *)
Lemma jw_0 t : (jw 0 * RtoC t)%C = RtoC 0.
Proof. unfold jw. apply Ceq; simpl; ring. Qed.
Lemma zero_frequency A B C' t1 t2 t3 : 1 - C' <> 0 -> A + B / (1 - C') <> 0 ->
  fst (1 / threepoleimpedance 0 A B C' t1 t2 t3)%C = 1 / (A + B / (1 - C')).
Proof.
  intros H1 H2. unfold threepoleimpedance. rewrite !jw_0.
  replace (RtoC A * (1 + RtoC 0) + RtoC B / (1 + RtoC 0 - RtoC C' / (1 + RtoC 0)))%C with (RtoC (A + B / (1 - C'))).
  - rewrite <- RtoC_div by exact H2. reflexivity.
  - rewrite RtoC_plus, RtoC_div, RtoC_minus by exact H1.
    replace (RtoC 1 + RtoC 0)%C with (RtoC 1) by ring. replace (RtoC C' / RtoC 1)%C with (RtoC C'); [ring|].
    field. intros E. injection E. lra.
Qed.
Lemma didv0_one A tau2 dt cov fall cost rsh rp r0 r : A <> 0 ->
  fitresult_of [A; tau2; dt] cov fall cost rsh rp r0 = Ok r -> r_didv0 r = 1 / A.
Proof.
  intros HA. unfold fitresult_of. cbn [converttotesvalues bind ss_args]. unfold complexadmittance.
  rewrite impedance_selects. cbn [bind]. intros E. apply (f_equal (fun r => match r with Ok r => r_didv0 r | _ => 0 end)) in E. cbn [r_didv0] in E. rewrite <- E.
  replace (rsh + (A - rsh)) with A by ring.
  rewrite <- (B_zero 0 A 0), <- (gratio_zero 0 A 0 0 _ 0).
  rewrite zero_frequency; [|lra|]; replace (A + 0 / (1 - 0)) with A by field; auto.
Qed.
Lemma didv0_two A B tau1 tau2 dt cov fall cost rsh rp r0 r :
  r0 <> 0 -> A <> 0 -> A + r0 - (rsh + rp) <> 0 -> A + B + r0 - (rsh + rp) <> 0 -> A + B <> 0 ->
  fitresult_of [A; B; tau1; tau2; dt] cov fall cost rsh rp r0 = Ok r -> r_didv0 r = 1 / (A + B).
Proof.
  intros H0 HA H1 H2 H3. assert (X := from_to_two A B tau1 tau2 0 rsh r0 rp H0 HA H1 H2).
  unfold fitresult_of. cbn [converttotesvalues bind ss_args] in X |- *. cbv zeta in X |- *.
  set (ss1 := (A - (rsh + rp)) / r0 - 1) in *. set (ss2 := B / (A + B + r0 - (rsh + rp))) in *.
  set (ss3 := A * tau2) in *. set (ss4 := (A + r0 - (rsh + rp)) / (A + B + r0 - (rsh + rp)) * tau1) in *.
  unfold complexadmittance, compleximpedance. cbn -[convertfromtesvalues]. rewrite X. cbn [bind].
  intros E. apply (f_equal (fun r => match r with Ok r => r_didv0 r | _ => 0 end)) in E. cbn [r_didv0] in E. rewrite <- E. rewrite <- (gratio_zero 0 A B tau1 tau2 0).
  rewrite zero_frequency; [|lra|]; replace (A + B / (1 - 0)) with (A + B) by field; auto.
Qed.
Lemma didv0_three A B C' tau1 tau2 tau3 dt cov fall cost rsh rp r0 r :
  r0 <> 0 -> A <> 0 -> A + r0 - (rsh + rp) <> 0 -> A + B + r0 - (rsh + rp) <> 0 -> 1 - C' <> 0 -> A + B / (1 - C') <> 0 ->
  fitresult_of [A; B; C'; tau1; tau2; tau3; dt] cov fall cost rsh rp r0 = Ok r -> r_didv0 r = 1 / (A + B / (1 - C')).
Proof.
  intros H0 HA H1 H2 H3 H4. assert (X := from_to_three A B C' tau1 tau2 tau3 0 rsh r0 rp H0 HA H1 H2).
  unfold fitresult_of. cbn [converttotesvalues bind ss_args] in X |- *. cbv zeta in X |- *.
  unfold complexadmittance, compleximpedance. cbn -[convertfromtesvalues]. rewrite X. cbn [bind].
  intros E. apply (f_equal (fun r => match r with Ok r => r_didv0 r | _ => 0 end)) in E. cbn [r_didv0] in E. rewrite <- E. now apply zero_frequency.
Qed.

(** ** Start values *)

Lemma combine_In_nth {A B} (l : list A) (l' : list B) a b d d' :
  In (a, b) (combine l l') -> exists i, (i < length l)%nat /\ a = nth i l d /\ b = nth i l' d'.
Proof.
  revert l'. induction l as [|x l IH]; intros [|y l']; cbn; try tauto.
  intros [[= <- <-]|H]; [exists 0%nat; cbn; repeat split; lia|].
  destruct (IH _ H) as (i & Hi & -> & ->). exists (S i). cbn. repeat split; lia.
Qed.
Lemma least_squares_admissible fit r p0 b s : admissible p0 b s -> least_squares fit r p0 b s = fit r p0 b s.
Proof.
  intros (H1 & H2 & H3 & H4). unfold least_squares.
  replace (forallb (fun x => Rltb 0 x) s) with true.
  2:{ symmetry. apply forallb_forall. intros x Hx. apply H3 in Hx. unfold Rltb. destruct (Rlt_dec 0 x); [reflexivity|contradiction]. }
  match goal with |- (if ?c then _ else _) = _ => replace c with true; [reflexivity|] end.
  symmetry. apply forallb_forall. intros [x [lo hi]] Hx.
  destruct (combine_In_nth p0 b x (lo, hi) 0 (None, None) Hx) as (i & Hi & -> & E).
  assert (X := H4 i Hi). rewrite <- E in X. cbn [fst snd] in *. destruct X as [X1 X2].
  unfold in_bound. apply Bool.andb_true_iff. split.
  - destruct lo; [apply Rleb_iff; exact X1|reflexivity].
  - destruct hi; [apply Rleb_iff; exact X2|reflexivity].
Qed.
Lemma rejected_scale fit r p0 b s x : In x s -> x <= 0 -> least_squares fit r p0 b s = Err ValueError.
Proof.
  intros H1 H2. unfold least_squares. replace (forallb (fun s => Rltb 0 s) s) with false; [reflexivity|].
  symmetry. apply Bool.not_true_is_false. intros H. rewrite forallb_forall in H. apply H in H1.
  unfold Rltb in H1. destruct (Rlt_dec 0 x); [lra|discriminate].
Qed.

Lemma finite_weights_iff d : finite_weights d = true <-> errors_nonzero d.
Proof.
  unfold finite_weights, errors_nonzero. rewrite forallb_forall. split.
  - intros H f y e I. assert (X := H _ I). cbn [snd] in X. apply andb_prop in X. destruct X as [X1 X2].
    unfold Reqb in X1, X2. destruct (Req_EM_T (fst e) 0), (Req_EM_T (snd e) 0); try discriminate. now split.
  - intros H [[f y] e] I. destruct (H f y e I) as [X1 X2]. cbn [snd]. unfold Reqb.
    destruct (Req_EM_T (fst e) 0), (Req_EM_T (snd e) 0); try contradiction; reflexivity.
Qed.

(** Sign conditions on the start vector. *)
Lemma fitdidv_one fit d A0 B0 C0 t1 t2 t3 dt : errors_nonzero d -> 0 < A0 -> 0 < t2 -> dt <> 0 ->
  let p0 := [A0; t2; dt] in
  admissible p0 (bounds1 1) (map Rabs p0) /\
  fitdidv fit d A0 B0 C0 t1 t2 t3 dt 1 false = fit (didv_residual d) p0 (bounds1 1) (map Rabs p0).
Proof.
  intros He HA H2 Hdt p0.
  assert (Ad : admissible p0 (bounds1 1) (map Rabs p0)).
  { unfold p0. split; [reflexivity|]. split; [reflexivity|]. split.
    - cbn. intros x [<-|[<-|[<-|[]]]]; apply Rabs_pos_lt; lra.
    - cbn. intros [|[|[|i]]] Hi; cbn; try lia; split; trivial; lra. }
  split; [exact Ad|]. unfold fitdidv. apply finite_weights_iff in He. rewrite He. now apply least_squares_admissible.
Qed.
Lemma fitdidv_two fit d A0 B0 C0 t1 t2 t3 dt (sub : bool) : errors_nonzero d -> 0 < A0 -> B0 < 0 -> t1 < 0 -> 0 < t2 -> dt <> 0 ->
  let p0 := if sub then [A0; - B0; - t1; t2; dt] else [A0; B0; t1; t2; dt] in
  let b := if sub then bounds2 2 else bounds1 2 in
  admissible p0 b (map Rabs p0) /\ fitdidv fit d A0 B0 C0 t1 t2 t3 dt 2 sub = fit (didv_residual d) p0 b (map Rabs p0).
Proof.
  intros He HA HB H1 H2 Hdt. unfold fitdidv. apply finite_weights_iff in He. rewrite He. cbn [negb start1 start2]. cbv zeta.
  assert (Es : map Rabs (if sub then [A0; - B0; - t1; t2; dt] else [A0; B0; t1; t2; dt]) = map Rabs [A0; B0; t1; t2; dt]).
  { destruct sub; [|reflexivity]. cbn [map]. now rewrite !Rabs_Ropp. }
  rewrite Es.
  assert (Ad : admissible (if sub then [A0; - B0; - t1; t2; dt] else [A0; B0; t1; t2; dt]) (if sub then bounds2 2 else bounds1 2) (map Rabs [A0; B0; t1; t2; dt])).
  { split; [destruct sub; reflexivity|]. split; [destruct sub; reflexivity|]. split.
    - cbn. intros x [<-|[<-|[<-|[<-|[<-|[]]]]]]; apply Rabs_pos_lt; lra.
    - destruct sub; cbn; intros [|[|[|[|[|i]]]]] Hi; cbn; try lia; split; trivial; lra. }
  split; [exact Ad|]. destruct sub; now apply least_squares_admissible.
Qed.
Lemma fitdidv_three fit d A0 B0 C0 t1 t2 t3 dt (sub : bool) :
  errors_nonzero d -> 0 < A0 -> B0 < 0 -> C0 < 0 -> t1 < 0 -> 0 < t2 -> 0 < t3 -> dt <> 0 ->
  let p0 := if sub then [A0; - B0; - C0; - t1; t2; t3; dt] else [A0; B0; C0; t1; t2; t3; dt] in
  let b := if sub then bounds2 3 else bounds1 3 in
  admissible p0 b (map Rabs p0) /\ fitdidv fit d A0 B0 C0 t1 t2 t3 dt 3 sub = fit (didv_residual d) p0 b (map Rabs p0).
Proof.
  intros He HA HB HC H1 H2 H3 Hdt. unfold fitdidv. apply finite_weights_iff in He. rewrite He. cbn [negb start1 start2]. cbv zeta.
  assert (Es : map Rabs (if sub then [A0; - B0; - C0; - t1; t2; t3; dt] else [A0; B0; C0; t1; t2; t3; dt]) = map Rabs [A0; B0; C0; t1; t2; t3; dt]).
  { destruct sub; [|reflexivity]. cbn [map]. now rewrite !Rabs_Ropp. }
  rewrite Es.
  assert (Ad : admissible (if sub then [A0; - B0; - C0; - t1; t2; t3; dt] else [A0; B0; C0; t1; t2; t3; dt])
                 (if sub then bounds2 3 else bounds1 3) (map Rabs [A0; B0; C0; t1; t2; t3; dt])).
  { split; [destruct sub; reflexivity|]. split; [destruct sub; reflexivity|]. split.
    - cbn. intros x [<-|[<-|[<-|[<-|[<-|[<-|[<-|[]]]]]]]]; apply Rabs_pos_lt; lra.
    - destruct sub; cbn; intros [|[|[|[|[|[|[|i]]]]]]] Hi; cbn; try lia; split; trivial; lra. }
  split; [exact Ad|]. destruct sub; now apply least_squares_admissible.
Qed.

(** The guesses. *)
Section Guess.
Context (tr fl : list R) (sgamp rsh : R).
Hypothesis (Ha : 0 < sgamp * rsh) (Hm : lmean fl < maxl tr) (Hne : lmean fl <> lmean tr).
(** [1/didv0 <> A0] (only looked at when the loop gain is below 1). *)
Hypothesis (Hd : lmean fl < lmean tr -> maxl tr - lmean fl <> 2 * (lmean tr - lmean fl)).

Lemma guess_signs :
  match guessdidvparams tr fl sgamp rsh (1 / 10 ^ 7) with
  | (A0, B0, t1, t2, sub) => 0 < A0 /\ B0 < 0 /\ t1 < 0 /\ 0 < t2 /\ (sub = true <-> lmean fl < lmean tr)
  end.
Proof.
  unfold guessdidvparams. cbv zeta.
  set (a := sgamp * rsh) in *. set (mx := maxl tr) in *. set (m := lmean tr) in *. set (f := lmean fl) in *.
  assert (HA : 0 < 1 / ((mx - f) / a)).
  { apply Rdiv_lt_0_compat; [lra|]. apply Rdiv_lt_0_compat; lra. }
  assert (P7 : 0 < 10 ^ 7) by (apply pow_lt; lra). assert (P6 : 0 < 10 ^ 6) by (apply pow_lt; lra).
  assert (Q7 : 0 < 1 / 10 ^ 7) by (apply Rdiv_lt_0_compat; lra).
  assert (Q6 : 0 < 100 / 10 ^ 6) by (apply Rdiv_lt_0_compat; lra).
  assert (Q71 : 0 < 100 / 10 ^ 7) by (apply Rdiv_lt_0_compat; lra).
  assert (HT : 0 < 1 / 10 ^ 7 / (1 / ((mx - f) / a))) by (apply Rdiv_lt_0_compat; assumption).
  unfold Rltb at 1. destruct (Rlt_dec f m) as [L|L].
  - assert (D0 : 0 < 1 / (2 * Rabs (f - m) / a)).
    { apply Rdiv_lt_0_compat; [lra|]. apply Rdiv_lt_0_compat; [|exact Ha]. assert (0 < Rabs (f - m)) by (apply Rabs_pos_lt; lra). lra. }
    assert (HB : 1 / (2 * Rabs (f - m) / a) - 1 / ((mx - f) / a) <> 0).
    { rewrite Rabs_left by lra. intros E. apply (Hd L).
      assert (E1 : 1 / (2 * - (f - m) / a) = a / (2 * (m - f))) by (field; lra).
      assert (E2 : 1 / ((mx - f) / a) = a / (mx - f)) by (field; lra).
      rewrite E1, E2 in E. assert (E3 : a / (2 * (m - f)) = a / (mx - f)) by lra.
      assert (X : a * (mx - f) = a * (2 * (m - f))).
      { transitivity (a / (2 * (m - f)) * (2 * (m - f)) * (mx - f)); [field; lra|]. rewrite E3. field. lra. }
      apply Rmult_eq_reg_l in X; lra. }
    repeat split; try assumption; try lra.
    + unfold Rltb. destruct (Rlt_dec 0 _); lra.
  - assert (D0 : 0 < 1 / (2 * Rabs (f - m) / a)).
    { apply Rdiv_lt_0_compat; [lra|]. apply Rdiv_lt_0_compat; [|exact Ha]. assert (0 < Rabs (f - m)) by (apply Rabs_pos_lt; lra). lra. }
    assert (E : - (1) / (2 * Rabs (f - m) / a) = - (1 / (2 * Rabs (f - m) / a))) by (unfold Rdiv; ring).
    repeat split; try assumption; try lra; try discriminate.
Qed.
End Guess.
