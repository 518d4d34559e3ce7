(** * The objects users hold can be plotted *)
From Coq Require Import String Reals Sorted.
From Coquelicot Require Import Complex.
From Verif Require Import Base ListLemmas Dft UtilsModel DidvModel PlotModel IvPlotModel DidvPlotModel DidvPlotSpec
  DidvPlotProofs1.
Local Open Scope R_scope.

Definition lengths (p : processed) (d : pdata) : Prop :=
  (2 <= length (p_time p))%nat /\ length (d_tmean d) = length (p_time p) /\ length (p_freq p) = length (p_time p) /\
  length (d_mean d) = length (p_time p) /\ length (d_std d) = length (p_time p).

Lemma process_lengths o dt0 p d : process o dt0 = Ok p -> p_data p = Some d -> lengths p d.
Proof.
  unfold process. destruct (raw o) as [|r rest]; [discriminate|]. cbv zeta.
  destruct (_ <? _)%nat; [discriminate|]. destruct (flat_indices _ _ _ _ _) as [flat|]; [|discriminate].
  cbn [bind]. destruct (_ <? 2)%nat eqn:E2; [discriminate|]. apply Nat.ltb_ge in E2.
  intros E Ed.
  match type of E with Ok ?q = Ok p => assert (Ep : p = q) by congruence end. clear E. subst p.
  cbn [p_data] in Ed. match type of Ed with (if ?b then _ else _) = _ => destruct b end; [discriminate|].
  match type of Ed with Some ?q = Some d => assert (Eq : d = q) by congruence end. clear Ed. subst d.
  unfold lengths. cbn [p_time p_freq d_tmean d_mean d_std]. rewrite !mk_length. repeat split. exact E2.
Qed.

Definition named (r : fitres) : Prop := exists n, pole_extractor (ss_args (r_ss r)) = Ok n.
Definition sane (o : didv) : Prop :=
  (forall p d, dproc o = Some p -> p_data p = Some d -> lengths p d) /\
  (forall i r, fitresult i o = Some r -> named r).

Lemma admittance_named f a y : complexadmittance f a = Ok y -> exists n, pole_extractor a = Ok n.
Proof.
  unfold complexadmittance, compleximpedance. destruct (pole_extractor a) as [n|]; [intros _; now exists n|discriminate].
Qed.

Lemma fitresult_named params cov fall cost rsh rp r0 r : fitresult_of params cov fall cost rsh rp r0 = Ok r -> named r.
Proof.
  unfold fitresult_of. destruct (converttotesvalues params rsh r0 rp) as [ss|]; [|discriminate]. cbn [bind].
  destruct (complexadmittance 0 (ss_args ss)) as [y|] eqn:E; [|discriminate]. cbn [bind]. intros X. inversion X. 
  unfold named. cbn [r_ss]. now apply (admittance_named 0 _ y).
Qed.

Lemma sane_proc o dt0 p : sane o -> (forall d, p_data p = Some d -> lengths p d) -> sane (set_proc o dt0 (Some p)).
Proof. intros [_ H2] Hp. split; [|exact H2]. intros p' d E. cbn [set_proc dproc] in E. inversion E. subst p'. apply Hp. Qed.

Lemma sane_shift o dt0 : sane o -> sane (set_proc o dt0 (dproc o)).
Proof. intros [H1 H2]. split; [exact H1|exact H2]. Qed.

Lemma sane_processtraces o : sane o -> sane (fst (processtraces o)).
Proof.
  intros H. unfold processtraces. destruct (raw o) as [|r rest] eqn:Er; [exact H|]. cbv zeta.
  destruct (process o (shifted_dt0 o)) as [p|] eqn:E; cbn [fst].
  - apply sane_proc; [exact H|]. intros d Hd. exact (process_lengths _ _ _ _ E Hd).
  - now apply sane_shift.
Qed.

Lemma sane_res o poles r : sane o -> named r -> sane (set_res o poles r).
Proof.
  intros [H1 H2] Hr. split; [exact H1|]. intros i r' Hi.
  destruct i as [|[|[|[|i]]]]; try discriminate Hi; cbn [fitresult set_res dres1 dres2 dres3] in Hi.
  - destruct (poles =? 1)%nat; [congruence|apply (H2 1%nat r' Hi)].
  - destruct (poles =? 2)%nat; [congruence|apply (H2 2%nat r' Hi)].
  - destruct (poles =? 3)%nat; [congruence|apply (H2 3%nat r' Hi)].
Qed.

Lemma sane_core fit fs poles fc o : sane o -> sane (fst (dofit_core fit fs poles fc o)).
Proof.
  intros H. unfold dofit_core. destruct (_ || _); [|exact H].
  destruct (dproc o) as [p|] eqn:Ep; [|exact H]. destruct (p_data p) as [d|]; [|exact H]. cbv zeta.
  destruct (dofit_start o p d poles) as [[[[[[[A0 B0] C0] tau10] tau20] tau30] dt] sub1].
  destruct (fitdidv _ _ _ _ _ _ _ _ _ _ _) as [[[popt pcov] cost]|]; [|exact H].
  destruct (fitresult_of _ _ _ _ _ _ _) as [r|] eqn:Er; [|exact H]. cbn [fst].
  apply sane_res; [exact H|]. exact (fitresult_named _ _ _ _ _ _ _ _ Er).
Qed.

Lemma sane_run fit fs op o : sane o -> sane (fst (run_didv fit fs op o)).
Proof.
  intros H. destruct op as [|poles fc]; cbn [run_didv]; [now apply sane_processtraces|].
  unfold dofit. destruct (dproc o); [now apply sane_core|].
  assert (S := sane_processtraces o H). destruct (processtraces o) as [o' [u|e]]; [now apply sane_core|exact S].
Qed.

Lemma sane_runs fit fs ops o : sane o -> sane (run_didvs fit fs ops o).
Proof. revert o. induction ops as [|op ops IH]; intros o H; [exact H|]. cbn [run_didvs fold_left]. apply IH. now apply sane_run. Qed.

Lemma sane_plot o : sane o -> complete (of_didv o) /\
  forall p d, dproc o = Some p -> p_data p = Some d -> prepared (of_didv o) p d.
Proof.
  intros [H1 H2]. split.
  - intros i r Hr. unfold fit_of, of_didv in Hr. cbn [b_fit1 b_fit2 b_fit3] in Hr.
    destruct (i =? 1)%Z; [destruct (dres1 o) as [q|] eqn:E; [|discriminate]|
    destruct (i =? 2)%Z; [destruct (dres2 o) as [q|] eqn:E; [|discriminate]|
    destruct (i =? 3)%Z; [destruct (dres3 o) as [q|] eqn:E; [|discriminate]|discriminate]]];
    cbn [option_map] in Hr; inversion Hr; cbn [didv_fit pf_args].
    + exact (H2 1%nat q E).
    + exact (H2 2%nat q E).
    + exact (H2 3%nat q E).
  - intros p d Ep Ed. destruct (H1 p d Ep Ed) as (L1 & L2 & L3 & L4 & L5). unfold prepared, of_didv. cbn [b_proc]. tauto.
Qed.

Lemma sane_init raw fs sgfreq sgamp rsh gain r0 rp duty add180 dt0 o :
  didv_init raw fs sgfreq sgamp rsh gain r0 rp duty add180 dt0 = Ok o -> sane o.
Proof.
  unfold didv_init. destruct (Req_EM_T _ _); [|discriminate]. intros E. inversion E. split.
  - intros p d X. discriminate X.
  - intros i r X. destruct i as [|[|[|[|i]]]]; discriminate X.
Qed.

Lemma sane_from_data tmean mean std off offe fs sgfreq sgamp rsh r0 rp add180 dt0 o :
  (2 <= length tmean)%nat -> length mean = length tmean -> length std = length tmean ->
  didvinitfromdata tmean mean std off offe fs sgfreq sgamp rsh r0 rp add180 dt0 = Ok o -> sane o.
Proof.
  intros H2 Lm Ls. unfold didvinitfromdata. destruct (didv_init _ _ _ _ _ _ _ _ _ _ _) as [o'|] eqn:E; [|discriminate].
  cbn [bind]. cbv zeta. destruct (flat_indices _ _ _ _ _) as [flat|]; [|discriminate]. cbn [bind]. intros X. inversion X.
  apply sane_proc; [exact (sane_init _ _ _ _ _ _ _ _ _ _ _ _ E)|]. cbn [p_data]. intros d Ed. inversion Ed.
  unfold lengths. cbn [p_time p_freq d_tmean d_mean d_std]. rewrite !mk_length. tauto.
Qed.

(** ** DIDVPriors *)

Definition pnamed (r : priorsres) : Prop := exists n, pole_extractor (ss_args (q_params r)) = Ok n.
Definition psane (o : pdidv) : Prop := sane (pd o) /\ forall i r, priors_fitresult i o = Some r -> pnamed r.

Lemma psane_core fit fs min pinv poles priors pcov fc o : psane o ->
  psane (fst (priors_core fit fs min pinv poles priors pcov fc o)).
Proof.
  intros H. unfold priors_core. destruct (dproc (pd o)) as [p|]; [|exact H]. destruct (_ <? 3)%nat; [exact H|].
  destruct (p_data p) as [d|]; [|exact H]. destruct (priors_guess_object _ _ _) as [g|]; [|exact H].
  destruct (dofit _ _ _ _ _) as [g' [u|]]; [|exact H]. destruct (fitresult poles g') as [r|]; [|exact H]. cbv zeta.
  destruct (negb _); [exact H|]. destruct (min _ _ _ _) as [[[params cov] cost]|]; [|exact H].
  destruct (convertfromtesvalues params) as [q|]; [|exact H]. cbn [bind]. unfold priors_result.
  destruct (complexadmittance 0 (ss_args params)) as [y|] eqn:E; [|exact H]. cbn [bind fst].
  destruct H as [H1 H2]. split; [exact H1|]. intros i r' Hi.
  assert (N : forall cv er fl cs d0 pr pc, pnamed (mkPRes params cv er fl cs d0 pr pc))
    by (intros; unfold pnamed; cbn [q_params]; now apply (admittance_named 0 _ y)).
  destruct i as [|[|[|[|i]]]]; try discriminate Hi; cbn [priors_fitresult set_pres pres1 pres2 pres3] in Hi.
  - destruct (poles =? 1)%nat; [inversion Hi; apply N|apply (H2 1%nat r' Hi)].
  - destruct (poles =? 2)%nat; [inversion Hi; apply N|apply (H2 2%nat r' Hi)].
  - destruct (poles =? 3)%nat; [inversion Hi; apply N|apply (H2 3%nat r' Hi)].
Qed.

Lemma psane_dofit fit fs min pinv poles priors pcov fc o : psane o ->
  psane (fst (priors_dofit fit fs min pinv poles priors pcov fc o)).
Proof.
  intros H. unfold priors_dofit. destruct (dproc (pd o)); [now apply psane_core|].
  assert (S := sane_processtraces (pd o) (proj1 H)). destruct (processtraces (pd o)) as [b [u|e]]; cbn [fst] in S.
  - apply psane_core. split; [exact S|]. intros i r Hi. destruct i as [|[|[|[|i]]]]; try discriminate Hi; cbn [priors_fitresult pres1 pres2 pres3] in Hi.
    + exact (proj2 H 1%nat r Hi).
    + exact (proj2 H 2%nat r Hi).
    + exact (proj2 H 3%nat r Hi).
  - cbn [fst]. split; [exact S|]. intros i r Hi. destruct i as [|[|[|[|i]]]]; try discriminate Hi; cbn [priors_fitresult pres1 pres2 pres3] in Hi.
    + exact (proj2 H 1%nat r Hi).
    + exact (proj2 H 2%nat r Hi).
    + exact (proj2 H 3%nat r Hi).
Qed.

Lemma psane_plot o : psane o -> complete (of_priors o) /\
  forall p d, dproc (pd o) = Some p -> p_data p = Some d -> prepared (of_priors o) p d.
Proof.
  intros [[H1 _] H2]. split.
  - intros i r Hr. unfold fit_of, of_priors in Hr. cbn [b_fit1 b_fit2 b_fit3] in Hr.
    destruct (i =? 1)%Z; [destruct (pres1 o) as [q|] eqn:E; [|discriminate]|
    destruct (i =? 2)%Z; [destruct (pres2 o) as [q|] eqn:E; [|discriminate]|
    destruct (i =? 3)%Z; [destruct (pres3 o) as [q|] eqn:E; [|discriminate]|discriminate]]];
    cbn [option_map] in Hr; inversion Hr; cbn [priors_fit pf_args].
    + exact (H2 1%nat q E).
    + exact (H2 2%nat q E).
    + exact (H2 3%nat q E).
  - intros p d Ep Ed. destruct (H1 p d Ep Ed) as (L1 & L2 & L3 & L4 & L5). unfold prepared, of_priors. cbn [b_proc]. tauto.
Qed.
