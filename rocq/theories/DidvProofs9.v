(** * Proofs: noise, single traces, DIDVPriors fits, time offset of the plots *)
From Coq Require Import Reals Lra Lia Psatz.
From Coquelicot Require Import Complex.
From Verif Require Import Base Dft ListLemmas UtilsModel DidvModel DidvSpec DidvProofs1 DidvProofs2 DidvProofs3 DidvProofs4 DidvProofs5 DidvProofs6 DidvProofs7 DidvProofs8.
Local Open Scope R_scope.

Lemma processed_by o o' p : processtraces o = (o', Ok tt) -> dproc o' = Some p ->
  process o (shifted_dt0 o) = Ok p /\ o' = set_proc o (shifted_dt0 o) (Some p).
Proof.
  unfold processtraces. destruct (raw o); [discriminate|]. destruct (process o (shifted_dt0 o)) as [p1|e]; [|discriminate].
  intros E D. assert (E1 := f_equal fst E). cbn [fst] in E1. rewrite <- E1 in D |- *. cbn in D.
  assert (p1 = p) by congruence. subst. split; reflexivity.
Qed.
(** ** A response plus noise *)
Lemma response_dft n t sgamp sgfreq duty a tr k z rsh :
  a_rsh a = Some rsh ->
  squarewaveresponse n t sgamp sgfreq duty a = Ok tr ->
  compleximpedance (didvfreq n t k) a = Ok z -> (0 < k < n)%nat -> (k <> n / 2)%nat ->
  trace_dft n tr k = (squarewave n sgamp rsh sgfreq duty (didvfreq n t k) k / z)%C.
Proof.
  intros Ha. unfold squarewaveresponse, compleximpedance. rewrite Ha. cbn [val].
  destruct (pole_extractor a) as [p|e]; [|discriminate]. cbn [bind].
  destruct (convertfromtesvalues (tes_tuple p a)) as [q|e]; [|discriminate]. cbn [bind].
  assert (H2 : forall x, (0 < x < n)%nat -> (x <> n / 2)%nat -> (2 * x <> n)%nat).
  { intros x _ Hx E. apply Hx. rewrite <- E, Nat.mul_comm, Nat.div_mul; lia. }
  destruct q as [|q1 [|q2 [|q3 [|q4 [|q5 [|q6 [|q7 [|q8 q]]]]]]]]; try discriminate; intros Hc [= <-] Hk Hk2;
    unfold trace_dft; rewrite (convolve_spectrum _ _ _ _ _ _ _ _ _ _ _ _ _ _ Hc Hk (H2 k Hk Hk2)); unfold threepoleadmittance;
    rewrite ?gratio_zero, ?B_zero; unfold Cdiv; ring.
Qed.
Lemma noisy_mean o q dt0 p d a resp (noises : list (nat -> R)) k m z :
  (0 < q)%nat -> 0 < dsgfreq o -> dfs o / dsgfreq o = INR q -> process o dt0 = Ok p -> p_data p = Some d ->
  let n := (q * (length (nth 0 (raw o) []) / q))%nat in
  let S := square_dft n (dsgamp o * drsh o) (dduty o) m in
  a_rsh a = Some (drsh o) ->
  squarewaveresponse n (tm p) (dsgamp o) (dsgfreq o) (dduty o) a = Ok resp ->
  compleximpedance (nth k (p_freq p) 0) a = Ok z ->
  p_traces p = map (fun e => mk n (fun j => nth j resp 0 + e j)) noises ->
  (0 < k < n)%nat -> (k <> n / 2)%nat -> m <> 0%Z -> nth k (p_freq p) 0 = IZR m * dsgfreq o -> S <> RtoC 0 ->
  (forall tr, In tr (p_traces p) -> Cmod (trace_dft n tr k) <= 10 ^ 16 * Cmod S) ->
  nth k (d_mean d) (RtoC 0)
  = (1 / z + dft n (fun j => RtoC (lmean (map (fun e => e j) noises))) (Z.of_nat k) / S)%C.
Proof.
  intros Hq Hsg Hfs Hp Hd n S Ha Hr Hz Ht Hk Hk2 Hm Hf HS HB.
  destruct (excited_bin o q dt0 p d Hq Hsg Hfs Hp Hd k m S Hk Hk2 Hm Hf eq_refl HS HB) as (_ & E & _). rewrite E.
  destruct (values o q dt0 p Hq Hsg Hfs Hp) as (N2 & _ & _ & _ & _ & V). rewrite Hd in V. destruct V as (Ne & Vt & _).
  fold n in N2, Vt |- *.
  assert (X : trace_dft n (d_tmean d) k = (trace_dft n resp k + dft n (fun j => RtoC (lmean (map (fun e => e j) noises))) (Z.of_nat k))%C).
  { unfold trace_dft. rewrite <- dft_plus. apply dft_ext. intros j Hj. rewrite <- RtoC_plus. f_equal. rewrite Vt, mk_nth by exact Hj.
    rewrite Ht, map_map. rewrite (map_ext _ (fun e => nth j resp 0 + e j)) by (intros e; now rewrite mk_nth).
    assert (Nn : noises <> []) by (intros Z0; apply Ne; rewrite Ht, Z0; reflexivity).
    unfold lmean. rewrite !map_length, lsum_map_plus.
    assert (L := lmean_repeat noises (nth j resp 0) Nn). unfold lmean in L. rewrite map_length in L.
    transitivity (lsum (map (fun _ => nth j resp 0) noises) / INR (length noises) + lsum (map (fun e => e j) noises) / INR (length noises)); [|rewrite L; reflexivity].
    unfold Rdiv. ring. }
  assert (FV := freq_value o q dt0 p Hq Hsg Hfs Hp k ltac:(fold n; lia)). fold n in FV.
  rewrite X. rewrite FV in Hz.
  rewrite (response_dft n (tm p) (dsgamp o) (dsgfreq o) (dduty o) a resp k z (drsh o) Ha Hr Hz Hk Hk2).
  rewrite <- FV, Hf, squarewave_harmonic by (lra || lia). fold S.
  set (Y := dft n _ _). transitivity (S / S * / z + Y / S)%C; [unfold Cdiv; ring|].
  replace (S / S)%C with (RtoC 1) by (field; exact HS). reflexivity.
Qed.

(** ** One trace only *)
Lemma single_trace_std o q dt0 p d k m :
  (0 < q)%nat -> 0 < dsgfreq o -> dfs o / dsgfreq o = INR q -> process o dt0 = Ok p -> p_data p = Some d ->
  let n := (q * (length (nth 0 (raw o) []) / q))%nat in
  let S := square_dft n (dsgamp o * drsh o) (dduty o) m in
  p_ntraces p = 1%nat -> (0 < k < n)%nat -> (k <> n / 2)%nat -> m <> 0%Z -> nth k (p_freq p) 0 = IZR m * dsgfreq o -> S <> RtoC 0 ->
  (forall tr, In tr (p_traces p) -> Cmod (trace_dft n tr k) <= 10 ^ 16 * Cmod S) ->
  nth k (d_std d) (RtoC 0) = RtoC 0.
Proof.
  intros Hq Hsg Hfs Hp Hd n S H1 Hk Hk2 Hm Hf HS HB.
  destruct (excited_bin o q dt0 p d Hq Hsg Hfs Hp Hd k m S Hk Hk2 Hm Hf eq_refl HS HB) as (_ & _ & E). rewrite E.
  destruct (values o q dt0 p Hq Hsg Hfs Hp) as (_ & _ & _ & _ & Vn & _). rewrite H1 in Vn.
  destruct (p_traces p) as [|tr [|tr2 l]]; try discriminate Vn. fold n.
  assert (K : forall x, list_std [x] = 0) by (intros x; exact (list_std_const [x] x ltac:(discriminate))).
  cbn [map]. rewrite !K. unfold RtoC. f_equal; unfold Rdiv; ring.
Qed.
Lemma std_length o q dt0 p d : (0 < q)%nat -> 0 < dsgfreq o -> dfs o / dsgfreq o = INR q -> process o dt0 = Ok p -> p_data p = Some d ->
  let n := (q * (length (nth 0 (raw o) []) / q))%nat in
  length (p_freq p) = n /\ length (d_mean d) = n /\ length (d_std d) = n.
Proof.
  intros Hq Hsg Hfs Hp Hd n. destruct (values o q dt0 p Hq Hsg Hfs Hp) as (_ & _ & Vf & _ & _ & V). rewrite Hd in V.
  destruct V as (_ & _ & _ & Vs & Vm & _). rewrite Vf, Vs, Vm. repeat split; apply mk_length.
Qed.
Lemma single_trace_rejected fit fs poles fc o q o' p d k m :
  (0 < q)%nat -> 0 < dsgfreq o -> dfs o / dsgfreq o = INR q ->
  processtraces o = (o', Ok tt) -> dproc o' = Some p -> p_data p = Some d ->
  let n := (q * (length (nth 0 (raw o) []) / q))%nat in
  let S := square_dft n (dsgamp o * drsh o) (dduty o) m in
  (1 <= poles <= 3)%nat -> p_ntraces p = 1%nat ->
  (0 < k < n)%nat -> (k <> n / 2)%nat -> m <> 0%Z -> nth k (p_freq p) 0 = IZR m * dsgfreq o -> S <> RtoC 0 ->
  (forall tr, In tr (p_traces p) -> Cmod (trace_dft n tr k) <= 10 ^ 16 * Cmod S) ->
  match fc with None => True | Some c => Rabs (nth k (p_freq p) 0) < c end ->
  dofit fit fs poles fc o' = (o', Err ValueError).
Proof.
  intros Hq Hsg Hfs Hp Dp Hd n S Hpo H1 Hk Hk2 Hm Hf HS HB Hc. destruct (processed_by o o' p Hp Dp) as [Pr _].
  apply (zero_error_rejected fit fs fc o' p d poles Hpo Dp Hd). intros He.
  destruct (std_length o q _ p d Hq Hsg Hfs Pr Hd) as (L1 & L2 & L3). fold n in L1, L2, L3.
  rewrite (fit_bins_value p d fc n L1 L2 L3) in He.
  destruct (He (nth k (p_freq p) 0) (nth k (d_mean d) (RtoC 0)) (nth k (d_std d) (RtoC 0))) as [X _].
  - apply in_map_iff. exists k. split; [reflexivity|]. apply filter_In. split; [apply in_seq; lia|].
    destruct fc as [c|]; [|reflexivity]. destruct (Rlt_dec _ _); [reflexivity|contradiction].
  - apply X. rewrite (single_trace_std o q _ p d k m Hq Hsg Hfs Pr Hd H1 Hk Hk2 Hm Hf HS HB). reflexivity.
Qed.

(** ** DIDVPriors *)
Lemma limits_same n : priors_limits n = all_nonnegative n.
Proof. reflexivity. Qed.
Lemma priors_res_set p q o r : (1 <= p <= 3)%nat -> priors_fitresult p (set_pres o q r) = if (q =? p)%nat then Some r else priors_fitresult p o.
Proof. intros Hp. destruct p as [|[|[|[|p]]]]; try lia; destruct q as [|[|[|[|q]]]]; reflexivity. Qed.

Lemma priors_core_cases fit fs min pinv poles priors pcov fc o :
  (exists e, priors_core fit fs min pinv poles priors pcov fc o = (o, Err e)) \/
  (exists pr d g r popt cov cost v s,
    dproc (pd o) = Some pr /\ p_data pr = Some d /\
    priors_guess_object (pd o) d priors = Ok g /\
    snd (dofit fit fs poles fc g) = Ok tt /\ fitresult poles (fst (dofit fit fs poles fc g)) = Some r /\
    (let p0 := priors_start (priors_guess (r_ss r)) priors in
     min (priors_nll (drsh (pd o)) (fit_bins pr d fc) priors (pinv pcov)) p0 (all_nonnegative (length p0)) (map Rabs p0) = Ok (popt, cov, cost)) /\
    length priors = length (priors_guess (r_ss r)) /\ (3 <= length priors)%nat /\
    convertfromtesvalues popt = Ok v /\
    priors_result popt cov (findpolefalltimes fs v) cost priors pcov = Ok s /\
    priors_core fit fs min pinv poles priors pcov fc o = (set_pres o poles s, Ok tt)).
Proof.
  unfold priors_core. destruct (dproc (pd o)) as [pr|] eqn:Ep; [|left; eexists; reflexivity].
  destruct (Nat.ltb_spec (length priors) 3) as [|L3]; [left; eexists; reflexivity|].
  destruct (p_data pr) as [d|] eqn:Ed; [|left; eexists; reflexivity].
  destruct (priors_guess_object (pd o) d priors) as [g|e] eqn:Eg; [|left; eexists; reflexivity].
  destruct (dofit fit fs poles fc g) as [g' [[]|e]] eqn:Ef; [|left; eexists; reflexivity].
  destruct (fitresult poles g') as [r|] eqn:Er; [|left; eexists; reflexivity]. cbv zeta.
  destruct (Nat.eqb_spec (length priors) (length (priors_guess (r_ss r)))) as [El|]; [|left; eexists; reflexivity]. cbn [negb].
  rewrite limits_same.
  destruct (min _ _ _ _) as [[[popt cov] cost]|e] eqn:Em; [|left; eexists; reflexivity].
  destruct (convertfromtesvalues popt) as [v|e] eqn:Ev; [|left; eexists; reflexivity]. cbn [bind].
  destruct (priors_result _ _ _ _ _ _) as [s|e] eqn:Es; [|left; eexists; reflexivity].
  right. exists pr, d, g, r, popt, cov, cost, v, s. rewrite Ef. cbn [fst snd]. repeat split; assumption.
Qed.

Lemma removelast_len (l : list R) : length (removelast l) = (length l - 1)%nat.
Proof. induction l as [|a [|b l] IH]; [reflexivity|reflexivity|]. cbn [removelast length] in *. lia. Qed.
Lemma start_value ss priors : ss <> [] -> length priors = length (priors_guess ss) ->
  priors_start (priors_guess ss) priors = prior_or_guess ss priors.
Proof.
  intros Hs Hl. assert (L0 : (0 < length ss)%nat) by (destruct ss; [congruence|cbn; lia]).
  assert (Lg : length (priors_guess ss) = length ss) by (unfold priors_guess; rewrite app_length, map_length, removelast_len; cbn [length]; lia).
  destruct (priors_start_spec ss priors ltac:(lia) Hs) as (S1 & S2 & _ & S4).
  apply (nth_ext _ _ 0 0); [unfold prior_or_guess; rewrite mk_length; exact S1|]. rewrite S1. intros i Hi.
  unfold prior_or_guess. rewrite mk_nth by lia. destruct (Req_EM_T _ _) as [E|E]; [|now apply S2].
  rewrite S4 by assumption. destruct (Nat.eqb_spec i (length ss - 1)), (Nat.eqb_spec (S i) (length ss)); try lia; reflexivity.
Qed.
Lemma priors_dofit_core fit fs min pinv poles priors pcov fc o :
  (exists e, snd (priors_dofit fit fs min pinv poles priors pcov fc o) = Err e
     /\ forall i, priors_fitresult i (fst (priors_dofit fit fs min pinv poles priors pcov fc o)) = priors_fitresult i o)
  \/ exists o', (dproc (pd o) <> None /\ o' = o \/ dproc (pd o) = None /\ processtraces (pd o) = (pd o', Ok tt)) /\
       (forall i, priors_fitresult i o' = priors_fitresult i o) /\
       priors_dofit fit fs min pinv poles priors pcov fc o = priors_core fit fs min pinv poles priors pcov fc o'.
Proof.
  unfold priors_dofit. destruct (dproc (pd o)) as [pr|] eqn:E.
  - right. exists o. split; [left; split; [discriminate|reflexivity]|]. split; reflexivity.
  - destruct (processtraces (pd o)) as [b [[]|e]] eqn:Eb.
    + right. exists (mkPDidv b (pres1 o) (pres2 o) (pres3 o)). split; [right; split; reflexivity|].
      split; [|reflexivity]. intros i. destruct i as [|[|[|[|i]]]]; reflexivity.
    + left. exists e. split; [reflexivity|]. intros i. destruct i as [|[|[|[|i]]]]; reflexivity.
Qed.
Lemma priors_stores fit fs min pinv poles priors pcov fc o : (1 <= poles <= 3)%nat ->
  snd (priors_dofit fit fs min pinv poles priors pcov fc o) = Ok tt ->
  let o' := fst (priors_dofit fit fs min pinv poles priors pcov fc o) in
  exists pr d g r popt cov cost v s,
    dproc (pd o') = Some pr /\ p_data pr = Some d /\
    didvinitfromdata (d_tmean d) (d_mean d) (d_std d) (d_offset d) (d_offset_err d) (dfs (pd o')) (dsgfreq (pd o')) (dsgamp (pd o')) (drsh (pd o'))
      (if Req_EM_T (nth 2 priors 0) 0 then 1 / 10 else nth 2 priors 0)
      (if Req_EM_T (nth 1 priors 0) 0 then 1 / 100 else nth 1 priors 0) (dadd180 (pd o')) (ddt0 (pd o')) = Ok g /\
    snd (dofit fit fs poles fc g) = Ok tt /\ fitresult poles (fst (dofit fit fs poles fc g)) = Some r /\
    length priors = length (r_ss r) /\
    (let p0 := prior_or_guess (r_ss r) priors in
     min (priors_nll (drsh (pd o')) (fit_bins pr d fc) priors (pinv pcov)) p0 (all_nonnegative (length p0)) (map Rabs p0) = Ok (popt, cov, cost)) /\
    priors_fitresult poles o' = Some s /\
    q_params s = popt /\ q_cov s = cov /\ q_cost s = cost /\
    q_errors s = mk (length popt) (fun i => sqrt (nth i (nth i cov []) 0)) /\
    convertfromtesvalues popt = Ok v /\ q_fall s = findpolefalltimes fs v /\
    q_priors s = priors /\ q_priorscov s = pcov /\
    (exists y, complexadmittance 0 (ss_args popt) = Ok y /\ q_didv0 s = fst y).
Proof.
  intros Hp HO o'. destruct (priors_dofit_core fit fs min pinv poles priors pcov fc o) as [(e & E & _)|(ob & _ & _ & E)]; [congruence|].
  unfold o'. rewrite E in HO |- *.
  destruct (priors_core_cases fit fs min pinv poles priors pcov fc ob)
    as [(e & X)|(pr & d & g & r & popt & cov & cost & v & s & X1 & X2 & X3 & X4 & X5 & X6 & Xl & X3l & X7 & X8 & X)].
  - rewrite X in HO. discriminate HO.
  - rewrite X. cbn [fst]. exists pr, d, g, r, popt, cov, cost, v, s.
    unfold priors_result in X8. destruct (complexadmittance 0 (ss_args popt)) as [y|e] eqn:Ey; [|discriminate]. cbn [bind] in X8.
    assert (H' : forall A (f : priorsres -> A) a b, (@Ok priorsres a = Ok b) -> f a = f b) by (intros A f a b [= ->]; reflexivity).
    rewrite priors_res_set, Nat.eqb_refl by exact Hp. cbn [set_pres pd].
    assert (Ne : r_ss r <> []) by (intros Z0; rewrite Z0 in Xl; cbn in Xl; lia).
    rewrite (start_value _ _ Ne Xl) in X6.
    assert (Ll : length priors = length (r_ss r)).
    { rewrite Xl. unfold priors_guess. rewrite app_length, map_length, removelast_len. cbn [length].
      destruct (r_ss r); [congruence|cbn [length]; lia]. }
    repeat split; try assumption.
    + symmetry. exact (H' _ q_params _ _ X8).
    + symmetry. exact (H' _ q_cov _ _ X8).
    + symmetry. exact (H' _ q_cost _ _ X8).
    + symmetry. exact (H' _ q_errors _ _ X8).
    + symmetry. exact (H' _ q_fall _ _ X8).
    + symmetry. exact (H' _ q_priors _ _ X8).
    + symmetry. exact (H' _ q_priorscov _ _ X8).
    + exists y. split; [reflexivity|]. symmetry. exact (H' _ q_didv0 _ _ X8).
Qed.
Lemma priors_keeps fit fs min pinv poles priors pcov fc o i : (1 <= i <= 3)%nat ->
  (i <> poles \/ snd (priors_dofit fit fs min pinv poles priors pcov fc o) <> Ok tt) ->
  priors_fitresult i (fst (priors_dofit fit fs min pinv poles priors pcov fc o)) = priors_fitresult i o.
Proof.
  intros Hi Hn. destruct (priors_dofit_core fit fs min pinv poles priors pcov fc o) as [(e & _ & E)|(ob & _ & F & E)]; [apply E|].
  rewrite E in Hn |- *. rewrite <- F.
  destruct (priors_core_cases fit fs min pinv poles priors pcov fc ob)
    as [(e & X)|(pr & d & g & r & popt & cov & cost & v & s & _ & _ & _ & _ & _ & _ & _ & _ & _ & _ & X)]; rewrite X in Hn |- *; [reflexivity|].
  cbn [fst snd] in *. rewrite priors_res_set by exact Hi. destruct (Nat.eqb_spec poles i) as [->|]; [|reflexivity]. destruct Hn; congruence.
Qed.
Lemma priors_short fit fs min pinv poles priors pcov fc o : dproc (pd o) <> None -> (length priors < 3)%nat ->
  priors_dofit fit fs min pinv poles priors pcov fc o = (o, Err IndexError).
Proof.
  intros Hd Hl. unfold priors_dofit. destruct (dproc (pd o)) as [pr|] eqn:E; [|congruence]. unfold priors_core. rewrite E.
  destruct (Nat.ltb_spec (length priors) 3); [reflexivity|lia].
Qed.
(** The impedance at zero frequency. *)
Lemma priors_didv0_one rsh rp L dt y : rsh + rp <> 0 ->
  complexadmittance 0 (ss_args [rsh; rp; L; dt]) = Ok y -> fst y = 1 / (rsh + rp).
Proof.
  intros H. unfold complexadmittance, ss_args. rewrite impedance_selects. cbn [bind]. intros E.
  apply (f_equal (fun r => match r with Ok r => fst r | _ => 0 end)) in E. cbv beta iota in E. rewrite <- E.
  rewrite <- (B_zero 0 _ 0), <- (gratio_zero 0 _ 0 0 _ 0).
  rewrite zero_frequency; [|lra|]; replace (rsh + rp + 0 / (1 - 0)) with (rsh + rp) by field; auto.
Qed.
Lemma priors_didv0_two rsh rp r0 beta l L tau0 dt y : l <> 1 ->
  let Z0 := rsh + rp + r0 * (1 + beta) + r0 * l / (1 - l) * (2 + beta) in Z0 <> 0 ->
  complexadmittance 0 (ss_args [rsh; rp; r0; beta; l; L; tau0; dt]) = Ok y -> fst y = 1 / Z0.
Proof.
  intros Hl Z0 H. unfold complexadmittance, ss_args. rewrite impedance_selects. cbn [bind]. intros E.
  apply (f_equal (fun r => match r with Ok r => fst r | _ => 0 end)) in E. cbv beta iota in E. rewrite <- E.
  rewrite <- (gratio_zero 0 _ _ _ _ 0).
  rewrite zero_frequency; [|lra|]; replace (rsh + rp + r0 * (1 + beta) + r0 * l / (1 - l) * (2 + beta) / (1 - 0)) with Z0 by (unfold Z0; field; lra); auto.
Qed.
Lemma priors_didv0_three rsh rp r0 beta l L tau0 gratio tau3 dt y : l <> 1 -> gratio / (1 - l) <> 1 ->
  let Z0 := rsh + rp + r0 * (1 + beta) + r0 * l / (1 - l) * (2 + beta) / (1 - gratio / (1 - l)) in Z0 <> 0 ->
  complexadmittance 0 (ss_args [rsh; rp; r0; beta; l; L; tau0; gratio; tau3; dt]) = Ok y -> fst y = 1 / Z0.
Proof.
  intros Hl Hg Z0 H. unfold complexadmittance, ss_args. rewrite impedance_selects. cbn [bind]. intros E.
  apply (f_equal (fun r => match r with Ok r => fst r | _ => 0 end)) in E. cbv beta iota in E. rewrite <- E.
  rewrite zero_frequency; [reflexivity|lra|exact H].
Qed.

(** ** The time offset of the plots *)
Lemma best_none o : (forall i, fitresult i o = None) -> best_time_offset (offsets_of o) = 0.
Proof.
  intros H. unfold best_time_offset, offsets_of.
  assert (H1 := H 1%nat). assert (H2 := H 2%nat). assert (H3 := H 3%nat). cbn in H1, H2, H3. now rewrite H1, H2, H3.
Qed.
Lemma best_some o i r : fitresult i o = Some r ->
  (forall j r', fitresult j o = Some r' -> r_cost r <= r_cost r' /\ ((j < i)%nat -> r_cost r < r_cost r')) ->
  best_time_offset (offsets_of o) = last (r_params r) 0.
Proof.
  intros Hi Hm. unfold best_time_offset, offsets_of.
  assert (M1 := fun r' => Hm 1%nat r'). assert (M2 := fun r' => Hm 2%nat r'). assert (M3 := fun r' => Hm 3%nat r'). cbn [fitresult] in M1, M2, M3.
  destruct i as [|[|[|[|i]]]]; try discriminate Hi; cbn [fitresult] in Hi;
  destruct (dres1 o) as [r1|], (dres2 o) as [r2|], (dres3 o) as [r3|]; try discriminate Hi;
  (match type of Hi with Some ?a = Some ?b => assert (a = b) by congruence end); subst; clear Hi Hm; cbn [map option_map min_cost];
  repeat match goal with
  | H : forall r', Some ?x = Some r' -> _ |- _ => let X := fresh in assert (X := H x eq_refl); clear H
  end;
  repeat match goal with
  | H : _ <= _ /\ (_ -> _) |- _ => let A := fresh in let B := fresh in let D := fresh in destruct H as [A B]; try (assert (D := B ltac:(lia))); clear B
  end; unfold Rltb; repeat (destruct (Rlt_dec _ _); cbn [min_cost]); try reflexivity; try (exfalso; lra).
Qed.

(** ** The likelihood with priors *)
Lemma form_distance priors params inv : priors_form priors params inv = prior_distance priors params inv.
Proof.
  unfold priors_form, prior_distance. apply rsum_ext. intros i _. apply rsum_ext. intros j _. ring.
Qed.
Lemma nll_chi rsh d priors inv params p :
  (length params = 4 \/ length params = 8 \/ length params = 10)%nat -> nth 0 params 0 = rsh -> rsh <> 0 ->
  errors_nonzero d -> convertfromtesvalues params = Ok p -> 0 <= prior_distance priors params inv ->
  priors_nll rsh d priors inv params = Ok (Some (chi_square d p / 2 + prior_distance priors params inv / 2)).
Proof.
  intros Hl H0 Hr He Hc Hq. rewrite <- form_distance in *. rewrite (nll_value rsh d priors inv params p) by assumption.
  rewrite residual_chi_square; [reflexivity|]. unfold convertfromtesvalues in Hc.
  destruct params as [|? [|? [|? [|? [|? [|? [|? [|? [|? [|? [|? ?]]]]]]]]]]]; cbn in Hl; try lia; try discriminate; cbv zeta in Hc; injection Hc as <-; cbn; auto.
Qed.
