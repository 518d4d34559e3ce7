(** * Proofs: the cost of a fit; examples *)
From Coq Require Import Reals Lra Lia Psatz.
From Coquelicot Require Import Complex.
From Verif Require Import Base Dft ListLemmas UtilsModel DidvModel DidvSpec DidvProofs1 DidvProofs2 DidvProofs3 DidvProofs4 DidvProofs5 DidvProofs6 DidvProofs7 DidvProofs8 DidvProofs9 DidvProofs10.
Local Open Scope R_scope.

Lemma stored_cost fit fs poles fc o : honest_fitter fit -> (1 <= poles <= 3)%nat -> snd (dofit fit fs poles fc o) = Ok tt ->
  exists pr d r, dproc (fst (dofit fit fs poles fc o)) = Some pr /\ p_data pr = Some d /\
    fitresult poles (fst (dofit fit fs poles fc o)) = Some r /\ r_cost r = chi_square (fit_bins pr d fc) (r_params r) / 2.
Proof.
  intros Hh Hp HO. destruct (dofit_stores fit fs poles fc o HO) as (pr & d & popt & pcov & cost & p0 & b & s & r & H1 & H2 & H3 & H4 & H5 & _ & H6 & _ & H7 & _).
  exists pr, d, r. repeat split; try assumption. rewrite H6, (Hh _ _ _ _ _ _ _ H3), H5, residual_chi_square; [reflexivity|].
  unfold converttotesvalues in H7.
  destruct popt as [|? [|? [|? [|? [|? [|? [|? [|? ?]]]]]]]]; try discriminate; cbn; auto.
Qed.

Definition ex_honest : fitter := fun r p0 b s => Ok ([2; 1; 1], [], lsum (map (fun x => x ^ 2) (r [2; 1; 1])) / 2).
Lemma ex_honest_ok : honest_fitter ex_honest.
Proof. intros res p0 b s popt cov cost. unfold ex_honest. intros [= <- _ <-]. reflexivity. Qed.
Lemma ex_honest_fit : snd (dofit ex_honest ex_solve 1 None ex_fit_obj) = Ok tt /\ exists r,
  fitresult 1 (fst (dofit ex_honest ex_solve 1 None ex_fit_obj)) = Some r /\ r_params r = [2; 1; 1].
Proof.
  destruct (start_one ex_honest ex_solve ex_fit_obj ex_proc ex_data None eq_refl eq_refl (ex_errors None)
    ltac:(cbn; lra) ltac:(rewrite ex_max, ex_min; lra) ltac:(cbn; lra)) as [_ S].
  unfold ex_honest at 2 in S. cbn [fit_outcome] in S. destruct (S eq_refl) as [E (r & E1 & E2 & _)]. split; [exact E|]. exists r. split; assumption.
Qed.
Lemma ex_chi : chi_square (fit_bins ex_proc ex_data None) [2; 1; 1] = 1 / 4.
Proof.
  assert (E : fit_bins ex_proc ex_data None = [(0, RtoC 1, (1, 1))]) by reflexivity. rewrite E.
  unfold chi_square. cbn [map last doc_dvdi]. unfold lsum. cbn [fold_right]. unfold iomega, cis.
  replace (- (2 * PI * 0 * 1)) with 0 by ring. rewrite cos_0, sin_0. simpl. field.
Qed.

(** One trace whose DFT has no zero. *)
Definition ex_one : didv := mkDidv [[1; 0; 0; 0]] 4 1 1 1 0 1 1 (1 / 2) false 1 None None None None.
Lemma ex_one_dft k : trace_dft 4 [1; 0; 0; 0] k = RtoC 1.
Proof.
  unfold trace_dft, dft. cbn [csum nth Z.of_nat Z.mul Z.opp]. rewrite tw_0. ring.
Qed.
Lemma ex_one_processed : exists o' p d, processed_from ex_one 4 4 o' p /\ p_data p = Some d /\ p_traces p = [[1; 0; 0; 0]] /\
  p_ntraces p = 1%nat /\ excited ex_one p 4 1 1.
Proof.
  assert (X : exists o' p, processtraces ex_one = (o', Ok tt) /\ dproc o' = Some p).
  { unfold processtraces. cbn [ex_one raw].
    destruct (process_ok ex_one 4 ltac:(lia) ltac:(cbn; lra) ltac:(cbn; lra) (shifted_dt0 ex_one) ltac:(discriminate) ltac:(cbn; lia)) as [p E].
    rewrite E. do 2 eexists. split; reflexivity. }
  destruct X as (o' & p & E & D).
  assert (P : processed_from ex_one 4 4 o' p) by (repeat split; try assumption; cbn; lra || lia).
  destruct (api_arrays ex_one 4 4 o' p P) as (_ & _ & _ & Ef & Et & En & Ed).
  assert (T : p_traces p = [[1; 0; 0; 0]]).
  { rewrite Et. cbn [ex_one raw dtracegain map firstn]. unfold Rdiv. rewrite Rinv_1, !Rmult_1_r. cbn [filter].
    replace (no_zero_bin 4 [1; 0; 0; 0]) with true; [reflexivity|]. symmetry. apply forallb_forall. intros k _. rewrite ex_one_dft.
    destruct (Ceq_dec _ _) as [Z|]; [|reflexivity]. injection Z. lra. }
  destruct (p_data p) as [d|] eqn:Dd; [|destruct Ed as [Ed _]; rewrite T in Ed; discriminate (Ed eq_refl)].
  exists o', p, d. split; [exact P|]. split; [exact Dd|]. split; [exact T|]. split; [rewrite En, T; reflexivity|].
  split; [lia|]. split; [cbn; lia|]. split; [lia|]. split; [rewrite Ef, mk_nth by lia; cbn; field|].
  assert (Es : square_dft 4 (dsgamp ex_one * drsh ex_one) (dduty ex_one) 1 = (0, 4 / PI)).
  { unfold square_dft, square_coefficient. cbn [dsgamp drsh dduty ex_one].
    replace (cis (- (2 * PI * IZR 1 * (1 / 2)))) with (RtoC (-1)) by (symmetry; apply cis_odd_half; reflexivity).
    assert (PI <> 0) by (assert (H := PI_RGT_0); lra).
    replace (INR 4) with 4 by (cbn; ring). apply Ceq; simpl; field; lra. }
  rewrite Es. assert (P0 := PI_RGT_0). assert (P4 := PI_4).
  assert (Q : 1 <= 4 / PI) by (apply (Rmult_le_reg_r PI); [exact P0|]; unfold Rdiv; rewrite Rmult_assoc, Rinv_l; lra).
  split; [intros Z; injection Z; lra|]. intros tr Htr. rewrite T in Htr. destruct Htr as [<-|[]]. rewrite ex_one_dft, Cmod_1.
  assert (M := Rmax_Cmod (0, 4 / PI)). assert (M2 := Rmax_r (Rabs (fst (0, 4 / PI))) (Rabs (snd (0, 4 / PI)))). cbn [fst snd] in M2, M.
  rewrite (Rabs_right (4 / PI)) in M, M2 by lra.
  assert (1 * 1 <= 10 ^ 16 * Cmod (0, 4 / PI)); [|lra]. apply Rmult_le_compat; try lra.
Qed.
Lemma ex_noise : exists o' p d resp noises z, processed_from ex_one 4 4 o' p /\ p_data p = Some d /\ a_rsh ex_args = Some (drsh ex_one) /\
  squarewaveresponse 4 (fun j => nth j (p_time p) 0) (dsgamp ex_one) (dsgfreq ex_one) (dduty ex_one) ex_args = Ok resp /\
  compleximpedance (nth 1 (p_freq p) 0) ex_args = Ok z /\
  p_traces p = map (fun e => mk 4 (fun j => nth j resp 0 + e j)) noises /\ excited ex_one p 4 1 1.
Proof.
  destruct ex_one_processed as (o' & p & d & P & Dd & T & _ & E). destruct (ex_impedance (nth 1 (p_freq p) 0)) as (z & Hz & _).
  assert (S : exists resp, squarewaveresponse 4 (fun j => nth j (p_time p) 0) (dsgamp ex_one) (dsgfreq ex_one) (dduty ex_one) ex_args = Ok resp).
  { unfold squarewaveresponse, ex_args. cbn [pole_extractor given a_rsh a_rp a_r0 a_beta a_l a_L a_tau0 a_gratio a_tau3 andb bind tes_tuple convertfromtesvalues val convolvedidv Nat.ltb Nat.leb].
    eexists. reflexivity. }
  destruct S as [resp S]. exists o', p, d, resp, [fun j => nth j [1; 0; 0; 0] 0 - nth j resp 0], z.
  repeat split; try assumption; try apply P; try apply E. rewrite T. cbn [map]. f_equal. unfold mk. cbn [seq map nth]. repeat f_equal; ring.
Qed.

(** A fit with priors. *)
Definition ex_minuit : minuit := fun _ p0 _ _ => Ok (p0, [], 0).
Lemma ex_priors_fit :
  snd (priors_dofit ex_fit ex_solve ex_minuit (fun c => c) 1 [1; 0; 1; 1] [] None (mkPDidv ex_fit_obj None None None)) = Ok tt.
Proof.
  unfold priors_dofit. cbn [pd ex_fit_obj dproc]. fold ex_fit_obj. unfold priors_core. cbn [pd ex_fit_obj dproc length Nat.ltb Nat.leb ex_proc p_data].
  unfold priors_guess_object, didvinitfromdata, didv_init. cbn [nth d_tmean ex_data bind dfs dsgfreq dsgamp drsh dadd180 ddt0].
  match goal with |- context [flat_indices ?x ?a ?b ?c ?d] => replace x with (INR 4) by (cbn; field); destruct (flat_ok 4 a b c d) as [fl Ef]; rewrite Ef end.
  destruct (Req_EM_T _ _) as [_|N]; [|exfalso; apply N; rewrite INR_IZR_INZ, Int_part_IZR; reflexivity].
  cbn [bind].
  match goal with |- context [dofit ex_fit ex_solve 1 None ?g] =>
    destruct (start_one ex_fit ex_solve g (mkProc (mk (length [0; 1; 4; 3]) (fun j => INR j / 4 - 1)) (mk (length [0; 1; 4; 3]) (fftfreq (length [0; 1; 4; 3]) 4)) fl 0 []
       (Some (mkData [0; 1; 4; 3] [(1, 1)] [(1, 0)] [] 2 0))) (mkData [0; 1; 4; 3] [(1, 1)] [(1, 0)] [] 2 0) None) as [_ S]
  end; try reflexivity.
  - intros f y e H. unfold fit_bins in H. apply in_map_iff in H. destruct H as [q [E H]]. apply filter_In in H. destruct H as [H _].
    destruct H as [H|[]]. subst q. cbn in E. injection E as _ _ <-. cbn. split; lra.
  - cbn. lra.
  - assert (X := ex_max). assert (Y := ex_min). cbn [d_tmean ex_data] in *. rewrite X, Y. lra.
  - cbn. lra.
  - unfold ex_fit at 2 in S. cbn [fit_outcome] in S. destruct (S eq_refl) as [E (r & E1 & E2 & _)].
    match goal with |- context [dofit ex_fit ex_solve 1 None ?g] => destruct (dofit_stores ex_fit ex_solve 1 None g E)
      as (pr & d & popt & pcov & cost & p0 & b & s & r' & _ & _ & Hf & H4 & H5 & _ & _ & _ & H7 & _);
      destruct (dofit ex_fit ex_solve 1 None g) as [g' u] end.
    cbn [fst snd] in *. subst u. cbn [fst snd fitresult] in *. rewrite E1 in H4 |- *. injection H4 as <-. rewrite <- H5, E2 in H7.
    cbn [converttotesvalues] in H7. injection H7 as H7. rewrite <- H7. unfold priors_guess. cbn [removelast last map app length Nat.eqb negb].
    unfold ex_minuit, priors_start. cbn [combine map fst snd]. unfold priors_result, complexadmittance, ss_args. rewrite impedance_selects.
    reflexivity.
Qed.
