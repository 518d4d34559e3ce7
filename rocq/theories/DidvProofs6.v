(** * Proofs: concrete cases *)
From Coq Require Import Reals Lra Lia.
From Coquelicot Require Import Complex.
From Verif Require Import Base Dft ListLemmas UtilsModel DidvModel DidvSpec DidvProofs1 DidvProofs2 DidvProofs3 DidvProofs4 DidvProofs5.
Local Open Scope R_scope.

Lemma square_dft_neq n amp d m : (0 < n)%nat -> amp <> 0 -> m <> 0%Z -> cis (- (2 * PI * IZR m * d)) <> RtoC 1 ->
  square_dft n amp d m <> RtoC 0.
Proof.
  intros Hn Ha Hm Hc E. unfold square_dft, square_coefficient in E.
  assert (Hm' : IZR m <> 0) by (apply not_0_IZR; assumption).
  assert (HP := PI_RGT_0).
  set (e := cis (- (2 * PI * IZR m * d))) in *.
  assert (HT : RtoC (2 * PI * IZR m) <> RtoC 0) by (apply RtoC_neq; apply Rmult_integral_contrapositive; split; [lra|assumption]).
  assert (HK : RtoC (amp * INR n) <> RtoC 0).
  { apply RtoC_neq. apply Rmult_integral_contrapositive. split; [assumption|]. apply not_0_INR. lia. }
  set (T := RtoC (2 * PI * IZR m)) in *. set (K := RtoC (amp * INR n)) in *.
  assert (Hi0 : Ci <> RtoC 0) by (intros X; apply (f_equal snd) in X; simpl in X; lra).
  apply Hc. apply Ceq.
  - assert (X : (e - 1)%C = ((- (K * ((1 - e) / (Ci * T)))) * (Ci * T / K))%C) by (field; repeat split; assumption).
    rewrite E, Cmult_0_l in X. apply (f_equal fst) in X. simpl in X |- *. lra.
  - assert (X : (e - 1)%C = ((- (K * ((1 - e) / (Ci * T)))) * (Ci * T / K))%C) by (field; repeat split; assumption).
    rewrite E, Cmult_0_l in X. apply (f_equal snd) in X. simpl in X |- *. lra.
Qed.
Lemma odd_excited m : Z.odd m = true -> cis (- (2 * PI * IZR m * (1 / 2))) <> RtoC 1.
Proof. intros H E. rewrite cis_odd_half in E by exact H. injection E. lra. Qed.

Lemma deconvolved_harmonic n t sgamp sgfreq duty a tr k z rsh m :
  a_rsh a = Some rsh ->
  squarewaveresponse n t sgamp sgfreq duty a = Ok tr ->
  compleximpedance (didvfreq n t k) a = Ok z ->
  (0 < k < n)%nat -> (k <> n / 2)%nat ->
  sgfreq <> 0 -> m <> 0%Z -> didvfreq n t k = IZR m * sgfreq ->
  sgamp * rsh <> 0 -> cis (- (2 * PI * IZR m * duty)) <> RtoC 1 ->
  1 / 10 ^ 16 <= Cmod z ->
  deconvolvedidv n t (fun j => nth j tr 0) rsh sgamp sgfreq duty k = (Some (1 / z)%C, false).
Proof.
  intros Ha Hr Hz Hk Hk2 Hs Hm Hf Hamp Hc HZ.
  apply (squarewaveresponse_deconvolved n t sgamp sgfreq duty a tr k z rsh); try assumption.
  rewrite Hf, squarewave_harmonic by (assumption || lia). apply square_dft_neq; assumption || lia.
Qed.

Lemma nulled_bin n t tr rsh sgamp sgfreq duty :
  dft n (fun j => RtoC (nth j tr 0)) (Z.of_nat (n / 2)) <> RtoC 0 ->
  deconvolvedidv n t (fun j => nth j tr 0) rsh sgamp sgfreq duty (n / 2) = (Some (1 / (1, 1))%C, true).
Proof.
  intros H. unfold deconvolvedidv. rewrite Nat.eqb_refl. cbv zeta. destruct (Ceq_dec _ _) as [E|_]; [contradiction|].
  replace (RtoC 0 / dft n (fun j => RtoC (nth j tr 0)) (Z.of_nat (n / 2)))%C with (RtoC 0) by (unfold Cdiv; ring).
  rewrite Cmod_0. unfold Rltb. destruct (Rlt_dec 0 (1 / 10 ^ 16)) as [_|N]; [reflexivity|].
  exfalso. apply N. apply Rdiv_lt_0_compat; [lra|apply pow_lt; lra].
Qed.

Definition ex_args : tesargs := mkArgs (Some 1) (Some 1) None None None (Some 1) None None None.
Lemma ex_freq n k : (1 < n)%nat -> (2 * k < n)%nat -> didvfreq n (fun j => INR j / INR n) k = IZR (Z.of_nat k) * 1.
Proof.
  intros Hn Hk. unfold didvfreq, fftfreq, freqnum. destruct (Z.ltb_spec (2 * Z.of_nat k) (Z.of_nat n)); [|lia].
  assert (INR n <> 0) by (apply not_0_INR; lia). cbn [INR]. field. assumption.
Qed.
Lemma ex_impedance f : exists z, compleximpedance f ex_args = Ok z /\ z = (RtoC 2 + iomega f)%C.
Proof.
  unfold ex_args. rewrite impedance_selects. eexists. split; [reflexivity|]. rewrite Z1 by lra. unfold doc_onepole.
  apply Ceq; simpl; ring.
Qed.
Lemma ex_mod f : 1 / 10 ^ 16 <= Cmod (RtoC 2 + iomega f)%C.
Proof.
  assert (H := Rmax_Cmod (RtoC 2 + iomega f)%C). assert (H1 := Rmax_l (Rabs (fst (RtoC 2 + iomega f)%C)) (Rabs (snd (RtoC 2 + iomega f)%C))).
  assert (E : Rabs (fst (RtoC 2 + iomega f)%C) = 2) by (unfold iomega; simpl; rewrite Rabs_right; lra).
  rewrite E in H, H1. assert (1 / 10 ^ 16 <= 1); [|lra].
  replace (10 ^ 16) with 10000000000000000 by ring. lra.
Qed.

Lemma odd_length_lost :
  exists tr z, squarewaveresponse 3 (fun j => INR j / INR 3) 1 1 (1 / 2) ex_args = Ok tr /\
    compleximpedance (didvfreq 3 (fun j => INR j / INR 3) 1) ex_args = Ok z /\
    didvfreq 3 (fun j => INR j / INR 3) 1 = 1 /\
    deconvolvedidv 3 (fun j => INR j / INR 3) (fun j => nth j tr 0) 1 1 1 (1 / 2) 1 <> (Some (1 / z)%C, false).
Proof.
  assert (F : didvfreq 3 (fun j => INR j / INR 3) 1 = 1) by (rewrite ex_freq by lia; cbn; ring).
  destruct (ex_impedance 1) as (z & Hz & Ez).
  assert (S : exists tr, squarewaveresponse 3 (fun j => INR j / INR 3) 1 1 (1 / 2) ex_args = Ok tr).
  { unfold squarewaveresponse, ex_args. cbn [pole_extractor given a_rsh a_rp a_r0 a_beta a_l a_L a_tau0 a_gratio a_tau3 andb bind tes_tuple convertfromtesvalues val convolvedidv Nat.ltb Nat.leb].
    eexists. reflexivity. }
  destruct S as [tr S]. exists tr, z. split; [exact S|]. rewrite F. split; [exact Hz|]. split; [reflexivity|].
  assert (G : dft 3 (fun j => RtoC (nth j tr 0)) (Z.of_nat 1) <> RtoC 0).
  2:{ intros X. assert (Y := eq_trans (eq_sym (nulled_bin 3 (fun j => INR j / INR 3) tr 1 1 1 (1 / 2) G)) X). discriminate Y. }
  unfold squarewaveresponse, ex_args in S. cbn [pole_extractor given a_rsh a_rp a_r0 a_beta a_l a_L a_tau0 a_gratio a_tau3 andb bind tes_tuple convertfromtesvalues val] in S.
  rewrite (convolve_spectrum 3 _ _ _ _ _ _ _ _ _ _ _ tr 1 S) by lia. rewrite F.
  intros E.
  assert (N1 : squarewave 3 1 1 1 (1 / 2) 1 1 <> RtoC 0).
  { replace (squarewave 3 1 1 1 (1 / 2) 1 1) with (squarewave 3 1 1 1 (1 / 2) (IZR 1 * 1) 1) by (now rewrite Rmult_1_r).
    rewrite squarewave_harmonic by (lra || lia). apply square_dft_neq; [lia|lra|lia|]. now apply odd_excited. }
  unfold threepoleadmittance in E. rewrite gratio_zero, B_zero in E.
  assert (Z0 : onepoleimpedance 1 (1 + 1) (1 / (1 + 1)) = (RtoC 2 + iomega 1)%C).
  { rewrite Z1 by lra. unfold doc_onepole. apply Ceq; simpl; ring. }
  rewrite Z0 in E.
  assert (N2 : (RtoC 2 + iomega 1)%C <> RtoC 0) by (intros X; apply (f_equal fst) in X; unfold iomega in X; simpl in X; lra).
  apply N1. transitivity (squarewave 3 1 1 1 (1 / 2) 1 1 * (1 / (RtoC 2 + iomega 1)) * (RtoC 2 + iomega 1))%C; [field; exact N2|].
  rewrite E. ring.
Qed.

(** A small object: one trace of four samples, one period. *)
Definition ex_obj (add180 : bool) : didv := mkDidv [[1; 2; 3; 4]] 4 1 1 1 0 1 1 (1 / 2) add180 1 None None None None.
Lemma ex_obj_ok a dt0 : exists p, process (mkDidv [[1; 2; 3; 4]] 4 1 1 1 0 1 1 (1 / 2) a dt0 None None None None) dt0 = Ok p.
Proof. apply (process_ok _ 4); cbn; try lia; try lra; discriminate. Qed.
Lemma ex_process a : exists o' p, processtraces (ex_obj a) = (o', Ok tt) /\ dproc o' = Some p.
Proof.
  unfold processtraces. cbn [ex_obj raw].
  destruct (process_ok (ex_obj a) 4 ltac:(lia) ltac:(cbn; lra) ltac:(cbn; lra) (shifted_dt0 (ex_obj a)) ltac:(discriminate) ltac:(cbn; lia)) as [p E].
  rewrite E. do 2 eexists. split; reflexivity.
Qed.
Lemma add180_witness : exists o o1 o2, dadd180 o = true /\ processtraces o = (o1, Ok tt) /\ processtraces o1 = (o2, Ok tt) /\ dproc o2 <> dproc o1.
Proof.
  destruct (ex_process true) as (o1 & p1 & E1 & D1).
  assert (B : o1 = set_proc (ex_obj true) (shifted_dt0 (ex_obj true)) (Some p1)).
  { unfold processtraces in E1. cbn [ex_obj raw] in E1.
    destruct (process _ _) as [p|e] in E1; [|discriminate]. assert (X := f_equal fst E1). cbn [fst] in X. rewrite <- X in D1 |- *.
    cbn in D1. congruence. }
  assert (P2 : exists o2 p2, processtraces o1 = (o2, Ok tt) /\ dproc o2 = Some p2).
  { unfold processtraces. rewrite B. cbn [set_proc raw ex_obj].
    destruct (process_ok o1 4 ltac:(lia)) with (dt0 := shifted_dt0 o1) as [p E]; try (rewrite B; cbn; lra || lia || discriminate).
    rewrite B in E. rewrite E. do 2 eexists. split; reflexivity. }
  destruct P2 as (o2 & p2 & E2 & D2). exists (ex_obj true), o1, o2. split; [reflexivity|]. split; [exact E1|]. split; [exact E2|].
  apply (add180_shifts (ex_obj true) o1 o2 p1 p2); try assumption; try reflexivity. cbn. lra.
Qed.

(** A processed object for the fits. *)
Definition ex_data : pdata := mkData [0; 1; 4; 3] [(1, 1)] [(1, 0)] [] 2 0.
Definition ex_proc : processed := mkProc [0; 1] [0] [1%nat] 1 [[0; 1; 4; 3]] (Some ex_data).
Definition ex_fit_obj : didv := mkDidv [] 4 1 1 1 0 1 1 (1 / 2) false 1 (Some ex_proc) None None None.
Definition ex_fit : fitter := fun r p0 b s => Ok ([1; 1; 1], [], 0).
Definition ex_solve : fsolver := mkFsolve (fun _ p => p) (fun _ p => p).
Lemma ex_flat : lmean (flat_values ex_proc ex_data) = 1.
Proof. unfold lmean. cbn. field. Qed.
Lemma ex_max : maxl (d_tmean ex_data) = 4.
Proof. cbn. unfold Rmax. repeat destruct (Rle_dec _ _); lra. Qed.
Lemma ex_min : minl (d_tmean ex_data) = 0.
Proof. cbn. unfold Rmin. repeat destruct (Rle_dec _ _); lra. Qed.
Lemma ex_mean : lmean (d_tmean ex_data) = 2.
Proof. unfold lmean. cbn. field. Qed.
Lemma ex_errors fc : errors_nonzero (fit_bins ex_proc ex_data fc).
Proof.
  intros f y e H. unfold fit_bins in H. apply in_map_iff in H. destruct H as [q [E H]]. apply filter_In in H. destruct H as [[H|[]] _].
  subst q. cbn in E. injection E as _ _ <-. cbn. split; lra.
Qed.
Lemma ex_dofit : snd (dofit ex_fit ex_solve 1 None ex_fit_obj) = Ok tt.
Proof.
  destruct (start_one ex_fit ex_solve ex_fit_obj ex_proc ex_data None eq_refl eq_refl (ex_errors None)
    ltac:(cbn; lra) ltac:(rewrite ex_max, ex_min; lra) ltac:(cbn; lra)) as [_ S].
  unfold ex_fit at 2 in S. cbn [fit_outcome] in S. destruct (S eq_refl) as [E _]. exact E.
Qed.
