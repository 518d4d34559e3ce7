(** * The constrained fit: when it succeeds, and an example *)
From Coq Require Import Reals ZArith List Lia Lra Psatz Bool.
From Verif Require Import Base ListLemmas Dft WindowModel WindowProofs OFFreeModel OFProofs8 NsmbModel NsmbSpec NsmbProofs1 NsmbProofs2 NsmbProofs3 NsmbProofs4 NsmbProofs5 NsmbProofs6 NsmbProofs7 NsmbProofs8.
From Coquelicot Require Import Coquelicot.
Import ListNotations.
Local Open Scope R_scope.

Lemma interp_list_ok polyfit ind chi amp (tm : list R) : (1 <= ind < Z.of_nat (length tm))%Z ->
  exists z, interpchi2 polyfit ind chi amp tm = Ok z.
Proof.
  intros H. unfold interpchi2. destruct (pyslice tm (ind - 1) (ind + 2)) as [|x l] eqn:E.
  - exfalso. apply (f_equal (@length R)) in E. rewrite length_pyslice in E. simpl in E. unfold slice_bound in E.
    destruct (Z.ltb_spec (ind - 1) 0); [lia|]. destruct (Z.ltb_spec (ind + 2) 0); [lia|]. lia.
  - destruct (polyfit (x :: l) _) as [[z0 z1] z2]. destruct (polyfit (x :: l) _) as [[y0 y1] y2]. destruct (Reqb z0 0); eauto.
Qed.

Lemma cwindow_ok polyfit nt fs chi sig w : (2 <= length w)%nat -> (forall j, In j w -> (- Z.of_nat nt <= j < Z.of_nat nt)%Z) ->
  exists r, cwindow polyfit nt fs chi sig w = Ok r.
Proof.
  intros HL HR. unfold cwindow. destruct w as [|i [|j w]]; [simpl in HL; lia|simpl in HL; lia|].
  set (W := i :: j :: w) in *. rewrite !take_mk by assumption. cbn [bind].
  destruct (argmin_ok (map (fun i => rolled nt chi (col nt i)) W)) as [b Eb]; [discriminate|].
  rewrite Eb. cbn [bind]. destruct (argmin_spec _ _ Eb) as [Hb _]. rewrite map_length in Hb.
  rewrite (pyindex_in W (Z.of_nat b) 0%Z) by lia. cbn [bind]. rewrite Nat2Z.id.
  rewrite pyindex_mk by (apply HR; now apply nth_In). cbn [bind].
  destruct (Nat.eqb_spec b 0); [cbn [orb]; eauto|]. destruct (Nat.eqb_spec b (length W - 1)); [cbn [orb]; eauto|]. cbn [orb].
  match goal with |- context [interpchi2 polyfit ?x ?c ?a ?t] => destruct (interp_list_ok polyfit x c a t) as [z ->] end.
  - rewrite map_length. lia.
  - cbn [bind]. eauto.
Qed.

Section Con.
Variables (pinv : nat -> (nat -> nat -> R) -> nat -> nat -> R) (nt : nat) (s : nat -> R) (bs : list (nat -> R)) (psd : nat -> R) (fs : R).
Hypothesis Hnt : (2 <= nt)%nat.
Hypothesis Hfs : 0 < fs.
Hypothesis Hpsd : forall f, (1 <= f < nt)%nat -> 0 < psd f.
Hypothesis Hpinv : pinv_ok pinv.
Let J := jnoise nt psd fs.
Let st := the_setup pinv nt s bs psd fs.
Let K := (1 + length bs)%nat.
Let T := tvec nt s bs.
Let HJ : forall f, (f < nt)%nat -> 0 < J f := J_pos nt bs psd fs Hnt Hfs Hpsd.
Let chi2_of (pulse a : nat -> R) (d : Z) : R := trace_chi2 nt nt (bin_noise nt psd fs) (trace_minus pulse (sb_model nt s bs a d)).

(** Strictly allowed optimum, at least two templates: the bin is fitted, to the minimum. *)
Lemma con_bin_total pulse con d : bs <> [] ->
  (forall a, (forall b, chi2_of pulse a (Z.of_nat d) <= chi2_of pulse b (Z.of_nat d)) -> forall i, (i < K)%nat -> a i <> 0 /\ obeys (con i) (a i)) ->
  exists r, con_bin pinv st (qt st pulse) (chi2f st nt (fftn nt pulse)) con d = Ok r.
Proof.
  intros Hbs NC0.
  assert (NC : forall a, (forall b, err nt J K (T (Z.of_nat d)) (fftn nt pulse) a <= err nt J K (T (Z.of_nat d)) (fftn nt pulse) b) ->
     forall i, (i < K)%nat -> a i <> 0 /\ obeys (con i) (a i)).
  { intros a Ha. apply NC0. intros b. unfold chi2_of. rewrite !trace_err by assumption. apply Ha. }
  clear NC0.
  assert (K2 : (2 <= K)%nat) by (unfold K; destruct bs; [contradiction|simpl; lia]).
  unfold con_bin. change (nsb st) with K. assert (A := all_spec pinv nt s bs psd fs Hnt Hfs Hpsd Hpinv d). fold st K J T in A.
  destruct (bitmask_all st eq_refl) as [all [EA [EI _]]]. change (nsb st) with K in EA, EI. rewrite EA in *. cbn [bind].
  destruct (getPt_ok pinv st d all) as [[[idx Pt] iPt] EP].
  { change (nsb st) with K. rewrite EI, seq_length. lia. }
  rewrite EP. cbn [bind]. destruct (A idx Pt iPt EP) as [EL [PG SA]]. specialize (SA pulse). clear A.
  set (a := mv K iPt (qt st pulse d)) in *. set (m1 := float_mask K Pt a a con).
  assert (A0 : forall b, err nt J K (T (Z.of_nat d)) (fftn nt pulse) a <= err nt J K (T (Z.of_nat d)) (fftn nt pulse) b).
  { apply err_min; [exact HJ|]. intros i Hi. rewrite <- (SA i Hi). apply mv_ext; [|reflexivity]. intros j Hj. symmetry. now apply PG. }
  assert (ND : forall x, (forall b, err nt J K (T (Z.of_nat d)) (fftn nt pulse) x <= err nt J K (T (Z.of_nat d)) (fftn nt pulse) b) ->
     forall i, (i < K)%nat -> disallowed (x i) (con i) = false).
  { intros x Hx i Hi. destruct (disallowed (x i) (con i)) eqn:ED; [|reflexivity]. apply disallowed_spec in ED.
    destruct (NC x Hx i Hi) as [N0 [N1 N2]]. destruct ED as [ED|[[C1 ED]|[C1 ED]]]; [contradiction|specialize (N1 C1); lra|specialize (N2 C1); lra]. }
  assert (M1 : forall i, (i < K)%nat -> m1 i = true) by (intros i Hi; unfold m1, float_mask; now rewrite (ND a A0 i Hi)).
  destruct (refit_ok pinv st d (qt st pulse d) m1) as [f1 E1].
  { change (nsb st) with K. rewrite (indices_ext K m1 (fun _ => true)) by assumption. unfold indices.
    replace (filter (fun _ : nat => true) (seq 0 K)) with (seq 0 K); [rewrite seq_length; lia|].
    generalize (seq 0 K). induction l as [|x l IH]; [reflexivity|]. simpl. now rewrite <- IH. }
  rewrite E1. cbn [bind].
  destruct (refit_spec pinv nt s bs psd fs Hnt Hfs Hpsd Hpinv pulse d m1 f1 E1) as [_ [_ [_ HF]]].
  assert (B1 : forall b, err nt J K (T (Z.of_nat d)) (fftn nt pulse) (fst f1) <= err nt J K (T (Z.of_nat d)) (fftn nt pulse) b).
  { intros b. apply HF. intros i Hi Hn. elim Hn. now apply M1. }
  set (m2 := float_mask K Pt a (fst f1) con).
  assert (M2 : forall i, (i < K)%nat -> m2 i = true) by (intros i Hi; unfold m2, float_mask; now rewrite (ND _ B1 i Hi)).
  rewrite (proj2 (mask_eq_true K m1 m2)) by (intros i Hi; now rewrite M1, M2). cbn [bind].
  match goal with |- context [mask_eq K m2 ?m] => rewrite (proj2 (mask_eq_true K m2 m)) end.
  - cbn [bind]. eauto.
  - intros i Hi. rewrite M2 by assumption. now rewrite (ND _ B1 i Hi).
Qed.

(** The whole fit succeeds if the optima of all delays are strictly allowed, the first window has bins
    in [0, nt) and bin 0 is not its best one, and the extra windows have two bins or more. *)
Lemma con_succeeds polyfit pulse w ws lf c0 cs : bs <> [] -> length cs = length bs ->
  (forall d a, (0 <= d < Z.of_nat nt)%Z -> (forall b, chi2_of pulse a d <= chi2_of pulse b d) -> forall i, (i < K)%nat -> a i <> 0 /\ obeys (nth i (c0 :: cs) 0) (a i)) ->
  w <> [] -> (forall j, In j w -> (0 <= j < Z.of_nat nt)%Z) ->
  (In 0%Z w -> exists j b, In j w /\ forall a, chi2_of pulse b j < chi2_of pulse a 0%Z) ->
  (forall w', In w' ws -> (2 <= length w')%nat /\ forall j, In j w' -> (- Z.of_nat nt <= j < Z.of_nat nt)%Z) ->
  exists out, of_nsmb_con pinv polyfit st pulse fs (w :: ws) lf (Some cs) (SigArr (c0 :: nil)) = Ok out.
Proof.
  intros Hbs HL HA Hw HR H0 HS. unfold of_nsmb_con. rewrite Reqb_false by lra. cbn [bind].
  change (s_nt st) with nt. change (nsb st) with K.
  unfold con_of. change ((c0 :: nil) ++ cs) with (c0 :: cs). change (length (c0 :: cs)) with (S (length cs)). rewrite HL. change (S (length bs)) with K. rewrite Nat.eqb_refl. cbn [bind].
  set (con := fun i => nth i (c0 :: cs) 0).
  assert (HB : forall d, (d < nt)%nat -> exists r, con_bin pinv st (qt st pulse) (chi2f st nt (fftn nt pulse)) con d = Ok r).
  { intros d Hd. apply con_bin_total; [exact Hbs|]. intros a Ha. apply (HA (Z.of_nat d) a); [lia|exact Ha]. }
  destruct (sequence_map_all (con_bin pinv st (qt st pulse) (chi2f st nt (fftn nt pulse)) con) (seq 0 nt)) as [bins EB].
  { intros d Hd. apply in_seq in Hd. apply HB. lia. }
  rewrite EB. cbn [bind]. destruct (sequence_map_ok _ _ _ O (fun _ => 0, 0) EB) as [BL BN]. rewrite seq_length in BL, BN.
  assert (BN' : forall d, (d < nt)%nat -> con_bin pinv st (qt st pulse) (chi2f st nt (fftn nt pulse)) con d = Ok (nth d bins (fun _ => 0, 0))).
  { intros d Hd. rewrite <- (BN d Hd), seq_nth by assumption. reflexivity. }
  change (pyindex (w :: ws) 0) with (Ok w). cbn [bind].
  destruct (window_min_ok nt (fun d => snd (nth d bins (fun _ => 0, 0))) w Hw) as [[v ind] Em]; [intros j Hj; specialize (HR j Hj); lia|].
  rewrite Em. cbn [bind snd]. destruct (window_min_spec _ _ _ _ _ Em) as [Hin [_ [Hv Hmin]]].
  assert (N0 : ind <> 0%Z).
  { intros ->. destruct (H0 Hin) as [j [b [Hj Hlt]]]. specialize (Hmin j Hj). rewrite Hv in Hmin.
    assert (Hj' := HR j Hj). change (col nt 0) with 0%nat in Hmin.
    assert (Ej : col nt j = Z.to_nat j) by (unfold col; destruct (Z.ltb_spec j 0); [lia|reflexivity]). rewrite Ej in Hmin.
    rewrite (bin_chi2 pinv nt s bs psd fs Hnt Hfs Hpsd Hpinv pulse con 0 _ ltac:(lia) (BN' 0%nat ltac:(lia))) in Hmin.
    assert (Hjn : (Z.to_nat j < nt)%nat) by lia.
    assert (OPT := con_bin_allowed pinv nt s bs psd fs Hnt Hfs Hpsd Hpinv pulse con (Z.to_nat j) _ (BN' _ Hjn)).
    specialize (OPT ltac:(intros a Ha; apply (HA j a Hj'); intros b'; unfold chi2_of; rewrite !trace_err by assumption; fold J K T; rewrite <- (Z2Nat.id j) by lia; apply Ha) b).
    rewrite (bin_chi2 pinv nt s bs psd fs Hnt Hfs Hpsd Hpinv pulse con _ _ Hjn (BN' _ Hjn)) in Hmin.
    rewrite (trace_err nt s bs psd fs Hnt Hfs pulse _ (Z.of_nat (Z.to_nat j))) in Hmin.
    specialize (Hlt (fst (nth 0 bins (fun _ => 0, 0)))). unfold chi2_of in Hlt. rewrite (trace_err nt s bs psd fs Hnt Hfs pulse b j) in Hlt.
    rewrite Z2Nat.id in Hmin, OPT by lia. change (Z.of_nat 0) with 0%Z in Hmin. lra. }
  assert (Hi' := HR ind Hin).
  match goal with |- context [interpchi2 polyfit ind (mk nt ?c) (mk nt ?a) (mk nt ?t)] => destruct (interp_ok polyfit ind nt c a t ltac:(lia)) as [z Ez] end.
  rewrite Ez. cbn [bind tl].
  match goal with |- context [sequence (map ?f ws)] => destruct (sequence_map_all f ws) as [cw ->] end.
  { intros w' Hw'. destruct (HS w' Hw'). now apply cwindow_ok. }
  cbn [bind]. destruct (bitmask_all st eq_refl) as [all [EA [EI _]]]. change (nsb st) with K in EA, EI. rewrite EA. cbn [bind].
  destruct (getPt_ok pinv st (col nt ind) all) as [[[idx Pt] iPt] EP].
  { change (nsb st) with K. rewrite EI, seq_length. unfold K. destruct bs; [contradiction|simpl; lia]. }
  rewrite EP. cbn [bind]. eauto.
Qed.
End Con.

Lemma interp_some polyfit ind nt fs (chi amp : nat -> R) z : polyfit_ok polyfit -> 0 < fs -> (1 <= ind)%Z -> (ind + 1 < Z.of_nat nt)%Z ->
  interpchi2 polyfit ind (mk nt chi) (mk nt amp) (mk nt (fun d => INR d * (1 / fs))) = Ok z ->
  chi (Z.to_nat ind) <= chi (Z.to_nat ind - 1)%nat -> chi (Z.to_nat ind) < chi (Z.to_nat ind + 1)%nat -> exists r, z = Some r.
Proof.
  intros HP Hfs H1 H2 H L1 L2. unfold interpchi2 in H. rewrite !slice_mk in H by assumption.
  set (h := 1 / fs) in *. assert (Hh : 0 < h) by (apply Rdiv_lt_0_compat; lra).
  set (x := INR (Z.to_nat ind) * h) in *.
  assert (E0 : INR (Z.to_nat ind - 1) * h = x - h) by (unfold x; rewrite minus_INR by lia; simpl; ring).
  assert (E2 : INR (Z.to_nat ind + 1) * h = x + h) by (unfold x; rewrite plus_INR; simpl; ring).
  rewrite E0, E2 in H.
  assert (P := HP (x - h) x (x + h) (chi (Z.to_nat ind - 1)%nat) (chi (Z.to_nat ind)) (chi (Z.to_nat ind + 1)%nat) ltac:(lra) ltac:(lra) ltac:(lra)).
  destruct (polyfit _ (chi (Z.to_nat ind - 1)%nat :: _)) as [[z0 z1] z2]. destruct (polyfit _ _) as [[y0 y1] y2]. destruct P as [P0 [P1 P2]].
  destruct (Reqb_spec z0 0) as [Z0|NZ]; [exfalso; subst z0; nra|]. injection H as <-. eauto.
Qed.

(** ** An example: four bins, a delta pulse, a constant and a linear background, flat noise *)
Definition xs : nat -> R := tr (1 :: 0 :: 0 :: 0 :: nil).
Definition xb : list (nat -> R) := (fun _ => 1) :: INR :: nil.
Definition xp : nat -> R := tr (11 :: 26 :: 30 :: 40 :: nil).

Lemma flat_chi2 r : trace_chi2 4 4 (bin_noise 4 (fun _ => 1) (INR 4)) r = rsum 4 (fun t => r t * r t) / 4.
Proof.
  replace (rsum 4 (fun t => r t * r t) / 4) with (rsum 4 (fun t => r t * r t) / INR 4) by (f_equal; simpl; lra).
  rewrite <- (ip_time 4 xb ltac:(lia)). rewrite ip_self. unfold trace_chi2. apply rsum_ext.
  intros f Hf. f_equal. unfold jnoise, bin_noise, dnu. simpl. field.
Qed.
Lemma x_chi2 a d : (0 <= d < 4)%Z ->
  trace_chi2 4 4 (bin_noise 4 (fun _ => 1) (INR 4)) (trace_minus xp (sb_model 4 xs xb a d)) =
  let m := a 1%nat in let k := a 2%nat in let a0 := a 0%nat in
  ((11 - m - 0 * k - (if (d =? 0)%Z then a0 else 0)) ^ 2 + (26 - m - 1 * k - (if (d =? 1)%Z then a0 else 0)) ^ 2 +
   (30 - m - 2 * k - (if (d =? 2)%Z then a0 else 0)) ^ 2 + (40 - m - 3 * k - (if (d =? 3)%Z then a0 else 0)) ^ 2) / 4.
Proof.
  intros Hd. rewrite flat_chi2. f_equal. unfold trace_minus, sb_model. cbv zeta.
  assert (D : d = 0%Z \/ d = 1%Z \/ d = 2%Z \/ d = 3%Z) by lia.
  destruct D as [->|[->|[->| ->]]]; cbn [rsum length xb nth];
    repeat match goal with |- context [Z.to_nat ?z] => let v := eval vm_compute in (Z.to_nat z) in change (Z.to_nat z) with v end;
    unfold xs, xp, tr; cbn [nth Z.eqb Pos.eqb INR]; field.
Qed.
Lemma sq4 x y z u : x ^ 2 + y ^ 2 + z ^ 2 + u ^ 2 <= 0 -> x = 0 /\ y = 0 /\ z = 0 /\ u = 0.
Proof. intros H. repeat split; nra. Qed.
Lemma x_opt a d : (0 <= d < 4)%Z ->
  (forall b, trace_chi2 4 4 (bin_noise 4 (fun _ => 1) (INR 4)) (trace_minus xp (sb_model 4 xs xb a d)) <=
             trace_chi2 4 4 (bin_noise 4 (fun _ => 1) (INR 4)) (trace_minus xp (sb_model 4 xs xb b d))) ->
  a 0%nat <> 0 /\ 0 < a 1%nat /\ 0 < a 2%nat.
Proof.
  intros Hd H.
  assert (D : d = 0%Z \/ d = 1%Z \/ d = 2%Z \/ d = 3%Z) by lia.
  destruct D as [->|[->|[->| ->]]].
  - specialize (H (tr (-7 :: 18 :: 7 :: nil))). rewrite !x_chi2 in H by lia. cbv zeta in H. unfold tr in H. cbn [nth Z.eqb Pos.eqb] in H.
    destruct (sq4 (11 - a 1%nat - 0 * a 2%nat - a 0%nat) (a 1%nat - 18 + 1 * (a 2%nat - 7)) (a 1%nat - 18 + 2 * (a 2%nat - 7)) (a 1%nat - 18 + 3 * (a 2%nat - 7))) as [E1 [E2 [E3 E4]]]; lra.
  - specialize (H (tr (38/7 :: 153/14 :: 135/14 :: nil))). rewrite !x_chi2 in H by lia. cbv zeta in H. unfold tr in H. cbn [nth Z.eqb Pos.eqb] in H.
    destruct (sq4 (26 - a 1%nat - 1 * a 2%nat - a 0%nat) (a 1%nat - 153/14 + 0 * (a 2%nat - 135/14)) (a 1%nat - 153/14 + 2 * (a 2%nat - 135/14)) (a 1%nat - 153/14 + 3 * (a 2%nat - 135/14))) as [E1 [E2 [E3 E4]]]; lra.
  - specialize (H (tr (-13/7 :: 93/7 :: 65/7 :: nil))). rewrite !x_chi2 in H by lia. cbv zeta in H. unfold tr in H. cbn [nth Z.eqb Pos.eqb] in H.
    destruct (sq4 (30 - a 1%nat - 2 * a 2%nat - a 0%nat) (a 1%nat - 93/7 + 0 * (a 2%nat - 65/7)) (a 1%nat - 93/7 + 1 * (a 2%nat - 65/7)) (a 1%nat - 93/7 + 3 * (a 2%nat - 65/7))) as [E1 [E2 [E3 E4]]]; lra.
  - specialize (H (tr (-4/3 :: 77/6 :: 19/2 :: nil))). rewrite !x_chi2 in H by lia. cbv zeta in H. unfold tr in H. cbn [nth Z.eqb Pos.eqb] in H.
    destruct (sq4 (40 - a 1%nat - 3 * a 2%nat - a 0%nat) (a 1%nat - 77/6 + 0 * (a 2%nat - 19/2)) (a 1%nat - 77/6 + 1 * (a 2%nat - 19/2)) (a 1%nat - 77/6 + 2 * (a 2%nat - 19/2))) as [E1 [E2 [E3 E4]]]; lra.
Qed.

Lemma x_con pinv polyfit lf : pinv_ok pinv -> polyfit_ok polyfit ->
  exists st out r, of_nsmb_setup pinv 4 xs xb (fun _ => 1) (INR 4) = Ok st /\
    of_nsmb_con pinv polyfit st xp (INR 4) ((0 :: 1 :: 2 :: 3 :: nil) :: (1 :: 2 :: nil) :: nil)%Z lf (Some (1 :: 1 :: nil)) (SigArr (0 :: nil)) = Ok out /\
    c_tdel out = 1 / 4 /\ c_interp out = Some r.
Proof.
  intros Hp Hpf. assert (I4 : 0 < INR 4) by (simpl; lra).
  assert (E : of_nsmb_setup pinv 4 xs xb (fun _ => 1) (INR 4) = Ok (the_setup pinv 4 xs xb (fun _ => 1) (INR 4))) by (apply setup_ok; [lra|lia|simpl; lia]).
  assert (HA : forall d a, (0 <= d < Z.of_nat 4)%Z -> (forall b, trace_chi2 4 4 (bin_noise 4 (fun _ => 1) (INR 4)) (trace_minus xp (sb_model 4 xs xb a d)) <=
             trace_chi2 4 4 (bin_noise 4 (fun _ => 1) (INR 4)) (trace_minus xp (sb_model 4 xs xb b d))) -> forall i, (i < 1 + length xb)%nat -> a i <> 0 /\ obeys (nth i (0 :: 1 :: 1 :: nil) 0) (a i)).
  { intros d a Hd Ha i Hi. destruct (x_opt a d ltac:(lia) Ha) as [A0 [A1 A2]]. cbn [length xb Nat.add] in Hi.
    unfold obeys. destruct i as [|[|[|i]]]; cbn [nth]; [| | |lia]; (split; [lra|]; split; intros; lra). }
  destruct (con_succeeds pinv 4 xs xb (fun _ => 1) (INR 4) ltac:(lia) I4 ltac:(intros; lra) Hp polyfit xp (0 :: 1 :: 2 :: 3 :: nil)%Z ((1 :: 2 :: nil) :: nil)%Z lf 0 (1 :: 1 :: nil)) as [out Eo].
  - discriminate.
  - reflexivity.
  - exact HA.
  - discriminate.
  - intros j Hj. simpl in Hj. lia.
  - intros _. exists 1%Z, (tr (38/7 :: 153/14 :: 135/14 :: nil)). split; [simpl; tauto|]. intros a. rewrite !x_chi2 by lia. cbv zeta. unfold tr. cbn [nth Z.eqb Pos.eqb].
    assert (0 <= (11 - a 1%nat - 0 * a 2%nat - a 0%nat) ^ 2) by apply pow2_ge_0. assert (0 <= (a 1%nat - 18 + 1 * (a 2%nat - 7)) ^ 2) by apply pow2_ge_0. assert (0 <= (a 1%nat - 18 + 2 * (a 2%nat - 7)) ^ 2) by apply pow2_ge_0. assert (0 <= (a 1%nat - 18 + 3 * (a 2%nat - 7)) ^ 2) by apply pow2_ge_0. lra.
  - intros w' [<-|[]]. split; [simpl; lia|]. intros j Hj. simpl in Hj. lia.
  - assert (Hpsd : forall f, (1 <= f < 4)%nat -> 0 < (fun _ : nat => 1) f) by (intros; lra).
    destruct (con_inv pinv 4 xs xb (fun _ => 1) (INR 4) I4 polyfit xp _ lf _ _ out Eo eq_refl)
      as [bins [w [ind [z [HB [HW [Hin [HR [Hmin [ET [ER [EA [EZ [EI _]]]]]]]]]]]]]].
    simpl in HW. injection HW as <-.
    assert (BC : forall d, (d < 4)%nat -> snd (bins d) = trace_chi2 4 4 (bin_noise 4 (fun _ => 1) (INR 4)) (trace_minus xp (sb_model 4 xs xb (fst (bins d)) (Z.of_nat d)))).
    { intros d Hd. exact (bin_chi2 pinv 4 xs xb (fun _ => 1) (INR 4) ltac:(lia) I4 Hpsd Hp xp _ d _ Hd (HB d Hd)). }
    assert (BO : snd (bins 1%nat) <= 1 / 56).
    { rewrite BC by lia. apply Rle_trans with (trace_chi2 4 4 (bin_noise 4 (fun _ => 1) (INR 4)) (trace_minus xp (sb_model 4 xs xb (tr (38/7 :: 153/14 :: 135/14 :: nil)) 1%Z))).
      - rewrite !(trace_err 4 xs xb (fun _ => 1) (INR 4)) by (lia || assumption).
        apply (con_bin_allowed pinv 4 xs xb (fun _ => 1) (INR 4) ltac:(lia) I4 Hpsd Hp xp _ 1%nat _ (HB 1%nat ltac:(lia))).
        intros a Ha. apply (HA 1%Z a ltac:(lia)). intros b. rewrite !(trace_err 4 xs xb (fun _ => 1) (INR 4)) by (lia || assumption). apply Ha.
      - rewrite x_chi2 by lia. cbv zeta. unfold tr. cbn [nth Z.eqb Pos.eqb]. lra. }
    assert (B0 : 3 / 2 <= snd (bins 0%nat)).
    { rewrite BC by lia. change (Z.of_nat 0) with 0%Z. rewrite x_chi2 by lia. cbv zeta. cbn [Z.eqb Pos.eqb]. set (a := fst (bins 0%nat)).
      assert (0 <= (11 - a 1%nat - 0 * a 2%nat - a 0%nat) ^ 2) by apply pow2_ge_0. assert (0 <= (a 1%nat - 18 + 1 * (a 2%nat - 7)) ^ 2) by apply pow2_ge_0. assert (0 <= (a 1%nat - 18 + 2 * (a 2%nat - 7)) ^ 2) by apply pow2_ge_0. assert (0 <= (a 1%nat - 18 + 3 * (a 2%nat - 7)) ^ 2) by apply pow2_ge_0. lra. }
    assert (B2 : 32 / 7 <= snd (bins 2%nat)).
    { rewrite BC by lia. change (Z.of_nat 2) with 2%Z. rewrite x_chi2 by lia. cbv zeta. cbn [Z.eqb Pos.eqb]. set (a := fst (bins 2%nat)).
      assert (0 <= (30 - a 1%nat - 2 * a 2%nat - a 0%nat) ^ 2) by apply pow2_ge_0. assert (0 <= (a 1%nat - 93/7 + 0 * (a 2%nat - 65/7)) ^ 2) by apply pow2_ge_0. assert (0 <= (a 1%nat - 93/7 + 1 * (a 2%nat - 65/7)) ^ 2) by apply pow2_ge_0. assert (0 <= (a 1%nat - 93/7 + 3 * (a 2%nat - 65/7)) ^ 2) by apply pow2_ge_0. lra. }
    assert (B3 : 121 / 24 <= snd (bins 3%nat)).
    { rewrite BC by lia. change (Z.of_nat 3) with 3%Z. rewrite x_chi2 by lia. cbv zeta. cbn [Z.eqb Pos.eqb]. set (a := fst (bins 3%nat)).
      assert (0 <= (40 - a 1%nat - 3 * a 2%nat - a 0%nat) ^ 2) by apply pow2_ge_0. assert (0 <= (a 1%nat - 77/6 + 0 * (a 2%nat - 19/2)) ^ 2) by apply pow2_ge_0. assert (0 <= (a 1%nat - 77/6 + 1 * (a 2%nat - 19/2)) ^ 2) by apply pow2_ge_0. assert (0 <= (a 1%nat - 77/6 + 2 * (a 2%nat - 19/2)) ^ 2) by apply pow2_ge_0. lra. }
    assert (I1 : ind = 1%Z).
    { specialize (Hmin 1%Z ltac:(simpl; tauto)). change (col 4 1) with 1%nat in Hmin. simpl in Hin.
      destruct Hin as [<-|[<-|[<-|[<-|[]]]]]; [exfalso; change (col 4 0) with 0%nat in Hmin; lra|reflexivity|exfalso; change (col 4 2) with 2%nat in Hmin; lra|exfalso; change (col 4 3) with 3%nat in Hmin; lra]. }
    subst ind.
    destruct (interp_some polyfit 1 4 (INR 4) _ _ z Hpf I4 ltac:(lia) ltac:(lia) EZ) as [[[t c] a] ->].
    + change (snd (bins 1%nat) <= snd (bins 0%nat)). lra.
    + change (snd (bins 1%nat) < snd (bins 2%nat)). lra.
    + cbv zeta in EI. eexists _, out, _. split; [exact E|]. split; [exact Eo|]. split; [|exact EI].
      rewrite ET. unfold tdel_of. simpl. lra.
Qed.
