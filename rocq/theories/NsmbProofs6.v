(** * Failures of the N-template fits on concrete inputs *)
From Coq Require Import Reals ZArith List Lia Lra Bool.
From Verif Require Import Base ListLemmas Dft WindowModel WindowProofs OFFreeModel OFProofs8 NsmbModel NsmbSpec NsmbProofs1 NsmbProofs2 NsmbProofs3 NsmbProofs4 NsmbProofs5.
From Coquelicot Require Import Coquelicot.
Import ListNotations.
Local Open Scope R_scope.

Lemma getPt_ok pinv st d mask : length (indices (nsb st) mask) <> 1%nat -> exists r, of_nsmb_getPt pinv st d mask = Ok r.
Proof. intros H. unfold of_nsmb_getPt. destruct (Nat.eqb_spec (length (indices (nsb st) mask)) 1); [contradiction|]. eauto. Qed.
Lemma getPt_one pinv st d mask : length (indices (nsb st) mask) = 1%nat -> of_nsmb_getPt pinv st d mask = Err IndexError.
Proof. intros H. unfold of_nsmb_getPt. now rewrite H. Qed.
Lemma refit_ok pinv st d q mask : length (indices (nsb st) mask) <> 1%nat -> exists r, refit pinv st d q mask = Ok r.
Proof. intros H. unfold refit. destruct (getPt_ok pinv st d mask H) as [[[idx Pt] iPt] ->]. cbn [bind]. eauto. Qed.

Lemma dis_t a c : a = 0 \/ (c = 1 /\ a < 0) \/ (c = -1 /\ 0 < a) -> disallowed a c = true.
Proof. apply disallowed_spec. Qed.
Lemma dis_f a c : a <> 0 /\ ~ (c = 1 /\ a < 0) /\ ~ (c = -1 /\ 0 < a) -> disallowed a c = false.
Proof. intros [H1 [H2 H3]]. apply not_true_is_false. intros H. apply disallowed_spec in H. tauto. Qed.
Ltac dis := first [apply dis_f; repeat split; lra | apply dis_t; lra].

Section Flat.
Variables (pinv : nat -> (nat -> nat -> R) -> nat -> nat -> R) (bs : list (nat -> R)) (pulse con : nat -> R) (d : nat).
Hypothesis Hpinv : pinv_ok pinv.
Let s : nat -> R := fun _ => 1.
Let psd : nat -> R := fun _ => 1.
Let st := the_setup pinv 4 s bs psd (INR 4).
Let K := (1 + length bs)%nat.
Definition G4 (i j : nat) : R := rsum 4 (fun t => sb_time s bs i t * sb_time s bs j t).
Definition Q4 (i : nat) : R := rsum 4 (fun t => sb_time s bs i t * pulse t).

Lemma flat4 : (2 <= 4)%nat /\ 0 < INR 4 /\ (forall f, (1 <= f < 4)%nat -> 0 < psd f).
Proof. split; [lia|]. split; [simpl; lra|]. intros; unfold psd; lra. Qed.

(** The equations of a refit *)
Lemma refit4 mask r : refit pinv st d (qt st pulse d) mask = Ok r ->
  (forall i, (i < K)%nat -> mask i = true -> rsum K (fun j => G4 i j * fst r j) = Q4 i) /\
  (forall i, (i < K)%nat -> mask i = false -> fst r i = 0).
Proof.
  intros H. destruct flat4 as [H1 [H2 H3]].
  destruct (refit_spec pinv 4 s bs psd (INR 4) H1 H2 H3 Hpinv pulse d mask r H) as [F1 [F2 _]].
  split.
  - intros i Hi Hm. specialize (F1 i Hi Hm). unfold psd, s in F1. rewrite nq_flat in F1 by assumption. unfold mv in F1.
    rewrite (rsum_ext _ _ (fun j => (G4 i j * fst r j) * / INR 4)) in F1.
    + rewrite rsum_scal_r in F1. apply (Rmult_eq_reg_r (/ INR 4)); [exact F1|]. apply Rinv_neq_0_compat. lra.
    + intros j Hj. rewrite gram_flat by assumption. unfold G4, s, Rdiv. ring.
  - intros i Hi Hm. apply F2; [exact Hi|]. now rewrite Hm.
Qed.

(** The equations of the unconstrained solution and its gradient *)
Lemma con_start r : con_bin pinv st (qt st pulse) (chi2f st 4 (fftn 4 pulse)) con d = r -> length bs <> 0%nat ->
  exists Pt a, (forall i, (i < K)%nat -> rsum K (fun j => G4 i j * a j) = Q4 i) /\
    (forall b i, (i < K)%nat -> neggrad K Pt b a i = (Q4 i - rsum K (fun j => G4 i j * b j)) / INR 4) /\
    r = (let m1 := float_mask K Pt a a con in
         do f1 <- refit pinv st d (qt st pulse d) m1;
         let m2 := float_mask K Pt a (fst f1) con in
         do f2 <- (if mask_eq K m1 m2 then Ok f1 else refit pinv st d (qt st pulse d) m2);
         let m3 := fun i => negb (disallowed (fst f2 i) (con i)) in
         do f3 <- (if mask_eq K m2 m3 then Ok f2 else refit pinv st d (qt st pulse d) m3);
         Ok (fst f3, chi2f st 4 (fftn 4 pulse) - snd f3)).
Proof.
  intros H HB. destruct flat4 as [H1 [H2 H3]].
  assert (A := all_spec pinv 4 s bs psd (INR 4) H1 H2 H3 Hpinv d). fold st K in A.
  unfold con_bin in H. change (nsb st) with K in H.
  destruct (bitmask_all st eq_refl) as [all [EA [EI _]]]. change (nsb st) with K in EA, EI.
  rewrite EA in A, H. cbn [bind] in H.
  destruct (getPt_ok pinv st d all) as [[[idx Pt] iPt] EP].
  { change (nsb st) with K. rewrite EI, seq_length. unfold K. lia. }
  rewrite EP in H. cbn [bind] in H. destruct (A idx Pt iPt EP) as [EL [PG SA]]. specialize (SA pulse).
  assert (EQa : forall i, (i < K)%nat -> rsum K (fun j => G4 i j * mv K iPt (qt st pulse d) j) = Q4 i).
  { intros i Hi. specialize (SA i Hi). unfold psd, s in SA. rewrite nq_flat in SA by assumption. unfold mv at 1 in SA.
    rewrite (rsum_ext _ _ (fun j => (G4 i j * mv K iPt (qt st pulse d) j) * / INR 4)) in SA.
    - rewrite rsum_scal_r in SA. apply (Rmult_eq_reg_r (/ INR 4)); [exact SA|]. apply Rinv_neq_0_compat. lra.
    - intros j Hj. rewrite PG by assumption. unfold psd, s. rewrite gram_flat by assumption. unfold G4, s, Rdiv. ring. }
  exists Pt, (mv K iPt (qt st pulse d)). split; [exact EQa|]. split.
  - intros b i Hi. unfold neggrad. rewrite mv_sub. rewrite SA by assumption. unfold psd, s. rewrite nq_flat by assumption.
    unfold mv at 1. rewrite (rsum_ext _ _ (fun j => (G4 i j * b j) * / INR 4)).
    + rewrite rsum_scal_r. unfold Q4, s, Rdiv. ring.
    + intros j Hj. rewrite PG by assumption. unfold psd, s. rewrite gram_flat by assumption. unfold G4, s, Rdiv. ring.
  - symmetry. exact H.
Qed.
End Flat.

Definition tr (l : list R) (t : nat) : R := nth t l 0.

(** Sign-violation witness *)
Definition wb : list (nat -> R) := tr (0 :: 2 :: 2 :: 2 :: nil) :: tr (-2 :: 1 :: 1 :: 2 :: nil) :: tr (2 :: -1 :: 1 :: -1 :: nil) :: nil.
Definition wp : nat -> R := tr (-2 :: -2 :: -1 :: -3 :: nil).
Definition wc : list R := 1 :: 0 :: -1 :: 1 :: nil.

Ltac eqs H := unfold G4, Q4, wb, wp, tr in H; cbn [rsum length Nat.add sb_time nth] in H.

Lemma fmask bs pulse K Pt a cur con (dp : nat -> bool) i :
  (forall b i, (i < K)%nat -> neggrad K Pt b a i = (Q4 bs pulse i - rsum K (fun j => G4 bs i j * b j)) / INR 4) ->
  (forall j, (j < K)%nat -> disallowed (cur j) (con j) = dp j) -> (i < K)%nat ->
  float_mask K Pt a cur con i = negb (dp i && disallowed ((Q4 bs pulse i - rsum K (fun j => G4 bs i j * (if dp j then 0 else cur j))) / 4) (con i)).
Proof.
  intros GR HD Hi. unfold float_mask. rewrite GR, HD by assumption. replace (INR 4) with 4 by (simpl; lra).
  do 4 f_equal. f_equal. apply rsum_ext. intros j Hj. now rewrite HD.
Qed.
Ltac bits := unfold G4, Q4, wb, wp, wc, tr; cbn [rsum length Nat.add sb_time nth Nat.eqb negb andb orb].
Ltac three H := let f := fresh in intros f Hf; do 4 (destruct f as [|f]; [cbn [wc nth Nat.eqb negb orb]; dis|]); lia.

Lemma wit_bin pinv d : pinv_ok pinv ->
  let st := the_setup pinv 4 (fun _ => 1) wb (fun _ => 1) (INR 4) in
  exists r, con_bin pinv st (qt st wp) (chi2f st 4 (fftn 4 wp)) (fun i => nth i wc 0) d = Ok r /\
    fst r 0%nat = 0 /\ fst r 1%nat = -21/20 /\ fst r 2%nat = 0 /\ fst r 3%nat = -3/10.
Proof.
  intros Hp st. destruct (con_start pinv wb wp (fun i => nth i wc 0) d Hp _ eq_refl) as [Pt [a [EA [GR H]]]]; [discriminate|].
  fold st in H. rewrite H. clear H.
  assert (A0 := EA 0%nat ltac:(cbn; lia)). assert (A1 := EA 1%nat ltac:(cbn; lia)). assert (A2 := EA 2%nat ltac:(cbn; lia)). assert (A3 := EA 3%nat ltac:(cbn; lia)).
  eqs A0; eqs A1; eqs A2; eqs A3.
  assert (V0 : a 0%nat = -5) by lra. assert (V1 : a 1%nat = 9/4) by lra. assert (V2 : a 2%nat = -1) by lra. assert (V3 : a 3%nat = 1/2) by lra.
  clear EA A0 A1 A2 A3.
  change (1 + length wb)%nat with 4%nat in *. cbv zeta.
  (* first mask *)
  set (m1 := float_mask 4 Pt a a (fun i => nth i wc 0)).
  assert (D0 : forall i, (i < 4)%nat -> disallowed (a i) (nth i wc 0) = (i =? 0)%nat) by three tt.
  assert (M1 : m1 0%nat = false /\ m1 1%nat = true /\ m1 2%nat = true /\ m1 3%nat = true).
  { unfold m1. repeat split; rewrite (fmask wb wp 4 Pt a a _ _ _ GR D0) by lia; try reflexivity.
    apply negb_false_iff. bits. dis. }
  destruct M1 as [M10 [M11 [M12 M13]]]. clearbody m1. clear D0.
  destruct (refit_ok pinv st d (qt st wp d) m1) as [f1 E1].
  { unfold indices. cbn [nsb st the_setup s_nb length wb ns Nat.add seq filter]. rewrite M10, M11, M12, M13. cbn. lia. }
  rewrite E1. cbn [bind].
  destruct (refit4 pinv wb wp d Hp m1 f1 E1) as [R1 Z1]. change (1 + length wb)%nat with 4%nat in *.
  assert (U0 := Z1 0%nat ltac:(lia) M10). assert (A1 := R1 1%nat ltac:(lia) M11). assert (A2 := R1 2%nat ltac:(lia) M12). assert (A3 := R1 3%nat ltac:(lia) M13).
  eqs A1; eqs A2; eqs A3. set (u := fst f1) in *.
  assert (U1 : u 1%nat = -47/28) by lra. assert (U2 : u 2%nat = 8/7) by lra. assert (U3 : u 3%nat = 1/2) by lra.
  clear R1 Z1 A1 A2 A3 E1.
  (* second mask *)
  set (m2 := float_mask 4 Pt a u (fun i => nth i wc 0)).
  assert (D0 : forall i, (i < 4)%nat -> disallowed (u i) (nth i wc 0) = ((i =? 0)%nat || (i =? 2)%nat)) by three tt.
  assert (M2 : m2 0%nat = true /\ m2 1%nat = true /\ m2 2%nat = false /\ m2 3%nat = true).
  { unfold m2. repeat split; rewrite (fmask wb wp 4 Pt a u _ _ _ GR D0) by lia; try reflexivity.
    - apply negb_true_iff. bits. dis.
    - apply negb_false_iff. bits. dis. }
  destruct M2 as [M20 [M21 [M22 M23]]]. clearbody m2. clear D0.
  replace (mask_eq 4 m1 m2) with false by (unfold mask_eq; cbn [seq forallb]; rewrite M10, M20; reflexivity).
  destruct (refit_ok pinv st d (qt st wp d) m2) as [f2 E2].
  { unfold indices. cbn [nsb st the_setup s_nb length wb ns Nat.add seq filter]. rewrite M20, M21, M22, M23. cbn. lia. }
  rewrite E2. cbn [bind].
  destruct (refit4 pinv wb wp d Hp m2 f2 E2) as [R1 Z1]. change (1 + length wb)%nat with 4%nat in *.
  assert (W2 := Z1 2%nat ltac:(lia) M22). assert (A1 := R1 0%nat ltac:(lia) M20). assert (A2 := R1 1%nat ltac:(lia) M21). assert (A3 := R1 3%nat ltac:(lia) M23).
  eqs A1; eqs A2; eqs A3. set (w := fst f2) in *.
  assert (W0 : w 0%nat = -7/2) by lra. assert (W1 : w 1%nat = 7/8) by lra. assert (W3 : w 3%nat = 3/4) by lra.
  clear R1 Z1 A1 A2 A3 E2.
  (* third mask *)
  set (m3 := fun i => negb (disallowed (w i) (nth i wc 0))).
  assert (D0 : forall i, (i < 4)%nat -> disallowed (w i) (nth i wc 0) = ((i =? 0)%nat || (i =? 2)%nat)) by three tt.
  assert (M3 : m3 0%nat = false /\ m3 1%nat = true /\ m3 2%nat = false /\ m3 3%nat = true).
  { unfold m3. rewrite !D0 by lia. repeat split. }
  destruct M3 as [M30 [M31 [M32 M33]]]. clearbody m3. clear D0.
  replace (mask_eq 4 m2 m3) with false by (unfold mask_eq; cbn [seq forallb]; rewrite M30, M20; reflexivity).
  destruct (refit_ok pinv st d (qt st wp d) m3) as [f3 E3].
  { unfold indices. cbn [nsb st the_setup s_nb length wb ns Nat.add seq filter]. rewrite M30, M31, M32, M33. cbn. lia. }
  rewrite E3. cbn [bind]. eexists. split; [reflexivity|]. cbn [fst].
  destruct (refit4 pinv wb wp d Hp m3 f3 E3) as [R1 Z1]. change (1 + length wb)%nat with 4%nat in *.
  assert (X0 := Z1 0%nat ltac:(lia) M30). assert (X2 := Z1 2%nat ltac:(lia) M32). assert (A2 := R1 1%nat ltac:(lia) M31). assert (A3 := R1 3%nat ltac:(lia) M33).
  eqs A2; eqs A3. repeat split; lra.
Qed.
