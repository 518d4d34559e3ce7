(** * The constrained fit: extra windows and whole calls on concrete inputs *)
From Coq Require Import Reals ZArith List Lia Lra Bool.
From Verif Require Import Base ListLemmas Dft WindowModel WindowProofs OFFreeModel OFProofs8 NsmbModel NsmbSpec NsmbProofs1 NsmbProofs2 NsmbProofs3 NsmbProofs4 NsmbProofs5 NsmbProofs6 NsmbProofs7.
From Coquelicot Require Import Coquelicot.
Import ListNotations.
Local Open Scope R_scope.

Lemma cwindow_spec polyfit nt fs (chi sig : nat -> R) w a c t o : (0 < nt)%nat -> cwindow polyfit nt fs chi sig w = Ok ((a, c, t), o) ->
  exists i, In i w /\ (forall j, In j w -> (- Z.of_nat nt <= j < Z.of_nat nt)%Z) /\ t = IZR i / fs /\
    a = rolled nt sig (col nt i) /\ c = rolled nt chi (col nt i) /\ (forall j, In j w -> c <= rolled nt chi (col nt j)) /\
    (forall r, o = Some r -> (exists n, (S n < length w)%nat /\ nth (S n) w 0%Z = i /\ (S (S n) < length w)%nat) \/ r = (a, c, t)).
Proof.
  intros Hn H. unfold cwindow in H.
  set (chir := mk nt (rolled nt chi)) in H. set (sigr := mk nt (rolled nt sig)) in H.
  assert (H' : exists vals b i, WindowModel.take chir w = Ok vals /\ argmin vals = Ok b /\ pyindex w (Z.of_nat b) = Ok i /\
     exists a', pyindex sigr i = Ok a' /\
     (let r := (a', nth b vals 0, IZR i * (1 / fs)) in
      if ((b =? 0)%nat || (b =? length w - 1)%nat) then Ok (r, Some r)
      else
        do av <- WindowModel.take sigr w;
        do z <- interpchi2 polyfit (Z.of_nat b) vals av (map (fun j => IZR j * (1 / fs)) w);
        Ok (r, match z with Some (t, c, a) => Some (a, c, t) | None => None end)) = Ok ((a, c, t), o)).
  { destruct w as [|i [|j w]].
    - simpl in H. discriminate.
    - destruct (pyindex chir i); discriminate.
    - destruct (WindowModel.take chir _) as [vals|]; [|discriminate]. cbn [bind] in H.
      destruct (argmin vals) as [b|] eqn:EB; [|discriminate]. cbn [bind] in H.
      destruct (pyindex (i :: j :: w) _) as [i'|] eqn:EI; [|discriminate]. cbn [bind] in H.
      destruct (pyindex sigr i') as [a'|] eqn:EA; [|discriminate]. cbn [bind] in H.
      exists vals, b, i'. split; [reflexivity|]. split; [exact EB|]. split; [exact EI|]. exists a'. split; [exact EA|exact H]. }
  clear H. destruct H' as [vals [b [i [ET [EB [EI [a' [EA H]]]]]]]].
  assert (HR := take_mk_inv _ _ _ _ ET). unfold chir in ET. rewrite take_mk in ET by assumption.
  assert (EV : vals = map (fun i => rolled nt chi (col nt i)) w) by (injection ET as <-; reflexivity). subst vals. clear ET.
  destruct (argmin_spec _ _ EB) as [Hb Hm]. rewrite map_length in Hb, Hm.
  assert (EI' : i = nth b w 0%Z).
  { rewrite (pyindex_in w (Z.of_nat b) 0%Z) in EI by lia. rewrite Nat2Z.id in EI. now injection EI as <-. }
  assert (Hin : In i w) by (rewrite EI'; now apply nth_In).
  unfold sigr in EA. rewrite pyindex_mk in EA by (now apply HR).
  assert (Ea' : a' = rolled nt sig (col nt i)) by (now injection EA as <-).
  assert (NV : forall n, (n < length w)%nat -> nth n (map (fun i => rolled nt chi (col nt i)) w) 0 = rolled nt chi (col nt (nth n w 0%Z))).
  { intros n Hl. rewrite (nth_indep _ 0 (rolled nt chi (col nt 0))) by (now rewrite map_length). now rewrite (map_nth (fun i => rolled nt chi (col nt i)) w 0%Z n). }
  rewrite (NV b Hb), <- EI' in H. cbv zeta in H.
  assert (HRES : a = a' /\ c = rolled nt chi (col nt i) /\ t = IZR i * (1 / fs) /\
    (forall r, o = Some r -> ((b =? 0)%nat || (b =? length w - 1)%nat) = false \/ r = (a, c, t))).
  { destruct ((b =? 0)%nat || (b =? length w - 1)%nat).
    - injection H as <- <- <- <-. repeat split. intros r Er. right. now injection Er.
    - destruct (WindowModel.take sigr w); [|discriminate]. cbn [bind] in H. destruct (interpchi2 _ _ _ _ _); [|discriminate]. cbn [bind] in H.
      injection H as <- <- <- <-. repeat split. now left. }
  destruct HRES as [-> [-> [-> HO]]]. exists i. split; [exact Hin|]. split; [exact HR|]. split; [unfold Rdiv; ring|]. split; [exact Ea'|]. split; [reflexivity|].
  split.
  - intros j Hj. destruct (In_nth w j 0%Z Hj) as [n [Hl <-]]. destruct (Hm n Hl) as [L _]. rewrite !NV in L by assumption. now rewrite EI'.
  - intros r Er. destruct (HO r Er) as [HF|HF]; [left|now right]. apply orb_false_elim in HF. destruct HF as [F1 F2].
    apply Nat.eqb_neq in F1, F2. exists (b - 1)%nat. replace (S (b - 1)) with b by lia. repeat split; [exact Hb|now symmetry|lia].
Qed.

Lemma rolled_in nt f i : (0 < nt)%nat -> (- Z.of_nat nt <= i < Z.of_nat nt)%Z ->
  exists d, (d < nt)%nat /\ rolled nt f (col nt i) = f d /\ (Z.of_nat d mod Z.of_nat nt = (i - Z.of_nat nt / 2) mod Z.of_nat nt)%Z.
Proof.
  intros Hn H. unfold rolled. exists (Z.to_nat ((Z.of_nat (col nt i) - Z.of_nat nt / 2) mod Z.of_nat nt)).
  assert (B := Z.mod_pos_bound (Z.of_nat (col nt i) - Z.of_nat nt / 2) (Z.of_nat nt) ltac:(lia)).
  split; [lia|]. split; [reflexivity|]. rewrite Z2Nat.id by lia. rewrite Z.mod_mod by lia.
  rewrite Zminus_mod, col_mod, <- Zminus_mod by assumption. reflexivity.
Qed.

Section Con.
Variables (pinv : nat -> (nat -> nat -> R) -> nat -> nat -> R) (nt : nat) (s : nat -> R) (bs : list (nat -> R)) (psd : nat -> R) (fs : R).
Hypothesis Hnt : (2 <= nt)%nat.
Hypothesis Hfs : 0 < fs.
Hypothesis Hpsd : forall f, (1 <= f < nt)%nat -> 0 < psd f.
Hypothesis Hpinv : pinv_ok pinv.
Let st := the_setup pinv nt s bs psd fs.
Let K := (1 + length bs)%nat.

Lemma sb_model_mod a d d' t : (d mod Z.of_nat nt = d' mod Z.of_nat nt)%Z -> sb_model nt s bs a d t = sb_model nt s bs a d' t.
Proof. intros H. unfold sb_model. do 4 f_equal. rewrite Zminus_mod, H, <- Zminus_mod. reflexivity. Qed.

Lemma con_windows polyfit pulse windows lf bkgcon sig out n w :
  of_nsmb_con pinv polyfit st pulse fs windows lf bkgcon sig = Ok out -> length (con_list bs sig bkgcon) = K ->
  nth_error windows (S n) = Some w ->
  exists a c t o i b, nth_error (c_windows out) n = Some ((a, c, t), o) /\ In i w /\ t = IZR i / fs /\ b O = a /\
    c = trace_chi2 nt nt (bin_noise nt psd fs) (trace_minus pulse (sb_model nt s bs b (i - Z.of_nat nt / 2))) /\
    ((forall k, (k < K)%nat -> nth k (con_list bs sig bkgcon) 0 <> 1 /\ nth k (con_list bs sig bkgcon) 0 <> -1) ->
      forall j b', In j w -> c <= trace_chi2 nt nt (bin_noise nt psd fs) (trace_minus pulse (sb_model nt s bs b' (j - Z.of_nat nt / 2)))).
Proof.
  intros H HL HW.
  destruct (con_inv pinv nt s bs psd fs Hfs _ _ _ _ _ _ _ H HL) as [bins [w0 [ind [z [HB [_ [_ [_ [_ [_ [_ [_ [_ [_ ES]]]]]]]]]]]]]].
  destruct windows as [|w1 ws]; [discriminate|]. cbn [tl] in ES. simpl in HW.
  destruct (sequence_map_ok _ _ _ ([] : list Z) ((0, 0, 0), None) ES) as [SL SN].
  assert (Hn : (n < length ws)%nat) by (apply nth_error_Some; congruence).
  specialize (SN n Hn). rewrite (nth_error_nth ws n _ HW) in SN.
  destruct (nth n (c_windows out) (0, 0, 0, None)) as [[[a c] t] o] eqn:EN.
  assert (Hn0 : (0 < nt)%nat) by lia.
  destruct (cwindow_spec _ _ _ _ _ _ _ _ _ _ Hn0 SN) as [i [Hi [HR [Ht [Ha [Hc [Hmin _]]]]]]].
  destruct (rolled_in nt (fun d => fst (bins d) O) i Hn0 (HR i Hi)) as [d [Hd [E1 M1]]].
  assert (Ec : c = snd (bins d)).
  { rewrite Hc. unfold rolled in *. cbn beta in *.
    assert (B := Z.mod_pos_bound (Z.of_nat (col nt i) - Z.of_nat nt / 2) (Z.of_nat nt) ltac:(lia)).
    assert (Ed : Z.to_nat ((Z.of_nat (col nt i) - Z.of_nat nt / 2) mod Z.of_nat nt) = d).
    { rewrite Z.mod_small in M1 by lia. apply Nat2Z.inj. rewrite Z2Nat.id by lia. rewrite M1.
      rewrite Zminus_mod, col_mod, <- Zminus_mod by (now apply HR). reflexivity. }
    now rewrite Ed. }
  exists a, c, t, o, i, (fst (bins d)).
  split; [rewrite (nth_error_nth' _ (0, 0, 0, None)) by lia; now rewrite EN|].
  split; [exact Hi|]. split; [exact Ht|]. split; [now rewrite Ha, E1|]. split.
  - rewrite Ec. rewrite (bin_chi2 pinv nt s bs psd fs Hnt Hfs Hpsd Hpinv pulse _ d _ Hd (HB d Hd)).
    apply trace_chi2_ext. intros x Hx. unfold trace_minus. f_equal. now apply sb_model_mod.
  - intros NC j b' Hj. apply Rle_trans with (1 := Hmin j Hj).
    destruct (rolled_in nt (fun d => snd (bins d)) j Hn0 (HR j Hj)) as [d' [Hd' [E2 M2]]]. rewrite E2.
    rewrite (bin_chi2 pinv nt s bs psd fs Hnt Hfs Hpsd Hpinv pulse _ d' _ Hd' (HB d' Hd')).
    assert (TE : forall b, trace_chi2 nt nt (bin_noise nt psd fs) (trace_minus pulse (sb_model nt s bs b (j - Z.of_nat nt / 2))) =
       trace_chi2 nt nt (bin_noise nt psd fs) (trace_minus pulse (sb_model nt s bs b (Z.of_nat d')))).
    { intros b. apply trace_chi2_ext. intros x Hx. unfold trace_minus. f_equal. apply sb_model_mod. now symmetry. }
    rewrite TE. rewrite !trace_err by assumption.
    destruct (con_bin_spec pinv nt s bs psd fs Hnt Hfs Hpsd Hpinv pulse _ d' _ (HB d' Hd')) as [keep [_ FU]]. now apply FU.
Qed.
End Con.

(** ** Whole calls *)
Lemma wit_con pinv polyfit lf : pinv_ok pinv ->
  exists st out, of_nsmb_setup pinv 4 (fun _ => 1) wb (fun _ => 1) (INR 4) = Ok st /\
    of_nsmb_con pinv polyfit st wp (INR 4) ((1%Z :: nil) :: nil) lf (Some (0 :: -1 :: 1 :: nil)) (SigArr (1 :: nil)) = Ok out /\
    c_amp out 3%nat = -3/10.
Proof.
  intros Hp. set (st := the_setup pinv 4 (fun _ => 1) wb (fun _ => 1) (INR 4)).
  assert (I4 : 0 < INR 4) by (simpl; lra).
  exists st. assert (HB : forall d, (d < 4)%nat -> exists r, con_bin pinv st (qt st wp) (chi2f st 4 (fftn 4 wp)) (fun i => nth i wc 0) d = Ok r /\ fst r 3%nat = -3/10).
  { intros d Hd. destruct (wit_bin pinv d Hp) as [r [E [_ [_ [_ V]]]]]. exists r. split; [exact E|exact V]. }
  unfold of_nsmb_con. rewrite Reqb_false by lra. change (s_nt st) with 4%nat. change (nsb st) with 4%nat. cbn [bind].
  unfold con_of. change (length ((1 :: nil) ++ 0 :: -1 :: 1 :: nil)) with 4%nat. cbn [Nat.eqb bind].
  change ((1 :: nil) ++ 0 :: -1 :: 1 :: nil) with wc.
  destruct (sequence_map_all (con_bin pinv st (qt st wp) (chi2f st 4 (fftn 4 wp)) (fun i => nth i wc 0)) (seq 0 4)) as [bins EB].
  { intros d Hd. apply in_seq in Hd. destruct (HB d) as [r [E _]]; [lia|]. eauto. }
  rewrite EB. cbn [bind pyindex length Z.of_nat Z.ltb Z.compare nth_error Z.to_nat].
  destruct (sequence_map_ok _ _ _ O (fun _ => 0, 0) EB) as [_ BN]. rewrite seq_length in BN.
  match goal with |- context [window_min (mk 4 ?g) ?w] => destruct (window_min_ok 4 g w) as [[v ind] Em] end; [discriminate|intros j [<-|[]]; lia|].
  rewrite Em. cbn [bind snd]. destruct (window_min_spec _ _ _ _ _ Em) as [[Hi|[]] _]. subst ind.
  match goal with |- context [interpchi2 polyfit 1 (mk 4 ?c) (mk 4 ?a) (mk 4 ?t)] => destruct (interp_ok polyfit 1 4 c a t ltac:(lia)) as [z Ez] end.
  rewrite Ez. cbn [bind tl map sequence].
  destruct (bitmask_all st eq_refl) as [all [EA [EI _]]]. change (nsb st) with 4%nat in EA, EI.
  match goal with |- context [bitmask st ?z] => change z with (2 ^ Z.of_nat 4 - 1)%Z end. rewrite EA. cbn [bind].
  destruct (getPt_ok pinv st (col 4 1) all) as [[[idx Pt] iPt] EP]; [change (nsb st) with 4%nat; rewrite EI; discriminate|].
  rewrite EP. cbn [bind]. eexists. split; [apply setup_ok; [lra|lia|discriminate]|]. split; [reflexivity|]. cbn [c_amp].
  destruct (HB 1%nat ltac:(lia)) as [r [E V]]. specialize (BN 1%nat ltac:(lia)). cbn [seq nth] in BN. rewrite E in BN.
  change (col 4 1) with 1%nat. assert (ER : r = nth 1 bins (fun _ => 0, 0)) by (now injection BN). now rewrite <- ER.
Qed.

(** Exactly one amplitude stays *)
Definition ob : list (nat -> R) := tr (1 :: -1 :: 1 :: -1 :: nil) :: tr (1 :: 1 :: -1 :: -1 :: nil) :: nil.
Definition op : nat -> R := tr (-1 :: 1 :: 1 :: 3 :: nil).
Ltac oeqs H := unfold G4, Q4, ob, op, tr in H; cbn [rsum length Nat.add sb_time nth] in H.
Lemma one_bin pinv d : pinv_ok pinv ->
  let st := the_setup pinv 4 (fun _ => 1) ob (fun _ => 1) (INR 4) in
  con_bin pinv st (qt st op) (chi2f st 4 (fftn 4 op)) (fun i => nth i (1 :: 1 :: 1 :: nil) 0) d = Err IndexError.
Proof.
  intros Hp st. destruct (con_start pinv ob op (fun i => nth i (1 :: 1 :: 1 :: nil) 0) d Hp _ eq_refl) as [Pt [a [EA [GR H]]]]; [discriminate|].
  fold st in H. rewrite H. clear H.
  assert (A0 := EA 0%nat ltac:(cbn; lia)). assert (A1 := EA 1%nat ltac:(cbn; lia)). assert (A2 := EA 2%nat ltac:(cbn; lia)).
  oeqs A0; oeqs A1; oeqs A2.
  assert (V0 : a 0%nat = 1) by lra. assert (V1 : a 1%nat = -1) by lra. assert (V2 : a 2%nat = -1) by lra.
  clear EA A0 A1 A2. change (1 + length ob)%nat with 3%nat in *. cbv zeta.
  set (m1 := float_mask 3 Pt a a (fun i => nth i (1 :: 1 :: 1 :: nil) 0)).
  assert (D0 : forall i, (i < 3)%nat -> disallowed (a i) (nth i (1 :: 1 :: 1 :: nil) 0) = negb (i =? 0)%nat).
  { intros [|[|[|i]]] Hi; try lia; cbn [nth Nat.eqb negb]; dis. }
  assert (M1 : m1 0%nat = true /\ m1 1%nat = false /\ m1 2%nat = false).
  { unfold m1. repeat split; rewrite (fmask ob op 3 Pt a a _ _ _ GR D0) by lia; try reflexivity;
    apply negb_false_iff; unfold G4, Q4, ob, op, tr; cbn [rsum length Nat.add sb_time nth Nat.eqb negb andb orb]; dis. }
  destruct M1 as [M10 [M11 M12]]. unfold refit at 1. rewrite getPt_one; [reflexivity|].
  unfold indices. cbn [nsb st the_setup s_nb length ob ns Nat.add seq filter]. rewrite M10, M11, M12. reflexivity.
Qed.
Lemma one_con pinv polyfit lf windows : pinv_ok pinv ->
  exists st, of_nsmb_setup pinv 4 (fun _ => 1) ob (fun _ => 1) (INR 4) = Ok st /\
    of_nsmb_con pinv polyfit st op (INR 4) windows lf (Some (1 :: 1 :: nil)) (SigArr (1 :: nil)) = Err IndexError.
Proof.
  intros Hp. assert (I4 : 0 < INR 4) by (simpl; lra). eexists. split; [apply setup_ok; [lra|lia|discriminate]|].
  unfold of_nsmb_con. rewrite Reqb_false by lra. cbn [bind]. unfold con_of.
  change (nsb (the_setup pinv 4 (fun _ => 1) ob (fun _ => 1) (INR 4))) with 3%nat. change (s_nt (the_setup pinv 4 (fun _ => 1) ob (fun _ => 1) (INR 4))) with 4%nat.
  change (length ((1 :: nil) ++ 1 :: 1 :: nil)) with 3%nat. cbn [Nat.eqb bind seq map sequence].
  assert (E := one_bin pinv 0 Hp). cbv zeta in E. change ((1 :: nil) ++ 1 :: 1 :: nil) with (1 :: 1 :: 1 :: nil). rewrite E. reflexivity.
Qed.

(** ** The background-only fit on concrete inputs *)
Section Mb.
Variables (pinv : nat -> (nat -> nat -> R) -> nat -> nat -> R) (bs : list (nat -> R)) (pulse : nat -> R).
Hypothesis Hpinv : pinv_ok pinv.
Let s : nat -> R := fun _ => 1.
Let psd : nat -> R := fun _ => 1.
Let st := the_setup pinv 4 s bs psd (INR 4).
Let J := jnoise 4 psd (INR 4).
Lemma bgram4 i j : gram 4 J (fun k => stf 4 s bs (ns + k)%nat) i j = G4 bs (S i) (S j) / 4.
Proof.
  unfold gram, stf. unfold J, psd. rewrite (ip_time 4 bs) by lia. replace (INR 4) with 4 by (simpl; lra). reflexivity.
Qed.
Lemma bq4 i : ip 4 J (stf 4 s bs (ns + i)%nat) (fftn 4 pulse) = Q4 bs pulse (S i) / 4.
Proof. unfold stf, J, psd. rewrite (ip_time 4 bs) by lia. replace (INR 4) with 4 by (simpl; lra). reflexivity. Qed.
Lemma bamp4 i : (i < length bs)%nat -> rsum (length bs) (fun j => G4 bs (S i) (S j) * bamp pinv 4 s bs psd (INR 4) pulse j) = Q4 bs pulse (S i).
Proof.
  intros Hi. destruct (flat4 bs) as [H1 [H2 H3]].
  assert (E := bamp_solves pinv 4 s bs psd (INR 4) H1 H2 H3 Hpinv pulse i Hi). unfold bq in E. fold J in E. rewrite bq4 in E. unfold mv in E.
  rewrite (rsum_ext _ _ (fun j => (G4 bs (S i) (S j) * bamp pinv 4 s bs psd (INR 4) pulse j) * / 4)) in E
    by (intros; rewrite bgram4; unfold Rdiv; ring).
  rewrite rsum_scal_r in E. lra.
Qed.
(** The equations of the refit *)
Lemma bfit4 lf con out : of_mb pinv st pulse lf (Some con) = Ok out -> length con = length bs ->
  (forall i, (i < length bs)%nat -> disallowed (bamp pinv 4 s bs psd (INR 4) pulse i) (nth i con 0) = true -> b_amp out i = 0) /\
  (forall i, (i < length bs)%nat -> disallowed (bamp pinv 4 s bs psd (INR 4) pulse i) (nth i con 0) = false ->
     rsum (length bs) (fun j => G4 bs (S i) (S j) * b_amp out j) = Q4 bs pulse (S i)).
Proof.
  intros H HL. destruct (flat4 bs) as [H1 [H2 H3]].
  unfold of_mb in H. change (s_nt st) with 4%nat in H. change (s_nb st) with (length bs) in H.
  unfold con_of in H. rewrite HL, Nat.eqb_refl in H. cbn [bind] in H.
  change (mv (length bs) (s_iB st) (fun i => fst (csum 4 (qf st pulse (ns + i))))) with (bamp pinv 4 s bs psd (INR 4) pulse) in H.
  set (idx := indices (length bs) (fun i => negb (disallowed (bamp pinv 4 s bs psd (INR 4) pulse i) (nth i con 0)))) in H.
  destruct (Nat.eqb_spec (length idx) 1) as [|NE]; [discriminate|].
  set (X := pinv (length idx) (fun i j => s_B st (nth i idx O) (nth j idx O))) in H.
  set (v := mv (length idx) X (fun i => fst (csum 4 (qf st pulse (ns + nth i idx O))))) in H.
  assert (Ho : b_amp out = scatter idx v).
  { exact (f_equal (fun r => match r with Ok x => b_amp x | Err _ => b_amp out end) (eq_sym H)). }
  assert (PG : forall i j, (i < length idx)%nat -> (j < length idx)%nat ->
     s_B st (nth i idx O) (nth j idx O) = gram 4 J (fun k => stf 4 s bs (ns + k)%nat) (nth i idx O) (nth j idx O)) by (intros; now apply B_gram).
  assert (Q : forall j, (j < length bs)%nat -> fst (csum 4 (qf st pulse (ns + j))) = ip 4 J (stf 4 s bs (ns + j)%nat) (fftn 4 pulse)) by (intros; now apply bsum_ip).
  assert (HJ := J_pos 4 bs psd (INR 4) H1 H2 H3).
  assert (PX : penrose (length idx) (fun i j => s_B st (nth i idx O) (nth j idx O)) X).
  { apply Hpinv. apply (psd_ext (length idx) (gram 4 J (fun k => stf 4 s bs (ns + nth k idx O)%nat))); [|apply gram_psd; exact HJ].
    intros i j Hi Hj. symmetry. now apply PG. }
  destruct (subfit 4 J (length bs) (fun k => stf 4 s bs (ns + k)%nat) (fftn 4 pulse) _ X (fun j => fst (csum 4 (qf st pulse (ns + j)))) idx HJ
      (indices_nodup _ _) (fun i Hi => proj1 (proj1 (indices_in _ _ i) Hi)) PG PX Q) as [S1 [S2 _]].
  rewrite Ho. split.
  - intros i Hi HD. apply S2. intros Hin. apply indices_in in Hin. rewrite HD in Hin. destruct Hin as [_ Hin]. discriminate.
  - intros i Hi HD. assert (Hin : In i idx) by (apply indices_in; now rewrite HD). specialize (S1 i Hin). rewrite Q, bq4 in S1 by assumption.
    unfold mv in S1 at 1. fold v in S1.
    rewrite (rsum_ext _ _ (fun j => (G4 bs (S i) (S j) * scatter idx v j) * / 4)) in S1 by (intros; rewrite bgram4; unfold Rdiv; ring).
    rewrite rsum_scal_r in S1. lra.
Qed.
End Mb.

(** One amplitude allowed: ValueError *)
Definition ob2 : list (nat -> R) := ob.
Definition op2 : nat -> R := tr (0 :: 2 :: -2 :: 0 :: nil).
Lemma mb_one_wit pinv lf : pinv_ok pinv ->
  exists st, of_nsmb_setup pinv 4 (fun _ => 1) ob (fun _ => 1) (INR 4) = Ok st /\ of_mb pinv st op2 lf (Some (1 :: 1 :: nil)) = Err ValueError.
Proof.
  intros Hp. assert (I4 : 0 < INR 4) by (simpl; lra). eexists. split; [apply setup_ok; [lra|lia|discriminate]|].
  apply mb_one; [reflexivity|].
  assert (A0 := bamp4 pinv ob op2 Hp 0 ltac:(cbn; lia)). assert (A1 := bamp4 pinv ob op2 Hp 1 ltac:(cbn; lia)).
  set (a := bamp pinv 4 (fun _ => 1) ob (fun _ => 1) (INR 4) op2) in *.
  unfold G4, Q4, ob, op2, tr in A0, A1. cbn [rsum length Nat.add sb_time nth] in A0, A1.
  assert (V0 : a 0%nat = -1) by lra. assert (V1 : a 1%nat = 1) by lra.
  unfold indices. cbn [length ob seq filter nth].
  replace (disallowed (a 0%nat) 1) with true by (symmetry; dis). replace (disallowed (a 1%nat) 1) with false by (symmetry; dis). reflexivity.
Qed.

(** The refit leaves a negative amplitude under a positive constraint *)
Definition sb3 : list (nat -> R) := tr (1 :: 0 :: -1 :: -1 :: nil) :: tr (0 :: 0 :: -1 :: -1 :: nil) :: tr (1 :: 0 :: -1 :: 0 :: nil) :: nil.
Definition sp3 : nat -> R := tr (0 :: 1 :: -1 :: 2 :: nil).
Lemma mb_sign_wit pinv lf : pinv_ok pinv ->
  exists st out, of_nsmb_setup pinv 4 (fun _ => 1) sb3 (fun _ => 1) (INR 4) = Ok st /\
    of_mb pinv st sp3 lf (Some (1 :: 1 :: 1 :: nil)) = Ok out /\ b_amp out 1%nat = -1.
Proof.
  intros Hp. assert (I4 : 0 < INR 4) by (simpl; lra).
  assert (A0 := bamp4 pinv sb3 sp3 Hp 0 ltac:(cbn; lia)). assert (A1 := bamp4 pinv sb3 sp3 Hp 1 ltac:(cbn; lia)). assert (A2 := bamp4 pinv sb3 sp3 Hp 2 ltac:(cbn; lia)).
  set (a := bamp pinv 4 (fun _ => 1) sb3 (fun _ => 1) (INR 4) sp3) in *.
  unfold G4, Q4, sb3, sp3, tr in A0, A1, A2. cbn [rsum length Nat.add sb_time nth] in A0, A1, A2.
  assert (V0 : a 0%nat = -3) by lra. assert (V1 : a 1%nat = 1) by lra. assert (V2 : a 2%nat = 3) by lra.
  set (st := the_setup pinv 4 (fun _ => 1) sb3 (fun _ => 1) (INR 4)). exists st.
  assert (EO : exists out, of_mb pinv st sp3 lf (Some (1 :: 1 :: 1 :: nil)) = Ok out).
  { unfold of_mb. change (s_nt st) with 4%nat. change (s_nb st) with 3%nat. unfold con_of. cbn [length Nat.eqb bind].
    change (mv 3 (s_iB st) (fun i => fst (csum 4 (qf st sp3 (ns + i))))) with a.
    unfold indices. cbn [seq filter nth].
    replace (disallowed (a 0%nat) 1) with true by (symmetry; dis). replace (disallowed (a 1%nat) 1) with false by (symmetry; dis).
    replace (disallowed (a 2%nat) 1) with false by (symmetry; dis). cbn [negb length Nat.eqb]. eauto. }
  destruct EO as [out EO]. exists out. split; [apply setup_ok; [lra|lia|discriminate]|]. split; [exact EO|].
  destruct (bfit4 pinv sb3 sp3 Hp lf _ out EO eq_refl) as [Z1 R1]. fold a in Z1, R1.
  assert (W0 := Z1 0%nat ltac:(cbn; lia) ltac:(cbn [nth]; dis)).
  assert (W1 := R1 1%nat ltac:(cbn; lia) ltac:(cbn [nth]; dis)). assert (W2 := R1 2%nat ltac:(cbn; lia) ltac:(cbn [nth]; dis)).
  unfold G4, Q4, sb3, sp3, tr in W1, W2. cbn [rsum length Nat.add sb_time nth] in W1, W2. lra.
Qed.
