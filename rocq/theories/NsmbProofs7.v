(** * The constrained fit: exceptions, interpolation, extra windows *)
From Coq Require Import Reals ZArith List Lia Lra Bool.
From Verif Require Import Base ListLemmas Dft WindowModel WindowProofs OFFreeModel OFProofs8 NsmbModel NsmbSpec NsmbProofs1 NsmbProofs2 NsmbProofs3 NsmbProofs4 NsmbProofs5 NsmbProofs6.
From Coquelicot Require Import Coquelicot.
Import ListNotations.
Local Open Scope R_scope.

Lemma sequence_map_all {A B} (f : A -> res B) l : (forall x, In x l -> exists y, f x = Ok y) -> exists r, sequence (map f l) = Ok r.
Proof.
  induction l as [|x l IH]; intros H; [now exists []|]. simpl. destruct (H x (or_introl eq_refl)) as [y ->]. cbn [bind].
  destruct IH as [r ->]; [intros; apply H; now right|]. cbn [bind]. eauto.
Qed.

(** ** The three-point interpolation *)
Lemma slice_mk nt (f : nat -> R) ind : (1 <= ind)%Z -> (ind + 1 < Z.of_nat nt)%Z ->
  pyslice (mk nt f) (ind - 1) (ind + 2) = f (Z.to_nat ind - 1)%nat :: f (Z.to_nat ind) :: f (Z.to_nat ind + 1)%nat :: nil.
Proof.
  intros H1 H2. apply nth_error_ext. intros k. rewrite nth_error_pyslice, mk_length.
  unfold slice_bound. destruct (Z.ltb_spec (ind - 1) 0); [lia|]. destruct (Z.ltb_spec (ind + 2) 0); [lia|].
  rewrite !Z.min_l by lia. destruct (Z.ltb_spec (Z.of_nat k) (ind + 2 - (ind - 1))).
  - rewrite mk_nth_error. destruct (Nat.ltb_spec (Z.to_nat (ind - 1) + k) nt); [|lia].
    destruct k as [|[|[|k]]]; [| | |lia]; simpl; do 2 f_equal; lia.
  - symmetry. apply nth_error_None. simpl. lia.
Qed.
Lemma interp_ok polyfit ind nt (chi amp tm : nat -> R) : (1 <= ind < Z.of_nat nt)%Z ->
  exists z, interpchi2 polyfit ind (mk nt chi) (mk nt amp) (mk nt tm) = Ok z.
Proof.
  intros H. unfold interpchi2. destruct (pyslice (mk nt tm) (ind - 1) (ind + 2)) as [|x l] eqn:E.
  - exfalso. apply (f_equal (@length R)) in E. rewrite length_pyslice, mk_length in E. simpl in E. unfold slice_bound in E.
    destruct (Z.ltb_spec (ind - 1) 0); [lia|]. destruct (Z.ltb_spec (ind + 2) 0); [lia|]. lia.
  - destruct (polyfit (x :: l) _) as [[z0 z1] z2]. destruct (polyfit (x :: l) _) as [[y0 y1] y2]. destruct (Reqb z0 0); eauto.
Qed.
(** The slice around bin 0 is empty. *)
Lemma interp_zero polyfit ind nt chi amp (tm : nat -> R) : (3 <= nt)%nat -> ind = 0%Z \/ ind = (-1)%Z \/ ind = (-2)%Z ->
  interpchi2 polyfit ind chi amp (mk nt tm) = Err TypeError.
Proof.
  intros Hn H. unfold interpchi2. destruct (pyslice (mk nt tm) (ind - 1) (ind + 2)) as [|x l] eqn:E; [reflexivity|exfalso].
  apply (f_equal (@length R)) in E. rewrite length_pyslice, mk_length in E. simpl in E. unfold slice_bound in E.
  destruct (Z.ltb_spec (ind - 1) 0); destruct (Z.ltb_spec (ind + 2) 0); lia.
Qed.
Lemma interp_spec polyfit ind nt fs (chi amp : nat -> R) t c a : polyfit_ok polyfit -> 0 < fs -> (1 <= ind)%Z -> (ind + 1 < Z.of_nat nt)%Z ->
  interpchi2 polyfit ind (mk nt chi) (mk nt amp) (mk nt (fun d => INR d * (1 / fs))) = Ok (Some (t, c, a)) ->
  chi (Z.to_nat ind) <= chi (Z.to_nat ind - 1)%nat -> chi (Z.to_nat ind) <= chi (Z.to_nat ind + 1)%nat ->
  Rabs (t - IZR ind / fs) <= 1 / (2 * fs) /\ c <= chi (Z.to_nat ind).
Proof.
  intros HP Hfs H1 H2 H L1 L2. unfold interpchi2 in H. rewrite !slice_mk in H by assumption.
  set (h := 1 / fs) in *. assert (Hh : 0 < h) by (apply Rdiv_lt_0_compat; lra).
  set (x := INR (Z.to_nat ind) * h) in *.
  assert (E0 : INR (Z.to_nat ind - 1) * h = x - h) by (unfold x; rewrite minus_INR by lia; simpl; ring).
  assert (E2 : INR (Z.to_nat ind + 1) * h = x + h) by (unfold x; rewrite plus_INR; simpl; ring).
  rewrite E0, E2 in H.
  assert (P := HP (x - h) x (x + h) (chi (Z.to_nat ind - 1)%nat) (chi (Z.to_nat ind)) (chi (Z.to_nat ind + 1)%nat) ltac:(lra) ltac:(lra) ltac:(lra)).
  destruct (polyfit _ (chi (Z.to_nat ind - 1)%nat :: _)) as [[z0 z1] z2]. destruct (polyfit _ _) as [[y0 y1] y2]. destruct P as [P0 [P1 P2]].
  destruct (Reqb_spec z0 0) as [|NZ]; [discriminate|].
  assert (EX : IZR ind / fs = x) by (unfold x, h; rewrite INR_IZR_INZ, Z2Nat.id by lia; unfold Rdiv; ring).
  rewrite EX. replace (1 / (2 * fs)) with (h / 2) by (unfold h; field; lra).
  assert (Et : t = - z1 / (2 * z0) /\ c = z0 * t ^ 2 + z1 * t + z2).
  { assert (X := f_equal (fun r => match r with Ok (Some y) => y | _ => (0, 0, 0) end) H). cbn beta iota zeta in X.
    assert (X1 := f_equal (fun p => fst (fst p)) X). assert (X2 := f_equal (fun p => snd (fst p)) X). cbn [fst snd] in X1, X2. rewrite <- X1. split; [reflexivity|]. now rewrite X2. }
  destruct Et as [Et Ec]. clear H.
  assert (Z0 : 0 < z0).
  { assert (2 * z0 * (h * h) >= 0) by nra. assert (0 < h * h) by nra. nra. }
  assert (Ez1 : z1 = - 2 * z0 * t) by (rewrite Et; field; exact NZ).
  subst z1. clear Et. split.
  - assert (A1 : t - x <= h / 2).
    { assert (h * z0 * (2 * (t - x) - h) <= 0) by nra. assert (0 < h * z0) by nra. nra. }
    assert (A2 : - (h / 2) <= t - x).
    { assert (h * z0 * (2 * (t - x) + h) >= 0) by nra. assert (0 < h * z0) by nra. nra. }
    apply Rabs_le. lra.
  - assert (0 <= z0 * ((t - x) * (t - x))) by (apply Rmult_le_pos; [lra|apply Rle_0_sqr]). nra.
Qed.

Section Con.
Variables (pinv : nat -> (nat -> nat -> R) -> nat -> nat -> R) (nt : nat) (s : nat -> R) (bs : list (nat -> R)) (psd : nat -> R) (fs : R).
Hypothesis Hnt : (2 <= nt)%nat.
Hypothesis Hfs : 0 < fs.
Let st := the_setup pinv nt s bs psd fs.
Let K := (1 + length bs)%nat.

(** What a successful call went through *)
Lemma con_inv polyfit pulse windows lf bkgcon sig out :
  of_nsmb_con pinv polyfit st pulse fs windows lf bkgcon sig = Ok out ->
  length (con_list bs sig bkgcon) = K ->
  exists bins w ind z,
    (forall d, (d < nt)%nat -> con_bin pinv st (qt st pulse) (chi2f st nt (fftn nt pulse)) (fun i => nth i (con_list bs sig bkgcon) 0) d = Ok (bins d)) /\
    nth_error windows 0 = Some w /\ In ind w /\ (forall j, In j w -> (- Z.of_nat nt <= j < Z.of_nat nt)%Z) /\
    (forall j, In j w -> snd (bins (col nt ind)) <= snd (bins (col nt j))) /\
    c_tdel out = tdel_of nt fs ind /\ (forall t, c_resid out t = pulse t - fit_trace st fs (fst (bins (col nt ind))) (tdel_of nt fs ind) t) /\ c_amp out = fst (bins (col nt ind)) /\
    interpchi2 polyfit ind (mk nt (fun d => snd (bins d))) (mk nt (fun d => fst (bins d) O)) (mk nt (fun d => INR d * (1 / fs))) = Ok z /\
    c_interp out = (match z with
                  | Some (t, c, a) =>
                      let l := INR nt * (1 / fs) in Some (t - (if Rltb (l / 2) t then l else 0), c, a)
                  | None => None end) /\
    sequence (map (cwindow polyfit nt fs (fun d => snd (bins d)) (fun d => fst (bins d) O)) (tl windows)) = Ok (c_windows out).
Proof.
  intros H HL. unfold of_nsmb_con in H. rewrite Reqb_false in H by lra. change (s_nt st) with nt in H. change (nsb st) with K in H.
  change (s_nb st) with (length bs) in H.
  destruct (match sig with SigNone => Ok (repeat 0 ns) | SigInt _ => Err ValueError | SigArr l => Ok l end) as [sc|] eqn:ES; [|discriminate].
  cbn [bind] in H.
  assert (EC : sc ++ match bkgcon with Some c => c | None => repeat 0 (length bs) end = con_list bs sig bkgcon).
  { unfold con_list. f_equal. destruct sig; [|discriminate|]; injection ES as <-; reflexivity. }
  rewrite EC in H. unfold con_of in H. rewrite HL, Nat.eqb_refl in H. cbn [bind] in H.
  destruct (sequence _) as [bins|] eqn:EB; [|discriminate]. cbn [bind] in H.
  destruct (sequence_map_ok _ _ _ O (fun _ => 0, 0) EB) as [BL BN]. rewrite seq_length in BL, BN.
  destruct (pyindex windows 0) as [w|] eqn:EW; [|discriminate]. cbn [bind] in H.
  destruct (window_min _ w) as [[v ind]|] eqn:EM; [|discriminate]. cbn [bind snd] in H.
  destruct (interpchi2 _ _ _ _ _) as [z|] eqn:EZ; [|discriminate]. cbn [bind] in H.
  destruct (sequence (map (cwindow _ _ _ _ _) _)) as [cw|] eqn:ECW; [|discriminate]. cbn [bind] in H.
  destruct (bitmask st _) as [all|]; [|discriminate]. cbn [bind] in H.
  destruct (of_nsmb_getPt pinv st (col nt ind) all) as [[[idx Pt] iPt]|] eqn:EP; [|discriminate]. cbn [bind] in H.
  destruct (window_min_spec _ _ _ _ _ EM) as [Hin [HR [Hv Hmin]]].
  match type of H with Ok ?x = _ => assert (Ho : out = x) by (symmetry; exact (f_equal (fun r => match r with Ok y => y | Err _ => out end) H)) end.
  exists (fun d => nth d bins (fun _ => 0, 0)), w, ind, z. rewrite Ho. cbn [c_tdel c_amp c_interp c_windows c_resid].
  split; [intros d Hd; rewrite <- (BN d Hd), seq_nth by assumption; reflexivity|].
  split; [unfold pyindex in EW; simpl in EW; destruct windows; [discriminate|]; simpl in *; now injection EW as <-|].
  split; [exact Hin|]. split; [exact HR|]. split; [intros j Hj; rewrite <- Hv; now apply Hmin|].
  split; [reflexivity|]. split; [reflexivity|]. split; [reflexivity|]. split; [exact EZ|]. split; [reflexivity|]. exact ECW.
Qed.

(** A zero delay is never returned. *)
Lemma con_tdel_nonzero polyfit pulse windows lf bkgcon sig out :
  of_nsmb_con pinv polyfit st pulse fs windows lf bkgcon sig = Ok out ->
  length (con_list bs sig bkgcon) = K -> (3 <= nt)%nat -> c_tdel out <> 0.
Proof.
  intros H HL H3. destruct (con_inv _ _ _ _ _ _ _ H HL) as [bins [w [ind [z [_ [_ [Hin [HR [_ [ET [_ [_ [EZ _]]]]]]]]]]]]].
  rewrite ET. unfold tdel_of. intros E.
  assert (NI : IZR (ind - (if (Z.of_nat nt <? 2 * ind)%Z then Z.of_nat nt else 0)) = 0).
  { apply (Rmult_eq_reg_r (1 / fs)); [rewrite E; ring|]. apply Rgt_not_eq. apply Rdiv_lt_0_compat; lra. }
  apply eq_IZR in NI. specialize (HR ind Hin). assert (ind = 0)%Z by (destruct (Z.ltb_spec (Z.of_nat nt) (2 * ind)); lia).
  rewrite interp_zero in EZ by (assumption || now left). discriminate.
Qed.

(** The best bin is 0: TypeError *)
Lemma con_zero_typeerror polyfit pulse windows lf bkgcon sig :
  nth_error windows 0 = Some (0%Z :: nil) -> (3 <= nt)%nat -> length (con_list bs sig bkgcon) = K ->
  (match sig with SigInt _ => False | _ => True end) ->
  (forall d, (d < nt)%nat -> exists r, con_bin pinv st (qt st pulse) (chi2f st nt (fftn nt pulse)) (fun i => nth i (con_list bs sig bkgcon) 0) d = Ok r) ->
  of_nsmb_con pinv polyfit st pulse fs windows lf bkgcon sig = Err TypeError.
Proof.
  intros HW H3 HL HS HB. unfold of_nsmb_con. rewrite Reqb_false by lra. change (s_nt st) with nt. change (nsb st) with K. change (s_nb st) with (length bs).
  assert (ES : exists sc, match sig with SigNone => Ok (repeat 0 ns) | SigInt _ => Err ValueError | SigArr l => Ok l end = Ok sc /\
     sc ++ match bkgcon with Some c => c | None => repeat 0 (length bs) end = con_list bs sig bkgcon).
  { destruct sig; [| contradiction |]; eexists; split; reflexivity. }
  destruct ES as [sc [-> EC]]. cbn [bind]. rewrite EC. unfold con_of. rewrite HL, Nat.eqb_refl. cbn [bind].
  destruct (sequence_map_all (con_bin pinv st (qt st pulse) (chi2f st nt (fftn nt pulse)) (fun i => nth i (con_list bs sig bkgcon) 0)) (seq 0 nt)) as [bins ->].
  { intros d Hd. apply in_seq in Hd. apply HB. lia. }
  cbn [bind]. replace (pyindex windows 0) with (Ok (0%Z :: nil)) by (destruct windows; [discriminate|]; simpl in HW; injection HW as ->; reflexivity).
  cbn [bind]. match goal with |- context [window_min (mk nt ?g) ?w] => destruct (window_min_ok nt g w) as [m Em] end.
  - discriminate.
  - intros j [<-|[]]. lia.
  - rewrite Em. cbn [bind]. destruct m as [v ind]. destruct (window_min_spec _ _ _ _ _ Em) as [[Hi|[]] _]. subst ind. cbn [snd].
    rewrite interp_zero by (assumption || now left). reflexivity.
Qed.

(** An integer constraint on the signal is rejected. *)
Lemma con_int polyfit pulse windows lf bkgcon z : of_nsmb_con pinv polyfit st pulse fs windows lf bkgcon (SigInt z) = Err ValueError.
Proof. unfold of_nsmb_con. rewrite Reqb_false by lra. reflexivity. Qed.

(** One-bin extra windows *)
Lemma con_one_bin polyfit pulse windows lf bkgcon sig out :
  of_nsmb_con pinv polyfit st pulse fs windows lf bkgcon sig = Ok out -> length (con_list bs sig bkgcon) = K ->
  forall w, In w (tl windows) -> length w <> 1%nat.
Proof.
  intros H HL w Hw E. destruct (con_inv _ _ _ _ _ _ _ H HL) as [bins [w0 [ind [z [_ [_ [_ [_ [_ [_ [_ [_ [_ [_ ES]]]]]]]]]]]]]].
  destruct w as [|i [|j w]]; try discriminate. clear - ES Hw. revert ES. generalize (c_windows out). induction (tl windows) as [|x l IH]; [destruct Hw|].
  intros cw ES. simpl in ES. destruct Hw as [->|Hw].
  - simpl in ES. destruct (pyindex (mk nt _) i); discriminate.
  - destruct (cwindow _ _ _ _ _ x); [|discriminate]. cbn [bind] in ES. destruct (sequence _) as [r|] eqn:E; [|discriminate]. exact (IH Hw r eq_refl).
Qed.

Hypothesis Hpsd : forall f, (1 <= f < nt)%nat -> 0 < psd f.
Hypothesis Hpinv : pinv_ok pinv.

Lemma bin_chi2 pulse con d r : (d < nt)%nat -> con_bin pinv st (qt st pulse) (chi2f st nt (fftn nt pulse)) con d = Ok r ->
  snd r = trace_chi2 nt nt (bin_noise nt psd fs) (trace_minus pulse (sb_model nt s bs (fst r) (Z.of_nat d))).
Proof.
  intros Hd H. destruct (con_bin_spec pinv nt s bs psd fs Hnt Hfs Hpsd Hpinv pulse con d r H) as [keep [[_ [_ [F3 _]]] _]].
  rewrite trace_err by assumption. lra.
Qed.

(** The interpolated minimum *)
Lemma con_interp polyfit pulse windows lf bkgcon sig out t c a : polyfit_ok polyfit ->
  of_nsmb_con pinv polyfit st pulse fs windows lf bkgcon sig = Ok out -> length (con_list bs sig bkgcon) = K ->
  c_interp out = Some (t, c, a) ->
  (forall w, nth_error windows 0 = Some w -> forall j, In j w <-> (0 <= j < Z.of_nat nt)%Z) -> (3 <= nt)%nat -> c_tdel out <> - (1 / fs) ->
  c <= c_chi2 out /\ exists k : Z, (-1 <= k <= 1)%Z /\ Rabs (t - c_tdel out - IZR k * INR nt / fs) <= 1 / (2 * fs).
Proof.
  intros HP H HL HI HA H3 HT. assert (H' := H).
  destruct (con_correct pinv nt s bs psd fs Hnt Hfs Hpsd Hpinv polyfit pulse windows lf bkgcon sig out H HL) as [w' [d' [HW' [_ [_ [_ [HRES [HCHI _]]]]]]]].
  destruct (con_inv _ _ _ _ _ _ _ H HL) as [bins [w [ind [z [HB [HW [Hin [HR [Hmin [ET [ER [EA [EZ [EI _]]]]]]]]]]]]]].
  specialize (HA w HW).
  assert (Hind : (0 <= ind < Z.of_nat nt)%Z) by (now apply HA).
  assert (N0 : ind <> 0%Z) by (intros ->; rewrite interp_zero in EZ by (assumption || now left); discriminate).
  assert (HH : 0 < 1 / fs) by (apply Rdiv_lt_0_compat; lra).
  assert (N1 : ind <> (Z.of_nat nt - 1)%Z).
  { intros E. apply HT. rewrite ET, E. unfold tdel_of. destruct (Z.ltb_spec (Z.of_nat nt) (2 * (Z.of_nat nt - 1))); [|lia].
    replace (Z.of_nat nt - 1 - Z.of_nat nt)%Z with (-1)%Z by lia. ring. }
  assert (EC : col nt ind = Z.to_nat ind) by (unfold col; destruct (Z.ltb_spec ind 0); [lia|reflexivity]).
  assert (CM : forall j, (0 <= j < Z.of_nat nt)%Z -> snd (bins (Z.to_nat ind)) <= snd (bins (Z.to_nat j))).
  { intros j Hj. rewrite <- EC. replace (Z.to_nat j) with (col nt j) by (unfold col; destruct (Z.ltb_spec j 0); [lia|reflexivity]). apply Hmin. now apply HA. }
  destruct z as [[[t0 c0] a0]|]; [|rewrite HI in EI; discriminate].
  rewrite HI in EI. cbv zeta in EI. injection EI as Et Ec Ea. subst c0 a0.
  destruct (interp_spec polyfit ind nt fs _ _ t0 c a HP Hfs ltac:(lia) ltac:(lia) EZ) as [I1 I2].
  - replace (Z.to_nat ind - 1)%nat with (Z.to_nat (ind - 1)) by lia. apply CM. lia.
  - replace (Z.to_nat ind + 1)%nat with (Z.to_nat (ind + 1)) by lia. apply CM. lia.
  - split.
    + apply Rle_trans with (1 := I2). assert (HB0 := HB (Z.to_nat ind) ltac:(lia)). rewrite (bin_chi2 pulse _ (Z.to_nat ind) _ ltac:(lia) HB0).
      rewrite HCHI. apply Req_le. apply trace_chi2_ext. intros x Hx.
      rewrite ER. unfold trace_minus. rewrite EC. unfold st. rewrite fit_trace_model by assumption. rewrite Z2Nat.id by lia. reflexivity.
    + exists ((if (Z.of_nat nt <? 2 * ind)%Z then 1 else 0) - (if Rltb (INR nt * (1 / fs) / 2) t0 then 1 else 0))%Z.
      split; [destruct (Z.of_nat nt <? 2 * ind)%Z; destruct (Rltb (INR nt * (1 / fs) / 2) t0); lia|].
      rewrite Et, ET. unfold tdel_of.
      match goal with |- Rabs ?x <= _ => replace x with (t0 - IZR ind / fs); [exact I1|] end.
      rewrite !minus_IZR. rewrite INR_IZR_INZ.
      destruct (Z.of_nat nt <? 2 * ind)%Z; destruct (Rltb (IZR (Z.of_nat nt) * (1 / fs) / 2) t0); unfold Rdiv; ring.
Qed.
End Con.
