(** * IV: physics, uncertainties, search, argument forms *)
From Verif Require Import Base ListLemmas UtilsModel OFFreeModel IvModel IvSpec IvProofs1 IvProofs2.
From Coquelicot Require Import Coquelicot.
Local Open Scope R_scope.

Lemma has_dims_unique a nt nc ni nt' nc' ni' : has_dims a nt nc ni -> has_dims a nt' nc' ni' ->
  nt = nt' /\ nc = nc' /\ ni = ni'.
Proof. intros H H'. apply dims_has in H, H'. rewrite H in H'. injection H' as <- <- <-. auto. Qed.

Lemma load_at_unique nt nc ni r t c i v w : load_at nt nc ni r t c i v -> load_at nt nc ni r t c i w -> v = w.
Proof.
  destruct r as [x|a]; cbn [load_at]; [congruence|].
  intros [[S ->]|[[S ->]|[S ->]]] [[S' ->]|[[S' ->]|[S' ->]]]; try reflexivity; rewrite S in S'; discriminate.
Qed.

Lemma arg_fit_inv cf nc ni d de v inds t c p : arg_fit cf nc ni d de v inds t c = Ok p ->
  exists l, (forall i, In i l -> (i < ni)%nat /\ entry_nan nc ni v t c i = false /\ entry_nan nc ni d t c i = false
                                  /\ entry_nan nc ni de t c i = false) /\
    (2 <= length l)%nat /\ (forall l', inds = Some l' -> l = l') /\ (inds = None -> exists k, l = seq 0 k) /\
    cf (points (entry nc ni v t c) (entry nc ni d t c) (entry nc ni de t c) l) = Ok p.
Proof.
  unfold arg_fit. destruct inds as [l|].
  - cbn [bind]. intros E. apply fit_row_ok in E. destruct E as [H [L E]]. exists l.
    split; [|split; [exact L|split; [congruence|split; [discriminate|exact E]]]].
    intros i Hi. destruct (H i Hi) as [Hn Hb]. apply orb_false_elim in Hb. destruct Hb as [Hb H3].
    apply orb_false_elim in Hb. tauto.
  - destruct (findnormalinds _ _ _ _ _ _ _ _) as [l|] eqn:F; [|discriminate]. cbn [bind].
    intros E. apply fit_row_ok in E. destruct E as [H [L E]]. exists l.
    apply findnormalinds_spec in F. destruct F as [e [-> _]].
    split; [|split; [exact L|split; [congruence|split; [eauto|exact E]]]].
    intros i Hi. destruct (H i Hi) as [Hn Hb]. apply orb_false_elim in Hb. destruct Hb as [Hb H3].
    apply orb_false_elim in Hb. tauto.
Qed.

Lemma iv_ohm_joule cf d de v ve r re nn inds out nt nc ni :
  iv_call cf d de v ve r re nn inds = Ok out -> has_dims d nt nc ni ->
  forall t c i rl, (t < nt)%nat -> (c < nc)%nat -> (i < ni)%nat -> load_at nt nc ni r t c i rl ->
    let I := iv_ites out t c i in
    let V := entry nc ni v t c i in
    I = entry nc ni d t c i - iv_ioff out t c /\
    iv_ptes out t c i = I ^ 2 * iv_r0 out t c i /\
    (I <> 0 -> V = I * (iv_r0 out t c i + rl) /\ iv_ptes out t c i = I * (V - I * rl)).
Proof.
  intros E Hd t c i rl Ht Hc Hi Hl I V.
  destruct (iv_call_inv _ _ _ _ _ _ _ _ _ _ E) as [nt' [nc' [ni' [p [rl' [rle [Hd' [_ [_ [HL [_ H]]]]]]]]]]].
  destruct (has_dims_unique _ _ _ _ _ _ _ Hd Hd') as [<- [<- <-]].
  destruct (H t c i) as [HI [_ [Hr [_ [Hp _]]]]]. destruct (HL t c i Ht Hc Hi) as [HL1 _].
  rewrite <- (load_at_unique _ _ _ _ _ _ _ _ _ Hl HL1) in Hr.
  split; [exact HI|]. split; [exact Hp|]. intros NI. rewrite Hp, Hr. fold I V. split; field; exact NI.
Qed.

Lemma iv_normal_fit cf d de v ve r re nn inds out nt nc ni :
  iv_call cf d de v ve r re nn inds = Ok out -> has_dims d nt nc ni ->
  forall t c, (t < nt)%nat -> (c < nc)%nat -> exists l b m cov,
    (forall i, In i l -> (i < ni)%nat /\ entry_nan nc ni v t c i = false /\ entry_nan nc ni d t c i = false
                                  /\ entry_nan nc ni de t c i = false) /\
    (2 <= length l)%nat /\ (forall l', inds = Some l' -> l = l') /\ (inds = None -> exists k, l = seq 0 k) /\
    cf (points (entry nc ni v t c) (entry nc ni d t c) (entry nc ni de t c) l) = Ok (mkFit b m cov) /\
    iv_ioff out t c = b /\ iv_ioff_err out t c = sqrt (cov 0%nat 0%nat) /\
    iv_rfit out t c = 1 / m /\
    (forall rl, (0 < ni)%nat -> load_at nt nc ni r t c 0 rl -> iv_rnorm out t c = 1 / m - rl) /\
    (forall rl rle, (0 < ni)%nat -> load_at nt nc ni r t c 0 rl -> load_at nt nc ni re t c 0 rle ->
       m <> 0 -> 0 <= cov 1%nat 1%nat ->
       propagates 2 (fun x => 1 / x 0%nat - x 1%nat) (vec [m; rl]) (independent [sqrt (cov 1%nat 1%nat); rle])
         (iv_rnorm_err out t c)).
Proof.
  intros E Hd t c Ht Hc.
  destruct (iv_call_inv _ _ _ _ _ _ _ _ _ _ E) as [nt' [nc' [ni' [p [rl' [rle' [Hd' [_ [HF [HL [H _]]]]]]]]]]].
  destruct (has_dims_unique _ _ _ _ _ _ _ Hd Hd') as [<- [<- <-]].
  specialize (HF t c Ht Hc). apply arg_fit_inv in HF. destruct HF as [l [H1 [H2 [H3 [H4 H5]]]]].
  destruct (H t c) as [G1 [G2 [G3 [G4 [G5 G6]]]]].
  exists l, (fb (p t c)), (fm (p t c)), (fcov (p t c)).
  split; [exact H1|]. split; [exact H2|]. split; [exact H3|]. split; [exact H4|].
  split; [rewrite H5; now destruct (p t c)|]. split; [exact G1|]. split; [exact G2|]. split; [exact G3|]. split.
  - intros rl Hi Hl. destruct (HL t c 0%nat Ht Hc Hi) as [K _]. rewrite (load_at_unique _ _ _ _ _ _ _ _ _ Hl K). exact G5.
  - intros rl rle Hi Hl Hle Hm Hcov. destruct (HL t c 0%nat Ht Hc Hi) as [K K'].
    rewrite (load_at_unique _ _ _ _ _ _ _ _ _ Hle K'), G6.
    exists (vec [-1 / fm (p t c) ^ 2; -1]). split.
    + intros [|[|k]] Hk; [| |lia]; unfold vec, upd; cbn [Nat.eqb nth].
      * auto_derive; [exact Hm|]. field. exact Hm.
      * auto_derive; [exact I|ring].
    + f_equal. unfold vec, independent. cbn [rsum Nat.eqb nth].
      set (mm := fm (p t c)) in *. set (cc := fcov (p t c) 1%nat 1%nat) in *.
      rewrite !pow2_sqrt; [field; exact Hm|exact Hcov|].
      apply Rmult_le_pos; [|exact Hcov]. replace (-1 / mm ^ 2 * (-1 / mm ^ 2)) with ((1 / mm ^ 2) ^ 2) by (field; exact Hm).
      apply pow2_ge_0.
Qed.

Lemma iv_errors cf d de v ve r re nn inds out nt nc ni :
  iv_call cf d de v ve r re nn inds = Ok out -> has_dims d nt nc ni ->
  forall t c i rl rle, (t < nt)%nat -> (c < nc)%nat -> (i < ni)%nat ->
    load_at nt nc ni r t c i rl -> load_at nt nc ni re t c i rle -> iv_ites out t c i <> 0 ->
    let x := vec [entry nc ni v t c i; entry nc ni d t c i; iv_ioff out t c; rl] in
    let cov := independent [entry nc ni ve t c i; entry nc ni de t c i; iv_ioff_err out t c; rle] in
    propagates 2 (fun y => y 0%nat - y 1%nat) (vec [entry nc ni d t c i; iv_ioff out t c])
       (independent [entry nc ni de t c i; iv_ioff_err out t c]) (iv_ites_err out t c i) /\
    propagates 4 (fun y => y 0%nat / (y 1%nat - y 2%nat) - y 3%nat) x cov (iv_r0_err out t c i) /\
    propagates 4 (fun y => (y 1%nat - y 2%nat) ^ 2 * (y 0%nat / (y 1%nat - y 2%nat) - y 3%nat)) x cov
      (iv_ptes_err out t c i).
Proof.
  intros E Hd t c i rl rle Ht Hc Hi Hl Hle HI x cov.
  destruct (iv_call_inv _ _ _ _ _ _ _ _ _ _ E) as [nt' [nc' [ni' [p [rl' [rle' [Hd' [_ [HF [HL [_ H]]]]]]]]]]].
  destruct (has_dims_unique _ _ _ _ _ _ _ Hd Hd') as [<- [<- <-]].
  destruct (H t c i) as [G1 [G2 [G3 [G4 [G5 G6]]]]]. destruct (HL t c i Ht Hc Hi) as [K K'].
  rewrite <- (load_at_unique _ _ _ _ _ _ _ _ _ Hl K) in *. rewrite <- (load_at_unique _ _ _ _ _ _ _ _ _ Hle K') in *.
  rewrite G1 in HI.
  set (V := entry nc ni v t c i) in *. set (D := entry nc ni d t c i) in *. set (O := iv_ioff out t c) in *.
  set (sv := entry nc ni ve t c i) in *. set (sd := entry nc ni de t c i) in *. set (so := iv_ioff_err out t c) in *.
  assert (S2 : sqrt (sd ^ 2 + so ^ 2) ^ 2 = sd ^ 2 + so ^ 2).
  { apply pow2_sqrt. assert (A := pow2_ge_0 sd). assert (B := pow2_ge_0 so). lra. }
  split; [|split].
  - exists (vec [1; -1]). split.
    + intros [|[|k]] Hk; [| |lia]; unfold vec, upd; cbn [Nat.eqb nth]; auto_derive; try exact I; ring.
    + rewrite G2. f_equal. unfold vec, independent. cbn [rsum Nat.eqb nth]. ring.
  - exists (vec [1 / (D - O); - V / (D - O) ^ 2; V / (D - O) ^ 2; -1]). split.
    + intros [|[|[|[|k]]]] Hk; try lia; unfold vec, upd, x, vec; cbn [Nat.eqb nth]; auto_derive; try exact I; try exact HI; try ring;
        field; exact HI.
    + rewrite G4, G1, G2, S2. f_equal. unfold vec, independent, cov, independent. cbn [rsum Nat.eqb nth]. field. exact HI.
  - exists (vec [D - O; V - 2 * (D - O) * rl; - (V - 2 * (D - O) * rl); - (D - O) ^ 2]). split.
    + intros [|[|[|[|k]]]] Hk; try lia; unfold vec, upd, x, vec; cbn [Nat.eqb nth]; auto_derive; try exact I; try exact HI; try ring;
        field; exact HI.
    + rewrite G6, G1, G2, S2. f_equal. unfold vec, independent, cov, independent. cbn [rsum Nat.eqb nth]. ring.
Qed.

Lemma iv_rfit_err_is_rfit cf d de v ve r re nn inds out t c :
  iv_call cf d de v ve r re nn inds = Ok out -> iv_rfit_err out t c = iv_rfit out t c.
Proof.
  intros E. destruct (iv_call_inv _ _ _ _ _ _ _ _ _ _ E) as [nt' [nc' [ni' [p [rl' [rle' [Hd' [_ [HF [HL [H _]]]]]]]]]]].
  destruct (H t c) as [_ [_ [-> [-> _]]]]. reflexivity.
Qed.

(** ** Success and failure of the call *)

(** The fitter never fails on two or more points. *)
Definition total_fitter (cf : fitter) : Prop := forall pts, (2 <= length pts)%nat -> exists p, cf pts = Ok p.

(** The points to fit are there: given indices are valid, or at least three bias points are
    present in every channel; padding is the same in all arrays. *)
Definition enough_points (nt nc ni : nat) (d de v : nd) (inds : option (list nat)) : Prop :=
  match inds with
  | Some l => (2 <= length l)%nat /\ forall t c i, (t < nt)%nat -> (c < nc)%nat -> In i l -> (i < ni)%nat /\
                entry_nan nc ni v t c i = false /\ entry_nan nc ni d t c i = false /\ entry_nan nc ni de t c i = false
  | None => (3 <= ni)%nat /\ forall t c i, (t < nt)%nat -> (c < nc)%nat ->
              ((i < 3)%nat -> entry_nan nc ni v t c i = false) /\
              (entry_nan nc ni v t c i = false -> entry_nan nc ni d t c i = false /\ entry_nan nc ni de t c i = false)
  end.

Lemma arg_fit_ok cf nt nc ni d de v inds t c : total_fitter cf -> enough_points nt nc ni d de v inds ->
  (t < nt)%nat -> (c < nc)%nat -> exists p, arg_fit cf nc ni d de v inds t c = Ok p.
Proof.
  intros Hf He Ht Hc. unfold arg_fit. destruct inds as [l|]; cbn [enough_points] in He.
  - destruct He as [L He]. cbn [bind]. rewrite fit_row_intro; [apply Hf; unfold points; now rewrite map_length| |exact L].
    intros i Hi. destruct (He t c i Ht Hc Hi) as [A [-> [-> ->]]]. split; [exact A|reflexivity].
  - destruct He as [L He].
    set (bad := fun i => (entry_nan nc ni v t c i || entry_nan nc ni d t c i || entry_nan nc ni de t c i)%bool).
    assert (Hb : forall i, entry_nan nc ni v t c i = false -> bad i = false).
    { intros i Hi. unfold bad. destruct (proj2 (He t c i Ht Hc) Hi) as [-> ->]. now rewrite Hi. }
    assert (F : exists e, fni_loop ni cf ni (entry nc ni v t c) (entry nc ni d t c) (entry nc ni de t c) (entry_nan nc ni v t c) bad 10 2 = Ok e).
    { apply fni_loop_ok; [|  |lia|exact Hf].
      - intros i Hi. apply Hb. apply (proj1 (He t c i Ht Hc)). lia.
      - intros i Hi. destruct (entry_nan nc ni v t c i) eqn:N; [reflexivity|]. apply Hb in N. congruence. }
    destruct F as [e Ee]. unfold findnormalinds. rewrite Ee. cbn [bind].
    destruct (fni_loop_spec _ _ _ _ _ _ _ _ _ _ _ Ee ltac:(lia)) as [B [_ [N F]]].
    assert (3 <= e)%nat.
    { destruct F as [[? _]|[[?|Nn] _]]; [lia|lia|]. destruct (Nat.eq_dec e 2) as [->|]; [|lia].
      rewrite (proj1 (He t c 2%nat Ht Hc)) in Nn by lia. discriminate. }
    rewrite fit_row_intro; [apply Hf; unfold points; rewrite map_length, seq_length; lia| |rewrite seq_length; lia].
    intros i Hi. apply in_seq in Hi. split; [lia|]. apply Hb.
    destruct (Nat.lt_ge_cases i 3); [apply (proj1 (He t c i Ht Hc)); lia|apply N; lia].
Qed.

Lemma iv_call_run cf d de v ve r re nn inds nt nc ni :
  has_dims d nt nc ni -> size de = (nt * nc * ni)%nat -> size v = (nt * nc * ni)%nat -> size ve = (nt * nc * ni)%nat ->
  nn = nc -> total_fitter cf -> enough_points nt nc ni d de v inds ->
  documented_form nt nc ni r -> same_form r re ->
  (full_array nt nc ni r -> iv_call cf d de v ve r re nn inds = Err AttributeError) /\
  (~ full_array nt nc ni r -> exists out, iv_call cf d de v ve r re nn inds = Ok out).
Proof.
  intros Hd Sde Sv Sve -> Hf He Hr Hs. unfold iv_call, iv_init.
  rewrite (dims_has _ _ _ _ Hd). cbn [bind]. rewrite Nat.eqb_refl. cbn [negb].
  destruct (reshape3_ok d nt nc ni (has_dims_size _ _ _ _ Hd)) as [a Ea].
  destruct (reshape3_ok de nt nc ni Sde) as [b Eb]. destruct (reshape3_ok v nt nc ni Sv) as [g Eg].
  destruct (reshape3_ok ve nt nc ni Sve) as [h Eh]. rewrite Ea, Eb, Eg, Eh. cbn [bind].
  assert (P : forall r1 re1, exists fits, per_channel nt nc (iv_fit cf (mkIv nt nc ni a b g h r1 re1 inds)) = Ok fits).
  { intros r1 re1. apply per_channel_ok. intros t c Ht Hc.
    apply reshape3_inv in Ea, Eb, Eg, Eh.
    destruct (arg_fit_ok cf nt nc ni d de v inds t c Hf He Ht Hc) as [p Ep]. exists p. rewrite <- Ep.
    unfold iv_fit, arg_fit. cbn [IvModel.nt IvModel.nc IvModel.ni dites dites_err vb vb_err rload rload_err normalinds].
    unfold at3, nan3, entry, entry_nan. rewrite (proj1 Ea), (proj2 Ea), (proj1 Eb), (proj2 Eb), (proj1 Eg), (proj2 Eg). reflexivity. }
  split; intros F.
  - rewrite (store_r_full _ _ _ _ _ F), (store_err_full _ _ _ _ _ _ F Hs). cbn [bind].
    unfold calc_iv. cbn [IvModel.nt IvModel.nc IvModel.ni dites dites_err vb vb_err rload rload_err normalinds].
    destruct (P None None) as [fits ->]. reflexivity.
  - destruct (store_r_ok d nt nc ni r Hr F) as [r1 Er]. destruct (store_err_ok d nt nc ni r re Hr F Hs) as [re1 Ere].
    rewrite Er, Ere. cbn [bind]. unfold calc_iv. cbn [IvModel.nt IvModel.nc IvModel.ni dites dites_err vb vb_err rload rload_err normalinds].
    destruct (P (Some r1) (Some re1)) as [fits ->]. cbn [bind getattr].
    destruct (store_r_inv _ _ _ _ _ _ Hd Er) as [rl [-> _]]. cbn [bind getattr].
    destruct (store_err_inv _ _ _ _ _ _ _ Hd Ere) as [rle [-> _]]. cbn [bind]. eexists. reflexivity.
Qed.

(** ** Noise-free data *)

Lemma iv_exact cf d de v ve r re nn inds out nt nc ni :
  (forall pts p, cf pts = Ok p -> best_line pts (fb p) (fm p)) ->
  iv_call cf d de v ve r re nn inds = Ok out -> has_dims d nt nc ni ->
  forall t c off rn rl, (t < nt)%nat -> (c < nc)%nat -> rn + rl <> 0 ->
    (forall i, (i < ni)%nat -> load_at nt nc ni r t c i rl) ->
    (forall i, (i < ni)%nat -> entry nc ni de t c i <> 0) ->
    (* the normal points are on the line of a resistor *)
    (forall i, (match inds with Some l => In i l | None => (i < ni)%nat /\ entry_nan nc ni v t c i = false end) ->
       entry nc ni d t c i = off + entry nc ni v t c i / (rn + rl)) ->
    (match inds with
     | Some l => exists i j, In i l /\ In j l /\ entry nc ni v t c i <> entry nc ni v t c j
     | None => entry nc ni v t c 0 <> entry nc ni v t c 1 end) ->
    iv_ioff out t c = off /\ iv_rnorm out t c = rn /\ iv_rfit out t c = rn + rl /\
    forall i, (i < ni)%nat ->
      (iv_ites out t c i = entry nc ni d t c i - off /\
      (forall R, R + rl <> 0 -> entry nc ni v t c i <> 0 ->
         entry nc ni d t c i = off + entry nc ni v t c i / (R + rl) -> iv_r0 out t c i = R))%R.
Proof.
  intros Hbest E Hd t c off rn rl Ht Hc Hn Hl Hde Hline Hdist.
  destruct (iv_normal_fit _ _ _ _ _ _ _ _ _ _ _ _ _ E Hd t c Ht Hc) as
    [l [b [m [cov [H1 [H2 [H3 [H4 [H5 [G1 [_ [G3 [G4 _]]]]]]]]]]]]].
  assert (Hin : forall i, In i l -> match inds with Some l => In i l | None => (i < ni)%nat /\ entry_nan nc ni v t c i = false end).
  { intros i Hi. destruct inds as [l'|]; [now rewrite <- (H3 l' eq_refl)|]. destruct (H1 i Hi) as [? [? _]]. auto. }
  assert (B : b = off /\ m = 1 / (rn + rl)).
  { specialize (Hbest _ _ H5). cbn [fb fm] in Hbest. eapply best_line_exact; [exact Hbest|]. split.
    - intros x y s Hi. apply in_map_iff in Hi. destruct Hi as [i [Ei Hi]]. injection Ei as <- <- <-.
      split; [apply Hde; now apply H1|]. rewrite (Hline i (Hin i Hi)). field. exact Hn.
    - assert (D : exists i j, In i l /\ In j l /\ entry nc ni v t c i <> entry nc ni v t c j).
      { destruct inds as [l'|]; [now rewrite (H3 l' eq_refl)|]. destruct (H4 eq_refl) as [k ->]. rewrite seq_length in H2.
        exists 0%nat, 1%nat. split; [apply in_seq; lia|]. split; [apply in_seq; lia|exact Hdist]. }
      destruct D as [i [j [Hi [Hj D]]]]. unfold points.
      do 6 eexists. split; [apply in_map_iff; exists i; split; [reflexivity|exact Hi]|].
      split; [apply in_map_iff; exists j; split; [reflexivity|exact Hj]|exact D]. }
  destruct B as [-> ->].
  assert (Hni : (0 < ni)%nat).
  { destruct l as [|i l]; [simpl in H2; lia|]. destruct (H1 i (or_introl eq_refl)). lia. }
  split; [exact G1|]. split; [rewrite (G4 rl Hni (Hl 0%nat Hni)); field; exact Hn|]. split; [rewrite G3; field; exact Hn|].
  intros i Hi. destruct (iv_ohm_joule _ _ _ _ _ _ _ _ _ _ _ _ _ E Hd t c i rl Ht Hc Hi (Hl i Hi)) as [K1 [_ K3]].
  rewrite G1 in K1. split; [exact K1|]. intros R HR HV Hline'.
  assert (NI : iv_ites out t c i <> 0).
  { rewrite K1, Hline'. intros Z. apply HV. replace (entry nc ni v t c i) with ((off + entry nc ni v t c i / (R + rl) - off) * (R + rl)) by (field; exact HR).
    rewrite Z. ring. }
  destruct (K3 NI) as [K _]. rewrite K1, Hline' in K.
  assert (K' : entry nc ni v t c i * (iv_r0 out t c i + rl) = entry nc ni v t c i * (R + rl)).
  { rewrite K at 2. field. exact HR. }
  apply Rmult_eq_reg_l in K'; [lra|exact HV].
Qed.
