(** * IBIS: offsets, uncertainties, argument forms *)
From Verif Require Import Base ListLemmas UtilsModel OFFreeModel IvModel IvSpec IvProofs1 IvProofs2 IvProofs3 IvProofs4.
From Coquelicot Require Import Coquelicot.
Local Open Scope R_scope.

(** ** Success and failure of the call *)

Definition enough_bpoints (nt nc ni : nat) (d de ib : nd) (l : list nat) : Prop :=
  (2 <= length l)%nat /\ forall t c i, (t < nt)%nat -> (c < nc)%nat -> In i l -> (i < ni)%nat /\
    entry_nan nc ni ib t c i = false /\ entry_nan nc ni d t c i = false /\ entry_nan nc ni de t c i = false.

Definition offsets_ok (o oe : off) : Prop := o = ONone \/ exists f g, o = OArr f /\ oe = OArr g.

Lemma use_off_ok c ce o oe : offsets_ok o oe -> exists r, use_off c ce o oe = Ok r.
Proof. intros [->|[f [g [-> ->]]]]; eexists; reflexivity. Qed.

Lemma arg_bfit_ok cf nt nc ni d de ib l t c : total_fitter cf -> enough_bpoints nt nc ni d de ib l ->
  (t < nt)%nat -> (c < nc)%nat -> exists p, arg_bfit cf nc ni d de ib l t c = Ok p.
Proof.
  intros Hf [L He] Ht Hc. unfold arg_bfit. rewrite fit_row_intro; [apply Hf; unfold points; now rewrite map_length| |exact L].
  intros i Hi. destruct (He t c i Ht Hc Hi) as [A [-> [-> ->]]]. split; [exact A|reflexivity].
Qed.

(** The scalar resistance of a data array with fewer than three axes *)
Definition lost_axes (d : nd) (rp : rarg) : Prop :=
  match rp with RScalar _ => length (shape d) <> 3%nat | RArr _ => False end.

Section Run.
Variables (cf : fitter) (d de ib ibe : nd) (rsh rshe : R) (ninds : list nat) (rp rpe : rarg) (nn : nat)
  (fitsc : bool) (scinds : option (list nat)) (nt nc ni : nat).
Hypothesis Hd : has_dims d nt nc ni.
Hypothesis Sde : size de = (nt * nc * ni)%nat.
Hypothesis Sib : size ib = (nt * nc * ni)%nat.
Hypothesis Sibe : size ibe = (nt * nc * ni)%nat.
Hypothesis Hnn : nn = nc.
Hypothesis Hf : total_fitter cf.
Hypothesis He : enough_bpoints nt nc ni d de ib ninds.
Hypothesis Hsc : fitsc = true -> exists l, scinds = Some l /\ enough_bpoints nt nc ni d de ib l.
Hypothesis Hr : documented_form nt nc ni rp.
Hypothesis Hs : same_form rp rpe.

Definition run := ibis_call cf d de ib ibe rsh rshe ninds rp rpe nn fitsc scinds.

Lemma first_bias_stored a r : store_r d nt nc ni r = Ok (Some a) ->
  (lost_axes d r -> first_bias nc ni a = Err IndexError) /\
  (~ lost_axes d r -> exists f, first_bias nc ni a = Ok f).
Proof.
  unfold store_r. destruct r as [w|b].
  - intros E. injection E as <-. unfold first_bias, lost_axes. cbn [full_like shape].
    destruct (shape d) as [|? [|? [|? [|]]]]; simpl; split; intros H; try reflexivity; try lia; try (exfalso; apply H; discriminate); eauto.
  - intros E. cbn [lost_axes]. split; [contradiction|]. intros _.
    destruct (shape_eqb _ _); [injection E as <-; eexists; reflexivity|].
    destruct (shape_eqb _ _); [injection E as <-; eexists; reflexivity|]. destruct (negb _); discriminate.
Qed.

Lemma first_bias_stored_err a : store_err d nt nc ni rp rpe = Ok (Some a) ->
  (lost_axes d rp -> first_bias nc ni a = Err IndexError) /\
  (~ lost_axes d rp -> exists f, first_bias nc ni a = Ok f).
Proof.
  unfold store_err. destruct rp as [w|b], rpe as [w'|b']; try discriminate; intros E.
  - apply (first_bias_stored a (RScalar w')). exact E.
  - destruct (shape_eqb _ _); [|discriminate]. apply (first_bias_stored a (RArr b')). exact E.
Qed.

Lemma ibis_run yo yoe xo xoe :
  (fitsc = false -> full_array nt nc ni rp -> run yo yoe xo xoe = Err AttributeError) /\
  ((fitsc = true \/ ~ full_array nt nc ni rp) ->
     ((exists v, yo = OFloat v) \/ (exists v, xo = OFloat v) ->
        (yo = ONone \/ exists v, yo = OFloat v) -> (xo = ONone \/ exists v, xo = OFloat v) ->
        run yo yoe xo xoe = Err TypeError) /\
     (offsets_ok yo yoe -> offsets_ok xo xoe ->
        (fitsc = false -> lost_axes d rp -> run yo yoe xo xoe = Err IndexError) /\
        ((fitsc = true \/ ~ lost_axes d rp) -> exists out, run yo yoe xo xoe = Ok out))).
Proof.
  unfold run, ibis_call, ibis_init.
  assert (Esc : (fitsc && match scinds with None => true | Some _ => false end)%bool = false).
  { destruct fitsc; [|reflexivity]. destruct (Hsc eq_refl) as [l [-> _]]. reflexivity. }
  rewrite Esc.
  rewrite (dims_has _ _ _ _ Hd). cbn [bind]. rewrite Hnn, Nat.eqb_refl. cbn [negb].
  destruct (reshape3_ok d nt nc ni (has_dims_size _ _ _ _ Hd)) as [a Ea].
  destruct (reshape3_ok de nt nc ni Sde) as [b Eb]. destruct (reshape3_ok ib nt nc ni Sib) as [g Eg].
  destruct (reshape3_ok ibe nt nc ni Sibe) as [h Eh]. rewrite Ea, Eb, Eg, Eh. cbn [bind].
  assert (Fit : forall l t c r1 re1, ibis_fit cf (mkIbis nt nc ni a b g h rsh rshe r1 re1 ninds fitsc scinds) l t c = arg_bfit cf nc ni d de ib l t c).
  { intros l t c r2 re2. apply reshape3_inv in Ea, Eb, Eg. unfold ibis_fit, arg_bfit.
    cbn [bt bc bi b_dites b_dites_err b_ibias b_ibias_err].
    unfold at3, nan3, entry, entry_nan. rewrite (proj1 Ea), (proj2 Ea), (proj1 Eb), (proj2 Eb), (proj1 Eg), (proj2 Eg). reflexivity. }
  assert (P : forall r1 re1 l, enough_bpoints nt nc ni d de ib l ->
    exists fits, per_channel nt nc (ibis_fit cf (mkIbis nt nc ni a b g h rsh rshe r1 re1 ninds fitsc scinds) l) = Ok fits).
  { intros r1 re1 l Hl. apply per_channel_ok. intros t c Ht Hc. rewrite Fit. now apply (arg_bfit_ok cf nt). }
  assert (Q : forall r1 re1, exists scf, (if fitsc
                then do inds <- (match scinds with Some l => Ok l | None => Err IndexError end);
                     per_channel nt nc (ibis_fit cf (mkIbis nt nc ni a b g h rsh rshe r1 re1 ninds fitsc scinds) inds)
                else Ok []) = Ok scf).
  { intros r1 re1. destruct fitsc; [|eauto]. destruct (Hsc eq_refl) as [l [Esl Hl]]. rewrite Esl in *. cbn [bind]. now apply P. }
  split.
  - intros Ef F. rewrite (store_r_full _ _ _ _ _ F), (store_err_full _ _ _ _ _ _ F Hs). cbn [bind].
    unfold analyze. cbn [bt bc bi b_dites b_dites_err b_ibias b_ibias_err b_rsh b_rsh_err b_rp b_rp_err b_normalinds b_fitsc b_scinds].
    destruct (P None None ninds He) as [fits ->]. cbn [bind]. destruct (Q None None) as [scf ->]. cbn [bind].
    rewrite Ef. reflexivity.
  - intros Hfull.
    assert (R : exists r1 re1, store_r d nt nc ni rp = Ok r1 /\ store_err d nt nc ni rp rpe = Ok re1 /\
                  (fitsc = false -> exists a1 a2, r1 = Some a1 /\ re1 = Some a2)).
    { assert (Dec : full_array nt nc ni rp \/ ~ full_array nt nc ni rp).
      { destruct rp as [w|x]; cbn [full_array]; [right; tauto|]. destruct (list_eq_dec Nat.eq_dec (shape x) [nt; nc; ni]); [left|right]; assumption. }
      destruct Dec as [F|F].
      - exists None, None. rewrite (store_r_full _ _ _ _ _ F), (store_err_full _ _ _ _ _ _ F Hs).
        split; [reflexivity|]. split; [reflexivity|]. intros E. destruct Hfull; [congruence|contradiction].
      - destruct (store_r_ok d nt nc ni rp Hr F) as [r1 Er]. destruct (store_err_ok d nt nc ni rp rpe Hr F Hs) as [re1 Ere].
        exists (Some r1), (Some re1). rewrite Er, Ere. split; [reflexivity|]. split; [reflexivity|]. intros _. eauto. }
    destruct R as [r1 [re1 [Er [Ere Hst]]]]. rewrite Er, Ere. cbn [bind].
    unfold analyze. cbn [bt bc bi b_dites b_dites_err b_ibias b_ibias_err b_rsh b_rsh_err b_rp b_rp_err b_normalinds b_fitsc b_scinds].
    destruct (P r1 re1 ninds He) as [fits ->]. cbn [bind]. destruct (Q r1 re1) as [scf ->]. cbn [bind].
    match goal with |- context [bind (if fitsc then Ok ?u else ?v) _] =>
      assert (Rp : exists rps, (if fitsc then Ok u else v) = Ok rps /\
        (fitsc = true -> rps = u) /\ (fitsc = false -> exists a1 a2, r1 = Some a1 /\ re1 = Some a2 /\ rps = (a1, a2)))
    end.
    { destruct fitsc.
      - eexists. split; [reflexivity|]. split; [reflexivity|discriminate].
      - destruct (Hst eq_refl) as [a1 [a2 [-> ->]]]. cbn [getattr bind]. eexists. split; [reflexivity|]. split; [discriminate|].
        intros _. eauto. }
    destruct Rp as [rps [-> [Rt Rf]]]. cbn [bind]. split.
    + intros HF Hy Hx. destruct Hy as [->|[v ->]]; [|reflexivity]. cbn [use_off bind].
      destruct Hx as [->|[v ->]]; [|reflexivity]. destruct HF as [[v E]|[v E]]; discriminate.
    + intros Hy Hx.
      match goal with |- context [use_off ?c ?ce yo yoe] => destruct (use_off_ok c ce yo yoe Hy) as [[ys yse] ->] end. cbn [bind].
      match goal with |- context [use_off ?c ?ce xo xoe] => destruct (use_off_ok c ce xo xoe Hx) as [[xs xse] ->] end. cbn [bind].
      split.
      * intros Ef Hlost. destruct (Rf Ef) as [a1 [a2 [E1 [E2 ->]]]]. subst r1 re1. cbn [snd].
        now rewrite (proj1 (first_bias_stored_err a2 Ere) Hlost).
      * intros Hok. destruct fitsc.
        -- rewrite (Rt eq_refl). cbn [fst snd first_bias shape of3 bind]. eexists. reflexivity.
        -- destruct (Rf eq_refl) as [a1 [a2 [E1 [E2 ->]]]]. subst r1 re1. cbn [fst snd].
           destruct Hok as [?|Hok]; [discriminate|].
           destruct (proj2 (first_bias_stored_err a2 Ere) Hok) as [f1 ->]. cbn [bind].
           destruct (proj2 (first_bias_stored a1 rp Er) Hok) as [f2 ->]. cbn [bind]. eexists. reflexivity.
Qed.
End Run.

(** ** Values *)

Ltac inv_ibis E Hd :=
  let nt' := fresh "nt'" in let nc' := fresh "nc'" in let ni' := fresh "ni'" in
  let p := fresh "p" in let q := fresh "q" in let ys := fresh "ys" in let yse := fresh "yse" in
  let xs := fresh "xs" in let xse := fresh "xse" in
  let Hd' := fresh "Hd'" in let HN := fresh "HN" in let HS := fresh "HS" in let HY := fresh "HY" in let HX := fresh "HX" in
  let HV := fresh "HV" in let HR := fresh "HR" in let HP := fresh "HP" in
  destruct (ibis_call_inv _ _ _ _ _ _ _ _ _ _ _ _ _ _ _ _ _ _ E) as
    [nt' [nc' [ni' [p [q [ys [yse [xs [xse [Hd' [_ [HN [HS [[HY HX] [HV [HR HP]]]]]]]]]]]]]]]];
  destruct (has_dims_unique _ _ _ _ _ _ _ Hd Hd') as [<- [<- <-]]; clear Hd'.

Lemma arg_bfit_inv cf nc ni d de ib l t c p : arg_bfit cf nc ni d de ib l t c = Ok p ->
  (forall i, In i l -> (i < ni)%nat) /\ (2 <= length l)%nat /\
  cf (points (entry nc ni ib t c) (entry nc ni d t c) (entry nc ni de t c) l) = Ok p.
Proof.
  intros E. apply fit_row_ok in E. destruct E as [H [L E]]. split; [|split; [exact L|exact E]].
  intros i Hi. now apply H.
Qed.

Lemma ibis_lines cf d de ib ibe rsh rshe ninds rp rpe nn fitsc scinds yo yoe xo xoe out nt nc ni :
  ibis_call cf d de ib ibe rsh rshe ninds rp rpe nn fitsc scinds yo yoe xo xoe = Ok out -> has_dims d nt nc ni ->
  forall t c, (t < nt)%nat -> (c < nc)%nat ->
    exists covn,
      cf (points (entry nc ni ib t c) (entry nc ni d t c) (entry nc ni de t c) ninds)
        = Ok (mkFit (o_int_n out t c) (o_slope_n out t c) covn) /\
      (fitsc = true -> exists l covs, scinds = Some l /\
        cf (points (entry nc ni ib t c) (entry nc ni d t c) (entry nc ni de t c) l)
        = Ok (mkFit (o_int_sc out t c) (o_slope_sc out t c) covs)).
Proof.
  intros E Hd t c Ht Hc. inv_ibis E Hd. destruct (HV t c) as [V1 [V2 [V3 [V4 _]]]].
  exists (fcov (p t c)). split.
  - specialize (HN t c Ht Hc). apply arg_bfit_inv in HN. destruct HN as [_ [_ HN]]. rewrite HN, V1, V2. now destruct (p t c).
  - intros ->. destruct (HS eq_refl) as [l [-> HS']]. specialize (HS' t c Ht Hc). apply arg_bfit_inv in HS'.
    destruct HS' as [_ [_ HS']]. exists l, (fcov (q t c)). split; [reflexivity|]. rewrite HS', V3, V4. now destruct (q t c).
Qed.

Lemma ibis_crossing cf d de ib ibe rsh rshe ninds rp rpe nn scinds yoe xoe out nt nc ni :
  ibis_call cf d de ib ibe rsh rshe ninds rp rpe nn true scinds ONone yoe ONone xoe = Ok out -> has_dims d nt nc ni ->
  forall t c, (t < nt)%nat -> (c < nc)%nat -> o_slope_n out t c <> o_slope_sc out t c ->
    forall x y, (y = o_slope_n out t c * x + o_int_n out t c /\ y = o_slope_sc out t c * x + o_int_sc out t c) <->
      (x = o_ibias_off out t c /\ y = o_ioff out t c).
Proof.
  intros E Hd t c Ht Hc Hne x y. inv_ibis E Hd.
  destruct (HV t c) as [_ [_ [_ [_ [V5 [_ [V7 _]]]]]]]. rewrite V5, V7.
  cbn [use_off] in HY, HX.
  apply (f_equal (fun r => match r with Ok a => fst a t c 0%nat | Err _ => 0 end)) in HY. cbv beta iota in HY. cbn [fst] in HY.
  apply (f_equal (fun r => match r with Ok a => fst a t c 0%nat | Err _ => 0 end)) in HX. cbv beta iota in HX. cbn [fst] in HX.
  rewrite <- HY, <- HX.
  set (mn := o_slope_n out t c) in *. set (ms := o_slope_sc out t c) in *.
  set (bn := o_int_n out t c). set (bs := o_int_sc out t c). assert (N : ms - mn <> 0) by lra. split.
  - intros [H1 H2]. assert (X : x = (bn - bs) / (ms - mn)).
    { apply (Rmult_eq_reg_r (ms - mn)); [|exact N]. unfold Rdiv. rewrite Rmult_assoc, Rinv_l by exact N. lra. }
    split; [exact X|]. rewrite <- X. exact H1.
  - intros [-> ->]. split; [reflexivity|field; exact N].
Qed.

Lemma ibis_no_sc cf d de ib ibe rsh rshe ninds rp rpe nn scinds yoe xoe out nt nc ni :
  ibis_call cf d de ib ibe rsh rshe ninds rp rpe nn false scinds ONone yoe ONone xoe = Ok out -> has_dims d nt nc ni ->
  forall t c, (t < nt)%nat -> (c < nc)%nat ->
    o_ibias_off out t c = 0 /\ o_ioff out t c = o_int_n out t c /\
    ((0 < ni)%nat -> load_at nt nc ni rp t c 0 (o_rp out t c) /\ load_at nt nc ni rpe t c 0 (o_rp_err out t c)).
Proof.
  intros E Hd t c Ht Hc. inv_ibis E Hd.
  destruct (HV t c) as [_ [_ [_ [_ [V5 [_ [V7 _]]]]]]]. rewrite V5, V7.
  cbn [use_off] in HY, HX.
  apply (f_equal (fun r => match r with Ok a => fst a t c 0%nat | Err _ => 0 end)) in HY. cbv beta iota in HY. cbn [fst] in HY.
  apply (f_equal (fun r => match r with Ok a => fst a t c 0%nat | Err _ => 0 end)) in HX. cbv beta iota in HX. cbn [fst] in HX.
  split; [now symmetry|]. split; [now symmetry|]. intros Hi. exact (HR t c Hi Ht Hc).
Qed.

(** Kirchhoff and Joule at every bias point. [J] is the current through the shunt. *)
Lemma ibis_circuit cf d de ib ibe rsh rshe ninds rp rpe nn fitsc scinds yo yoe xo xoe out nt nc ni :
  ibis_call cf d de ib ibe rsh rshe ninds rp rpe nn fitsc scinds yo yoe xo xoe = Ok out -> has_dims d nt nc ni ->
  (yo = ONone) -> (xo = ONone) ->
  forall t c i, (t < nt)%nat -> (c < nc)%nat -> (i < ni)%nat ->
    let I := o_ites out t c i in let IB := o_ibias_true out t c i in
    I = entry nc ni d t c i - o_ioff out t c /\
    IB = entry nc ni ib t c i - o_ibias_off out t c /\
    o_vb out t c i = IB * rsh /\
    (I <> 0 -> (IB - I) * rsh = I * (o_rp out t c + o_r0 out t c i) /\
               o_ptes out t c i = I ^ 2 * o_r0 out t c i) /\
    o_rnorm out t c + rsh + o_rp out t c = o_rfit out t c.
Proof.
  intros E Hd -> -> t c i Ht Hc Hi I IB. inv_ibis E Hd.
  destruct (HV t c) as [_ [_ [_ [_ [V5 [_ [V7 [_ [_ [_ [V11 _]]]]]]]]]]].
  destruct (HP t c i) as [P1 [_ [P3 [_ [P5 [_ [P7 [_ [P9 _]]]]]]]]].
  cbn [use_off] in HY, HX.
  assert (Y : forall i, ys t c i = ys t c 0%nat).
  { intros j. apply (f_equal (fun r => match r with Ok a => fst a | Err _ => ys end)) in HY. cbv beta iota in HY. cbn [fst] in HY.
    rewrite <- HY. reflexivity. }
  assert (X : forall i, xs t c i = xs t c 0%nat).
  { intros j. apply (f_equal (fun r => match r with Ok a => fst a | Err _ => xs end)) in HX. cbv beta iota in HX. cbn [fst] in HX.
    rewrite <- HX. reflexivity. }
  rewrite (Y i), <- V5 in P1. rewrite (X i), <- V7 in P3.
  split; [exact P1|]. split; [exact P3|]. split; [exact P9|]. split; [|rewrite V11; ring].
  intros NI. unfold I, IB in *. rewrite P1 in NI. rewrite P5, P7, P1, P3. unfold rtes, ptes. split; field; exact NI.
Qed.

Definition diag6_independent a b c d e f : forall i j,
  diag [a ^ 2; b ^ 2; c ^ 2; d ^ 2; e ^ 2; f ^ 2] i j = independent [a; b; c; d; e; f] i j.
Proof.
  intros i j. unfold diag, independent. destruct (i =? j)%nat; [|reflexivity].
  destruct i as [|[|[|[|[|[|[|i]]]]]]]; cbn [nth]; ring.
Defined.

Lemma propagates_ext n f x cov cov' e : (forall i j, cov i j = cov' i j) -> propagates n f x cov e -> propagates n f x cov' e.
Proof.
  intros H [g [Hg ->]]. exists g. split; [exact Hg|]. f_equal. apply rsum_ext. intros i _. apply rsum_ext. intros j _.
  now rewrite H.
Qed.

Lemma ibis_point_errors cf d de ib ibe rsh rshe ninds rp rpe nn fitsc scinds yo yoe xo xoe out nt nc ni :
  ibis_call cf d de ib ibe rsh rshe ninds rp rpe nn fitsc scinds yo yoe xo xoe = Ok out -> has_dims d nt nc ni ->
  forall t c i, (t < nt)%nat -> (c < nc)%nat -> (i < ni)%nat ->
    let x := vec [entry nc ni ib t c i; o_ibias_off out t c; entry nc ni d t c i; o_ioff out t c; rsh; o_rp out t c] in
    let cov := independent [entry nc ni ibe t c i; o_ibias_off_err out t c; entry nc ni de t c i; o_ioff_err out t c; rshe; o_rp_err out t c] in
    (entry nc ni d t c i <> o_ioff out t c ->
      propagates 6 (fun y => (y 0%nat - y 1%nat) * y 4%nat / (y 2%nat - y 3%nat) - (y 4%nat + y 5%nat)) x cov (o_r0_err out t c i)) /\
    propagates 6 (fun y => (y 0%nat - y 1%nat) * y 4%nat * (y 2%nat - y 3%nat) - (y 4%nat + y 5%nat) * (y 2%nat - y 3%nat) ^ 2) x cov
      (o_ptes_err out t c i) /\
    propagates 2 (fun y => y 0%nat * y 1%nat) (vec [o_ibias_true out t c i; rsh]) (independent [o_ibias_true_err out t c i; rshe])
      (o_vb_err out t c i).
Proof.
  intros E Hd t c i Ht Hc Hi x cov. inv_ibis E Hd.
  destruct (HP t c i) as [_ [_ [_ [_ [_ [P6 [_ [P8 [_ P10]]]]]]]]]. rewrite P6, P8, P10. split; [|split].
  - intros N. eapply propagates_ext; [intros; apply diag6_independent|].
    apply (rtes_err_propagates x). unfold x, vec. cbn [nth]. lra.
  - eapply propagates_ext; [intros; apply diag6_independent|]. apply (ptes_err_propagates x).
  - exists (vec [rsh; o_ibias_true out t c i]). split.
    + intros [|[|k]] Hk; try lia; unfold upd, vec; cbn [Nat.eqb nth]; auto_derive; try exact I; ring.
    + f_equal. unfold vec, independent. cbn [rsum Nat.eqb nth]. ring.
Qed.

Lemma ibis_offset_errors cf d de ib ibe rsh rshe ninds rp rpe nn scinds yoe xoe out nt nc ni :
  ibis_call cf d de ib ibe rsh rshe ninds rp rpe nn true scinds ONone yoe ONone xoe = Ok out -> has_dims d nt nc ni ->
  forall t c, (t < nt)%nat -> (c < nc)%nat -> o_slope_n out t c <> o_slope_sc out t c ->
    exists covn covs l, scinds = Some l /\
      cf (points (entry nc ni ib t c) (entry nc ni d t c) (entry nc ni de t c) ninds)
        = Ok (mkFit (o_int_n out t c) (o_slope_n out t c) covn) /\
      cf (points (entry nc ni ib t c) (entry nc ni d t c) (entry nc ni de t c) l)
        = Ok (mkFit (o_int_sc out t c) (o_slope_sc out t c) covs) /\
      let x := vec [o_int_n out t c; o_slope_n out t c; o_int_sc out t c; o_slope_sc out t c] in
      let cov := independent [sqrt (covn 0%nat 0%nat); sqrt (covn 1%nat 1%nat); sqrt (covs 0%nat 0%nat); sqrt (covs 1%nat 1%nat)] in
      propagates 4 cross_x x cov (o_ibias_off_err out t c) /\
      o_ioff_err out t c = y_int_err (o_int_n out t c) (o_slope_n out t c) (o_int_sc out t c) (o_slope_sc out t c)
        (sqrt (covn 0%nat 0%nat)) (sqrt (covn 1%nat 1%nat)) (sqrt (covs 0%nat 0%nat)) (sqrt (covs 1%nat 1%nat)) /\
      ((o_int_n out t c - o_int_sc out t c) * (o_slope_n out t c - 1) * sqrt (covn 1%nat 1%nat) = 0 ->
         propagates 4 cross_y x cov (o_ioff_err out t c)).
Proof.
  intros E Hd t c Ht Hc Hne. inv_ibis E Hd.
  destruct (HV t c) as [V1 [V2 [V3 [V4 [_ [V6 [_ [V8 _]]]]]]]]. destruct (HS eq_refl) as [l [-> HS']].
  exists (fcov (p t c)), (fcov (q t c)), l. split; [reflexivity|]. split; [|split].
  - specialize (HN t c Ht Hc). apply arg_bfit_inv in HN. destruct HN as [_ [_ HN]]. rewrite HN, V1, V2. now destruct (p t c).
  - specialize (HS' t c Ht Hc). apply arg_bfit_inv in HS'. destruct HS' as [_ [_ HS']]. rewrite HS', V3, V4. now destruct (q t c).
  - cbn [use_off] in HY, HX.
    apply (f_equal (fun r => match r with Ok a => snd a t c 0%nat | Err _ => 0 end)) in HY. cbv beta iota in HY. cbn [snd] in HY.
    apply (f_equal (fun r => match r with Ok a => snd a t c 0%nat | Err _ => 0 end)) in HX. cbv beta iota in HX. cbn [snd] in HX.
    rewrite V6, V8, <- HX, <- HY. split; [apply x_int_err_propagates; lra|]. split; [reflexivity|].
    intros Z. apply y_int_err_propagates; [lra|exact Z].
Qed.

Lemma ibis_resistance_errors cf d de ib ibe rsh rshe ninds rp rpe nn fitsc scinds yo yoe xo xoe out nt nc ni :
  ibis_call cf d de ib ibe rsh rshe ninds rp rpe nn fitsc scinds yo yoe xo xoe = Ok out -> has_dims d nt nc ni ->
  forall t c, (t < nt)%nat -> (c < nc)%nat -> forall covn,
    cf (points (entry nc ni ib t c) (entry nc ni d t c) (entry nc ni de t c) ninds)
        = Ok (mkFit (o_int_n out t c) (o_slope_n out t c) covn) -> o_slope_n out t c <> 0 ->
    o_rfit_err out t c = sqrt ((rsh * covn 1%nat 1%nat / o_slope_n out t c ^ 4) ^ 2 + (rshe / o_slope_n out t c) ^ 2) /\
    (covn 1%nat 1%nat = 0 ->
       propagates 2 (fun y => y 1%nat / y 0%nat) (vec [o_slope_n out t c; rsh]) (independent [sqrt (covn 1%nat 1%nat); rshe])
         (o_rfit_err out t c)).
Proof.
  intros E Hd t c Ht Hc covn Hcf Hm. inv_ibis E Hd.
  destruct (HV t c) as [V1 [V2 [_ [_ [_ [_ [_ [_ [_ [V10 _]]]]]]]]]].
  specialize (HN t c Ht Hc). apply arg_bfit_inv in HN. destruct HN as [_ [_ HN]].
  assert (Ec : fcov (p t c) = covn).
  { rewrite Hcf in HN. apply (f_equal (fun r => match r with Ok a => fcov a | Err _ => covn end)) in HN. cbv beta iota in HN. cbn [fcov] in HN. now symmetry. }
  rewrite V10, Ec, <- V1. set (m := o_slope_n out t c) in *.
  assert (F : (rsh * (-1 / m ^ 2 * (-1 / m ^ 2) * covn 1%nat 1%nat)) ^ 2 + (1 / m * rshe) ^ 2
            = (rsh * covn 1%nat 1%nat / m ^ 4) ^ 2 + (rshe / m) ^ 2) by (field; exact Hm).
  rewrite F. split; [reflexivity|]. intros Z. exists (vec [- rsh / m ^ 2; 1 / m]). split.
  - intros [|[|k]] Hk; try lia; unfold upd, vec; cbn [Nat.eqb nth]; auto_derive; try exact I; try exact Hm; field; exact Hm.
  - f_equal. unfold vec, independent. cbn [rsum Nat.eqb nth]. rewrite Z, sqrt_0. field. exact Hm.
Qed.

(** Explicit offset arrays *)
Lemma ibis_array_offsets cf d de ib ibe rsh rshe ninds rp rpe nn fitsc scinds fy gy fx gx out nt nc ni :
  ibis_call cf d de ib ibe rsh rshe ninds rp rpe nn fitsc scinds (OArr fy) (OArr gy) (OArr fx) (OArr gx) = Ok out -> has_dims d nt nc ni ->
  forall t c, (t < nt)%nat -> (c < nc)%nat ->
    o_ioff out t c = fy t c 0%nat /\ o_ioff_err out t c = gy t c 0%nat /\
    o_ibias_off out t c = fx t c 0%nat /\ o_ibias_off_err out t c = gx t c 0%nat /\
    forall i, (i < ni)%nat -> o_ites out t c i = entry nc ni d t c i - fy t c i /\
      o_ibias_true out t c i = entry nc ni ib t c i - fx t c i.
Proof.
  intros E Hd t c Ht Hc. inv_ibis E Hd. cbn [use_off] in HY, HX. injection HY as <- <-. injection HX as <- <-.
  destruct (HV t c) as [_ [_ [_ [_ [V5 [V6 [V7 [V8 _]]]]]]]]. rewrite V5, V6, V7, V8. repeat (split; [reflexivity|]).
  intros i Hi. destruct (HP t c i) as [P1 [_ [P3 _]]]. split; assumption.
Qed.

(** Noise-free data of the biased TES circuit *)
Lemma ibis_exact cf d de ib ibe rsh rshe ninds rpg rpge nn scinds yoe xoe out nt nc ni :
  (forall pts p, cf pts = Ok p -> best_line pts (fb p) (fm p)) ->
  ibis_call cf d de ib ibe rsh rshe ninds rpg rpge nn true (Some scinds) ONone yoe ONone xoe = Ok out -> has_dims d nt nc ni ->
  forall t c ioff iboff rn rp, (t < nt)%nat -> (c < nc)%nat -> rsh <> 0 -> rsh + rp <> 0 -> rsh + rp + rn <> 0 -> rn <> 0 ->
    (forall i, (i < ni)%nat -> entry nc ni de t c i <> 0) ->
    (* current divider: the bias current splits between shunt and sensor *)
    (forall i, In i ninds -> entry nc ni d t c i - ioff = (entry nc ni ib t c i - iboff) * rsh / (rsh + rp + rn)) ->
    (forall i, In i scinds -> entry nc ni d t c i - ioff = (entry nc ni ib t c i - iboff) * rsh / (rsh + rp)) ->
    (exists i j, In i ninds /\ In j ninds /\ entry nc ni ib t c i <> entry nc ni ib t c j) ->
    (exists i j, In i scinds /\ In j scinds /\ entry nc ni ib t c i <> entry nc ni ib t c j) ->
    o_ioff out t c = ioff /\ o_ibias_off out t c = iboff /\ o_rp out t c = rp /\ o_rnorm out t c = rn /\
    forall i R, (i < ni)%nat -> rsh + rp + R <> 0 -> entry nc ni ib t c i <> iboff ->
      entry nc ni d t c i - ioff = (entry nc ni ib t c i - iboff) * rsh / (rsh + rp + R) ->
      o_r0 out t c i = R /\ o_ptes out t c i = (entry nc ni d t c i - ioff) ^ 2 * R.
Proof.
  intros Hbest E Hd t c io ibo rn rp Ht Hc Hsh Hp Hn Hrn Hde Hnl Hsl Hnd Hsd.
  assert (E0 := E). inv_ibis E0 Hd.
  destruct (HV t c) as [V1 [V2 [V3 [V4 [_ [_ [_ [_ [V9 [_ [V11 _]]]]]]]]]]].
  specialize (HN t c Ht Hc). apply arg_bfit_inv in HN. destruct HN as [I1 [L1 HN]].
  destruct (HS eq_refl) as [l [El HS']]. injection El as <-. specialize (HS' t c Ht Hc). apply arg_bfit_inv in HS'.
  destruct HS' as [I2 [_ HS']].
  assert (Line : forall inds r, rsh + rp + r <> 0 -> (forall i, In i inds -> (i < ni)%nat) ->
    (forall i, In i inds -> entry nc ni d t c i - io = (entry nc ni ib t c i - ibo) * rsh / (rsh + rp + r)) ->
    (exists i j, In i inds /\ In j inds /\ entry nc ni ib t c i <> entry nc ni ib t c j) ->
    on_line (points (entry nc ni ib t c) (entry nc ni d t c) (entry nc ni de t c) inds)
      (io - ibo * rsh / (rsh + rp + r)) (rsh / (rsh + rp + r))).
  { intros inds r Hr Hi Hl [i [j [A [B D]]]]. split.
    - intros x y s Hx. apply in_map_iff in Hx. destruct Hx as [k [Ek Hk]]. injection Ek as <- <- <-.
      split; [apply Hde; now apply Hi|]. replace (entry nc ni d t c k) with (entry nc ni d t c k - io + io) by ring.
      rewrite (Hl k Hk). field. exact Hr.
    - unfold points. do 6 eexists. split; [apply in_map_iff; exists i; split; [reflexivity|exact A]|].
      split; [apply in_map_iff; exists j; split; [reflexivity|exact B]|exact D]. }
  destruct (best_line_exact _ _ _ _ _ (Hbest _ _ HN) (Line ninds rn Hn I1 Hnl Hnd)) as [Bn Mn].
  assert (Hp0 : rsh + rp + 0 <> 0) by (rewrite Rplus_0_r; exact Hp).
  assert (Hsl0 : forall i, In i scinds -> entry nc ni d t c i - io = (entry nc ni ib t c i - ibo) * rsh / (rsh + rp + 0)).
  { intros i Hi. rewrite Rplus_0_r. now apply Hsl. }
  destruct (best_line_exact _ _ _ _ _ (Hbest _ _ HS') (Line scinds 0 Hp0 I2 Hsl0 Hsd)) as [Bs Ms].
  rewrite Rplus_0_r in Bs, Ms.
  assert (Hni : (0 < ni)%nat). { destruct ninds as [|i ?]; [simpl in L1; lia|]. assert (i < ni)%nat by (apply I1; left; reflexivity). lia. }
  destruct (HR t c Hni Ht Hc) as [R1 _].
  assert (Nsl : o_slope_n out t c <> o_slope_sc out t c).
  { rewrite V1, V3, Mn, Ms. intros Q. apply Hrn.
    assert (Q' : rsh * (rsh + rp) = rsh * (rsh + rp + rn)).
    { replace (rsh * (rsh + rp)) with (rsh / (rsh + rp + rn) * ((rsh + rp) * (rsh + rp + rn))) by (field; exact Hn).
      rewrite Q. field. exact Hp. }
    apply Rmult_eq_reg_l in Q'; [lra|exact Hsh]. }
  assert (X : ibo = o_ibias_off out t c /\ io = o_ioff out t c).
  { apply (ibis_crossing _ _ _ _ _ _ _ _ _ _ _ _ _ _ _ _ _ _ E Hd t c Ht Hc Nsl).
    rewrite V1, V2, V3, V4, Mn, Bn, Ms, Bs. split; field; assumption. }
  destruct X as [Xb Xy]. symmetry in Xb, Xy. split; [exact Xy|]. split; [exact Xb|].
  assert (Rp : o_rp out t c = rp). { rewrite R1, Ms. field. split; assumption. }
  split; [exact Rp|]. split; [rewrite V11, V9, Rp, Mn; field; split; assumption|].
  intros i R Hi HRr Hne Hl.
  destruct (HP t c i) as [_ [_ [_ [_ [P5 [_ [P7 _]]]]]]]. rewrite P5, P7, Rp, Xb, Xy. unfold rtes, ptes. rewrite Hl.
  assert (entry nc ni ib t c i - ibo <> 0) by lra.
  split; field; repeat split; assumption.
Qed.
