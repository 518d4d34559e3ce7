(** * Constructors of IV and IBIS; remaining uncertainties and given offsets of IBIS *)
From Verif Require Import Base ListLemmas UtilsModel OFFreeModel IvModel IvSpec IvProofs1 IvProofs2 IvProofs3 IvProofs4 IvProofs5 IvProofs6 IvProofs7.
From Coquelicot Require Import Coquelicot.
Local Open Scope R_scope.

Lemma dims_err a e : dims a = Err e -> e = ValueError /\ forall nt nc ni, ~ has_dims a nt nc ni.
Proof.
  intros E. split.
  - unfold dims in E. destruct (shape a) as [|x [|y [|z [|w s]]]]; congruence.
  - intros nt nc ni H. apply dims_has in H. congruence.
Qed.

Lemma reshape3_err a nt nc ni e : reshape3 a nt nc ni = Err e -> e = ValueError /\ size a <> (nt * nc * ni)%nat.
Proof. unfold reshape3. destruct (Nat.eqb_spec (size a) (nt * nc * ni)); [discriminate|]. intros E. split; [congruence|assumption]. Qed.

Lemma reshape3_size a nt nc ni b : reshape3 a nt nc ni = Ok b -> size a = (nt * nc * ni)%nat.
Proof. unfold reshape3. destruct (Nat.eqb_spec (size a) (nt * nc * ni)); [auto|discriminate]. Qed.

Lemma store_r_err d nt nc ni r e : store_r d nt nc ni r = Err e -> e = ValueError /\ ~ documented_form nt nc ni r.
Proof.
  destruct r as [w|a]; [discriminate|]. cbn [store_r documented_form].
  destruct (shape_eqb (shape a) (nc :: nil)) eqn:E1; [discriminate|]. destruct (shape_eqb (shape a) [nt; nc]) eqn:E2; [discriminate|].
  destruct (shape_eqb (shape a) [nt; nc; ni]) eqn:E3; [discriminate|]. cbn [negb]. intros E. split; [congruence|].
  intros [K|[K|K]]; rewrite K, shape_eqb_refl in *; discriminate.
Qed.

Lemma store_r_total d nt nc ni r : documented_form nt nc ni r -> exists o, store_r d nt nc ni r = Ok o.
Proof.
  intros H. destruct (store_r d nt nc ni r) as [o|e] eqn:E; [now exists o|]. now apply store_r_err in E.
Qed.

Lemma store_err_total d nt nc ni r e : documented_form nt nc ni r -> same_form r e -> exists o, store_err d nt nc ni r e = Ok o.
Proof.
  destruct r as [w|a], e as [w'|b]; cbn [same_form]; intros H S; try contradiction; cbn [store_err]; [eauto|].
  rewrite S, shape_eqb_refl. apply store_r_total. cbn [documented_form] in *. now rewrite <- S.
Qed.

Lemma iv_init_outcome d de v ve r re nn inds : same_form r re ->
  (accepted d [de; v; ve] r nn -> exists o, iv_init d de v ve r re nn inds = Ok o) /\
  (~ accepted d [de; v; ve] r nn -> iv_init d de v ve r re nn inds = Err ValueError).
Proof.
  intros S. unfold accepted, iv_init. destruct (dims d) as [[[nt nc] ni]|e] eqn:Ed; cbn [bind].
  - assert (U : forall nt' nc' ni', has_dims d nt' nc' ni' -> nt' = nt /\ nc' = nc /\ ni' = ni).
    { intros nt' nc' ni' H. apply dims_has in H. split; [|split]; congruence. }
    apply dims_inv in Ed. destruct (Nat.eqb_spec nn nc) as [->|Hn]; cbn [negb].
    + destruct (reshape3_ok d nt nc ni (has_dims_size _ _ _ _ Ed)) as [a ->]. cbn [bind].
      assert (P : forall x e0, In x [de; v; ve] -> reshape3 x nt nc ni = Err e0 -> e0 = ValueError /\
        ~ (exists nt nc0 ni, has_dims d nt nc0 ni /\ nc = nc0 /\ (forall a, In a [de; v; ve] -> size a = (nt * nc0 * ni)%nat) /\ documented_form nt nc0 ni r)).
      { intros x e0 Hx E. apply reshape3_err in E. destruct E as [-> E]. split; [reflexivity|].
        intros (nt' & nc' & ni' & H & _ & Hs & _). destruct (U _ _ _ H) as [-> [-> ->]]. apply E, Hs, Hx. }
      destruct (reshape3 de nt nc ni) as [b|e] eqn:E1; cbn [bind].
      2:{ apply P in E1; [|now left]. destruct E1 as [-> E1]. split; [intros K; contradiction|intros _; reflexivity]. }
      destruct (reshape3 v nt nc ni) as [c|e] eqn:E2; cbn [bind].
      2:{ apply P in E2; [|right; now left]. destruct E2 as [-> E2]. split; [intros K; contradiction|intros _; reflexivity]. }
      destruct (reshape3 ve nt nc ni) as [f|e] eqn:E3; cbn [bind].
      2:{ apply P in E3; [|right; right; now left]. destruct E3 as [-> E3]. split; [intros K; contradiction|intros _; reflexivity]. }
      destruct (store_r d nt nc ni r) as [o|e] eqn:E4; cbn [bind].
      * assert (D : documented_form nt nc ni r).
        { destruct r as [w|x]; [exact I|]. cbn [documented_form]. unfold store_r in E4.
          destruct (shape_eqb (shape x) (nc :: nil)) eqn:A1; [left; now apply shape_eqb_true|].
          destruct (shape_eqb (shape x) [nt; nc]) eqn:A2; [right; left; now apply shape_eqb_true|].
          destruct (shape_eqb (shape x) [nt; nc; ni]) eqn:A3; [right; right; now apply shape_eqb_true|discriminate]. }
        destruct (store_err_total d nt nc ni r re D S) as [o' ->]. cbn [bind]. split; [intros _; eauto|].
        intros K. exfalso. apply K. exists nt, nc, ni. split; [exact Ed|]. split; [reflexivity|]. split; [|exact D].
        intros x [<-|[<-|[<-|[]]]]; eapply reshape3_size; eassumption.
      * apply store_r_err in E4. destruct E4 as [-> E4]. split; [|intros _; reflexivity].
        intros (nt' & nc' & ni' & H & _ & _ & D). destruct (U _ _ _ H) as [-> [-> ->]]. contradiction.
    + split; [|intros _; reflexivity]. intros (nt' & nc' & ni' & H & Hn' & _). destruct (U _ _ _ H) as [-> [-> ->]]. contradiction.
  - apply dims_err in Ed. destruct Ed as [-> Ed]. split; [|intros _; reflexivity]. intros (nt & nc & ni & H & _). exfalso. now apply (Ed nt nc ni).
Qed.

Lemma ibis_init_iv d de ib ibe rsh rshe ninds rp rpe nn fitsc scinds :
  ibis_init d de ib ibe rsh rshe ninds rp rpe nn fitsc scinds =
  if (fitsc && match scinds with None => true | Some _ => false end)%bool then Err ValueError
  else do o <- iv_init d de ib ibe rp rpe nn None;
       Ok (mkIbis (nt o) (nc o) (ni o) (dites o) (dites_err o) (vb o) (vb_err o) rsh rshe (rload o) (rload_err o) ninds fitsc scinds).
Proof.
  unfold ibis_init, iv_init. destruct (_ && _)%bool; [reflexivity|]. destruct (dims d) as [[[n1 n2] n3]|]; cbn [bind]; [|reflexivity].
  destruct (negb _); [reflexivity|].
  destruct (reshape3 d n1 n2 n3); cbn [bind]; [|reflexivity]. destruct (reshape3 de n1 n2 n3); cbn [bind]; [|reflexivity].
  destruct (reshape3 ib n1 n2 n3); cbn [bind]; [|reflexivity]. destruct (reshape3 ibe n1 n2 n3); cbn [bind]; [|reflexivity].
  destruct (store_r d n1 n2 n3 rp); cbn [bind]; [|reflexivity]. destruct (store_err d n1 n2 n3 rp rpe); cbn [bind]; reflexivity.
Qed.

Lemma ibis_init_outcome d de ib ibe rsh rshe ninds rp rpe nn fitsc scinds : same_form rp rpe ->
  (accepted d [de; ib; ibe] rp nn /\ (fitsc = true -> scinds <> None) ->
     exists o, ibis_init d de ib ibe rsh rshe ninds rp rpe nn fitsc scinds = Ok o) /\
  (~ (accepted d [de; ib; ibe] rp nn /\ (fitsc = true -> scinds <> None)) ->
     ibis_init d de ib ibe rsh rshe ninds rp rpe nn fitsc scinds = Err ValueError).
Proof.
  intros S. destruct (iv_init_outcome d de ib ibe rp rpe nn None S) as [A B]. rewrite ibis_init_iv.
  destruct fitsc, scinds as [l|]; cbn [andb].
  - split; [intros [H _]; destruct (A H) as [o ->]; cbn [bind]; eauto|intros H; rewrite B; [reflexivity|]; intros K; apply H; split; [exact K|discriminate]].
  - split; [intros [_ H]; exfalso; now apply H|reflexivity].
  - split; [intros [H _]; destruct (A H) as [o ->]; cbn [bind]; eauto|intros H; rewrite B; [reflexivity|]; intros K; apply H; split; [exact K|discriminate]].
  - split; [intros [H _]; destruct (A H) as [o ->]; cbn [bind]; eauto|intros H; rewrite B; [reflexivity|]; intros K; apply H; split; [exact K|discriminate]].
Qed.

(** ** IBIS: the values and uncertainties not covered by IvProofs5 *)

Lemma ibis_resistances cf d de ib ibe rsh rshe ninds rp rpe nn fitsc scinds yo yoe xo xoe out nt nc ni :
  ibis_call cf d de ib ibe rsh rshe ninds rp rpe nn fitsc scinds yo yoe xo xoe = Ok out -> has_dims d nt nc ni -> (0 < ni)%nat ->
  forall t c, (t < nt)%nat -> (c < nc)%nat ->
    o_rfit out t c = rsh / o_slope_n out t c /\
    (fitsc = true -> o_rp out t c = rsh / o_slope_sc out t c - rsh) /\
    (fitsc = false -> load_at nt nc ni rp t c 0 (o_rp out t c) /\ load_at nt nc ni rpe t c 0 (o_rp_err out t c)).
Proof.
  intros E Hd Hi t c Ht Hc. inv_ibis E Hd. destruct (HV t c) as [V1 [_ [V3 [_ [_ [_ [_ [_ [V9 _]]]]]]]]].
  specialize (HR t c Hi Ht Hc). split; [rewrite V9, V1; unfold Rdiv; ring|]. split; intros F; rewrite F in *.
  - destruct HR as [HR _]. rewrite HR, V3. unfold Rdiv. ring.
  - exact HR.
Qed.

Lemma ibis_more_errors cf d de ib ibe rsh rshe ninds rp rpe nn fitsc scinds yoe xoe out nt nc ni :
  ibis_call cf d de ib ibe rsh rshe ninds rp rpe nn fitsc scinds ONone yoe ONone xoe = Ok out -> has_dims d nt nc ni ->
  forall t c, (t < nt)%nat -> (c < nc)%nat ->
    (forall i, (i < ni)%nat ->
      propagates 2 (fun y => y 0%nat - y 1%nat) (vec [entry nc ni d t c i; o_ioff out t c])
        (independent [entry nc ni de t c i; o_ioff_err out t c]) (o_ites_err out t c i) /\
      propagates 2 (fun y => y 0%nat - y 1%nat) (vec [entry nc ni ib t c i; o_ibias_off out t c])
        (independent [entry nc ni ibe t c i; o_ibias_off_err out t c]) (o_ibias_true_err out t c i)) /\
    propagates 2 (fun y => y 0%nat - rsh - y 1%nat) (vec [o_rfit out t c; o_rp out t c])
      (independent [o_rfit_err out t c; o_rp_err out t c]) (o_rnorm_err out t c).
Proof.
  intros E Hd t c Ht Hc. inv_ibis E Hd. destruct (HV t c) as [_ [_ [_ [_ [V5 [V6 [V7 [V8 [_ [_ [_ V12]]]]]]]]]]].
  cbn [use_off] in HY, HX.
  assert (Y : forall i, yse t c i = yse t c 0%nat).
  { intros j. apply (f_equal (fun r => match r with Ok a => snd a | Err _ => yse end)) in HY. cbv beta iota in HY. cbn [snd] in HY.
    rewrite <- HY. reflexivity. }
  assert (X : forall i, xse t c i = xse t c 0%nat).
  { intros j. apply (f_equal (fun r => match r with Ok a => snd a | Err _ => xse end)) in HX. cbv beta iota in HX. cbn [snd] in HX.
    rewrite <- HX. reflexivity. }
  split.
  - intros i Hi. destruct (HP t c i) as [_ [P2 [_ [P4 _]]]]. rewrite P2, P4, (Y i), (X i), <- V6, <- V8. split.
    + exists (vec [1; -1]). split.
      * intros [|[|k]] Hk; try lia; unfold upd, vec; cbn [Nat.eqb nth]; auto_derive; try exact I; ring.
      * f_equal. unfold vec, independent. cbn [rsum Nat.eqb nth]. ring.
    + exists (vec [1; -1]). split.
      * intros [|[|k]] Hk; try lia; unfold upd, vec; cbn [Nat.eqb nth]; auto_derive; try exact I; ring.
      * f_equal. unfold vec, independent. cbn [rsum Nat.eqb nth]. ring.
  - rewrite V12. exists (vec [1; -1]). split.
    + intros [|[|k]] Hk; try lia; unfold upd, vec; cbn [Nat.eqb nth]; auto_derive; try exact I; ring.
    + f_equal. unfold vec, independent. cbn [rsum Nat.eqb nth]. ring.
Qed.

(** The parasitic resistance from the superconducting fit *)
Lemma ibis_rp_error cf d de ib ibe rsh rshe ninds rp rpe nn l yo yoe xo xoe out nt nc ni :
  ibis_call cf d de ib ibe rsh rshe ninds rp rpe nn true (Some l) yo yoe xo xoe = Ok out -> has_dims d nt nc ni -> (0 < ni)%nat ->
  forall t c, (t < nt)%nat -> (c < nc)%nat -> forall covs,
    cf (points (entry nc ni ib t c) (entry nc ni d t c) (entry nc ni de t c) l)
        = Ok (mkFit (o_int_sc out t c) (o_slope_sc out t c) covs) -> o_slope_sc out t c <> 0 ->
    o_rp_err out t c = sqrt ((rsh * covs 1%nat 1%nat / o_slope_sc out t c ^ 4) ^ 2 + ((1 / o_slope_sc out t c - 1) * rshe) ^ 2) /\
    (covs 1%nat 1%nat = 0 ->
       propagates 2 (fun y => y 1%nat / y 0%nat - y 1%nat) (vec [o_slope_sc out t c; rsh]) (independent [sqrt (covs 1%nat 1%nat); rshe])
         (o_rp_err out t c)).
Proof.
  intros E Hd Hi t c Ht Hc covs Hcf Hm. inv_ibis E Hd.
  destruct (HV t c) as [_ [_ [V3 _]]]. destruct (HS eq_refl) as [l' [El HS']]. injection El as <-.
  specialize (HS' t c Ht Hc). apply arg_bfit_inv in HS'. destruct HS' as [_ [_ HS']].
  assert (Ec : fcov (q t c) = covs).
  { rewrite Hcf in HS'. apply (f_equal (fun r => match r with Ok a => fcov a | Err _ => covs end)) in HS'. cbv beta iota in HS'. cbn [fcov] in HS'. now symmetry. }
  destruct (HR t c Hi Ht Hc) as [_ W]. rewrite W, Ec, <- V3. set (m := o_slope_sc out t c) in *.
  assert (F : (rsh * (-1 / m ^ 2 * (-1 / m ^ 2) * covs 1%nat 1%nat)) ^ 2 + ((1 / m - 1) * rshe) ^ 2
            = (rsh * covs 1%nat 1%nat / m ^ 4) ^ 2 + ((1 / m - 1) * rshe) ^ 2) by (field; exact Hm).
  rewrite F. split; [reflexivity|]. intros Z. exists (vec [- rsh / m ^ 2; 1 / m - 1]). split.
  - intros [|[|k]] Hk; try lia; unfold upd, vec; cbn [Nat.eqb nth]; auto_derive; try exact I; try exact Hm; field; exact Hm.
  - f_equal. unfold vec, independent. cbn [rsum Nat.eqb nth]. rewrite Z, sqrt_0. field. exact Hm.
Qed.

(** Shunt 1 with uncertainty 1, both slopes exactly known, 1/2 and 1: the normal resistance
    [rsh / mn - rsh / ms] has uncertainty 1, the reported one is 2. *)
Definition shunt_call (cf : fitter) : res ibis_out :=
  ibis_call cf ex_d ex_e ex_ib ex_z 1 1 [1; 2]%nat (RScalar 0) (RScalar 0) 1 true (Some [0; 3]%nat) ONone ONone ONone ONone.

Lemma shunt_ok cf : total_fitter cf -> exists out, shunt_call cf = Ok out.
Proof.
  intros Hf.
  assert (In4 : forall i, In i [1; 2]%nat -> (i < 4)%nat) by (intros i [<-|[<-|[]]]; lia).
  assert (In4' : forall i, In i [0; 3]%nat -> (i < 4)%nat) by (intros i [<-|[<-|[]]]; lia).
  assert (R := ibis_run cf ex_d ex_e ex_ib ex_z 1 1 [1; 2]%nat (RScalar 0) (RScalar 0) 1%nat true (Some [0; 3]%nat) 1%nat 1%nat 4%nat
                 ex_dims eq_refl eq_refl eq_refl eq_refl Hf (ex_enough [1; 2]%nat (le_n 2) In4)
                 (fun _ => ex_intro _ _ (conj eq_refl (ex_enough [0; 3]%nat (le_n 2) In4'))) I I ONone ONone ONone ONone).
  destruct R as [_ R]. destruct R as [_ R]; [right; tauto|].
  destruct R as [_ R]; [left; reflexivity|left; reflexivity|]. apply R. right. intros N. apply N. reflexivity.
Qed.

Lemma rnorm_err_wrong : exists cf out,
  total_fitter cf /\ shunt_call cf = Ok out /\
  exists bn mn bs ms,
    cf (points (entry 1 4 ex_ib 0 0) (entry 1 4 ex_d 0 0) (entry 1 4 ex_e 0 0) [1; 2]%nat) = Ok (mkFit bn mn zeros) /\
    cf (points (entry 1 4 ex_ib 0 0) (entry 1 4 ex_d 0 0) (entry 1 4 ex_e 0 0) [0; 3]%nat) = Ok (mkFit bs ms zeros) /\
    mn <> 0 /\ ms <> 0 /\ o_rnorm out 0%nat 0%nat = 1 / mn - 1 / ms /\
    o_rnorm_err out 0%nat 0%nat = 2 /\ propagates 1 (fun y => y 0%nat / mn - y 0%nat / ms) (vec (1 :: nil)) (independent (1 :: nil)) 1.
Proof.
  set (g := mkFit 0 (1 / 2) zeros). set (f := mkFit 0 1 zeros). set (cf := two_fitter f g).
  destruct (shunt_ok cf (two_total f g)) as [out E].
  exists cf, out. split; [apply two_total|]. split; [exact E|].
  exists 0, (1 / 2), 0, 1.
  assert (P1 : cf (points (entry 1 4 ex_ib 0 0) (entry 1 4 ex_d 0 0) (entry 1 4 ex_e 0 0) [1; 2]%nat) = Ok g).
  { unfold cf, two_fitter, points. cbn [map]. unfold ex_ib. rewrite !entry_array. cbn [Nat.mul Nat.add nth].
    destruct (Reqb_spec 1 0) as [K|_]; [lra|reflexivity]. }
  assert (P2 : cf (points (entry 1 4 ex_ib 0 0) (entry 1 4 ex_d 0 0) (entry 1 4 ex_e 0 0) [0; 3]%nat) = Ok f).
  { unfold cf, two_fitter, points. cbn [map]. unfold ex_ib. rewrite !entry_array. cbn [Nat.mul Nat.add nth].
    destruct (Reqb_spec 0 0) as [_|K]; [reflexivity|lra]. }
  split; [exact P1|]. split; [exact P2|]. split; [lra|]. split; [lra|].
  destruct (ibis_lines _ _ _ _ _ _ _ _ _ _ _ _ _ _ _ _ _ _ _ _ _ E ex_dims 0%nat 0%nat ltac:(lia) ltac:(lia)) as [covn [H1 H2]].
  destruct (H2 eq_refl) as [l [covs [El H3]]]. injection El as <-.
  assert (A1 : mkFit (o_int_n out 0%nat 0%nat) (o_slope_n out 0%nat 0%nat) covn = g) by congruence.
  assert (A2 : mkFit (o_int_sc out 0%nat 0%nat) (o_slope_sc out 0%nat 0%nat) covs = f) by congruence.
  assert (M1 : o_slope_n out 0%nat 0%nat = 1 / 2) by exact (f_equal fm A1).
  assert (M2 : o_slope_sc out 0%nat 0%nat = 1) by exact (f_equal fm A2).
  assert (C1 : covn = zeros) by exact (f_equal fcov A1). assert (C2 : covs = zeros) by exact (f_equal fcov A2).
  destruct (ibis_resistances _ _ _ _ _ _ _ _ _ _ _ _ _ _ _ _ _ _ _ _ _ E ex_dims ltac:(lia) 0%nat 0%nat ltac:(lia) ltac:(lia)) as [R1 [R2 _]].
  specialize (R2 eq_refl). rewrite M1 in R1. rewrite M2 in R2.
  destruct (ibis_resistance_errors _ _ _ _ _ _ _ _ _ _ _ _ _ _ _ _ _ _ _ _ _ E ex_dims 0%nat 0%nat ltac:(lia) ltac:(lia) covn H1 ltac:(rewrite M1; lra)) as [S1 _].
  destruct (ibis_rp_error _ _ _ _ _ _ _ _ _ _ _ _ _ _ _ _ _ _ _ _ E ex_dims ltac:(lia) 0%nat 0%nat ltac:(lia) ltac:(lia) covs H3 ltac:(rewrite M2; lra)) as [S2 _].
  rewrite M1, C1 in S1. rewrite M2, C2 in S2. unfold zeros in S1, S2.
  match type of S1 with _ = sqrt ?u => replace u with (2 * 2) in S1 by field end. rewrite sqrt_square in S1 by lra.
  match type of S2 with _ = sqrt ?u => replace u with 0 in S2 by field end. rewrite sqrt_0 in S2.
  assert (N : o_rnorm_err out 0%nat 0%nat = sqrt (o_rfit_err out 0%nat 0%nat ^ 2 + o_rp_err out 0%nat 0%nat ^ 2) /\
              o_rnorm out 0%nat 0%nat = o_rfit out 0%nat 0%nat - 1 - o_rp out 0%nat 0%nat).
  { inv_ibis E ex_dims. destruct (HV 0%nat 0%nat) as [_ [_ [_ [_ [_ [_ [_ [_ [_ [_ [V11 V12]]]]]]]]]]]. split; assumption. }
  destruct N as [N1 N2]. split; [rewrite N2, R1, R2; field|]. split.
  - rewrite N1, S1, S2. match goal with |- sqrt ?u = _ => replace u with (2 * 2) by ring end. apply sqrt_square. lra.
  - exists (fun _ => 1). split.
    + intros [|k] Hk; try lia. unfold upd, vec. cbn [Nat.eqb nth]. auto_derive; [repeat split; lra|field].
    + unfold independent. cbn [rsum Nat.eqb nth]. match goal with |- _ = sqrt ?u => replace u with 1 by ring end. now rewrite sqrt_1.
Qed.

(** The variance of the inverse superconducting slope is used as its standard deviation. *)
Lemma rp_err_wrong : exists cf out bs ms covs,
  total_fitter cf /\ ex_call cf true = Ok out /\
  cf (points (entry 1 4 ex_ib 0 0) (entry 1 4 ex_d 0 0) (entry 1 4 ex_e 0 0) [0; 3]%nat) = Ok (mkFit bs ms covs) /\
  ms <> 0 /\ 0 <= covs 1%nat 1%nat /\
  ~ propagates 2 (fun y => y 1%nat / y 0%nat - y 1%nat) (vec [ms; 1]) (independent [sqrt (covs 1%nat 1%nat); 0]) (o_rp_err out 0%nat 0%nat).
Proof.
  set (cf := const_fitter 0 1 (only 1 1 4)).
  destruct (ex_ok cf true (const_total _ _ _)) as [out E].
  exists cf, out, 0, 1, (only 1 1 4). split; [apply const_total|]. split; [exact E|]. split; [reflexivity|].
  unfold only. cbn [Nat.eqb andb]. split; [lra|]. split; [lra|].
  destruct (ibis_lines _ _ _ _ _ _ _ _ _ _ _ _ _ _ _ _ _ _ _ _ _ E ex_dims 0%nat 0%nat ltac:(lia) ltac:(lia)) as [covn [_ H1]].
  destruct (H1 eq_refl) as [l [covs [El H2]]]. injection El as <-.
  assert (A2 : mkFit (o_int_sc out 0%nat 0%nat) (o_slope_sc out 0%nat 0%nat) covs = mkFit 0 1 (only 1 1 4)) by (unfold cf, const_fitter in H2; congruence).
  assert (M : o_slope_sc out 0%nat 0%nat = 1) by exact (f_equal fm A2).
  assert (C : covs = only 1 1 4) by exact (f_equal fcov A2).
  destruct (ibis_rp_error _ _ _ _ _ _ _ _ _ _ _ _ _ _ _ _ _ _ _ _ E ex_dims ltac:(lia) 0%nat 0%nat ltac:(lia) ltac:(lia) covs H2 ltac:(rewrite M; lra)) as [V _].
  rewrite M, C in V. unfold only in V. cbn [Nat.eqb andb] in V.
  match type of V with _ = sqrt ?u => replace u with (4 * 4) in V by field end. rewrite sqrt_square in V by lra.
  intros HP. rewrite V in HP.
  assert (T : propagates 2 (fun y => y 1%nat / y 0%nat - y 1%nat) (vec [1; 1]) (independent [sqrt 4; 0]) 2).
  { exists (vec [-1; 0]). split.
    - intros [|[|k]] Hk; try lia; unfold upd, vec; cbn [Nat.eqb nth]; auto_derive; try exact I; try lra; field.
    - unfold vec, independent. cbn [rsum Nat.eqb nth]. rewrite pow2_sqrt by lra.
      match goal with |- _ = sqrt ?u => replace u with (2 * 2) by ring end. now rewrite sqrt_square by lra. }
  assert (Q := propagates_unique _ _ _ _ _ _ HP T). lra.
Qed.

(** ** Given offset arrays *)

Lemma ibis_given_circuit cf d de ib ibe rsh rshe ninds rp rpe nn fitsc scinds fy gy fx gx out nt nc ni :
  ibis_call cf d de ib ibe rsh rshe ninds rp rpe nn fitsc scinds (OArr fy) (OArr gy) (OArr fx) (OArr gx) = Ok out -> has_dims d nt nc ni ->
  forall t c i, (t < nt)%nat -> (c < nc)%nat -> (i < ni)%nat ->
    let I := o_ites out t c i in let IB := o_ibias_true out t c i in
    o_vb out t c i = IB * rsh /\
    (let D := entry nc ni d t c i - fy t c 0%nat in let B := entry nc ni ib t c i - fx t c 0%nat in
     D <> 0 -> (B - D) * rsh = D * (o_rp out t c + o_r0 out t c i) /\ o_ptes out t c i = D ^ 2 * o_r0 out t c i) /\
    (fy t c i = fy t c 0%nat -> fx t c i = fx t c 0%nat -> I <> 0 ->
       (IB - I) * rsh = I * (o_rp out t c + o_r0 out t c i) /\ o_ptes out t c i = I ^ 2 * o_r0 out t c i).
Proof.
  intros E Hd t c i Ht Hc Hi I IB.
  destruct (ibis_array_offsets _ _ _ _ _ _ _ _ _ _ _ _ _ _ _ _ _ _ _ _ _ E Hd t c Ht Hc) as [A1 [_ [A3 [_ A5]]]].
  destruct (A5 i Hi) as [I1 I2].
  inv_ibis E Hd. destruct (HP t c i) as [_ [_ [_ [_ [P5 [_ [P7 [_ [P9 _]]]]]]]]].
  rewrite A1, A3 in P5, P7.
  assert (K : let D := entry nc ni d t c i - fy t c 0%nat in let B := entry nc ni ib t c i - fx t c 0%nat in
     D <> 0 -> (B - D) * rsh = D * (o_rp out t c + o_r0 out t c i) /\ o_ptes out t c i = D ^ 2 * o_r0 out t c i).
  { cbv zeta. intros ND. rewrite P5, P7. unfold rtes, ptes. split; field; exact ND. }
  split; [exact P9|]. split; [exact K|]. intros Y X. unfold I, IB. rewrite I1, I2, Y, X. exact K.
Qed.

(** Offsets 0 at bias point 0 and 1 at the others *)
Definition step : arr3 := fun _ _ i => match i with O => 0 | _ => 1 end.
Definition none3 : arr3 := fun _ _ _ => 0.

Lemma given_circuit_wrong : exists cf out,
  total_fitter cf /\
  ibis_call cf ex_d ex_e ex_ib ex_z 1 0 [1; 2]%nat (RScalar 0) (RScalar 0) 1 false None (OArr step) (OArr none3) (OArr none3) (OArr none3) = Ok out /\
  let I := o_ites out 0%nat 0%nat 1%nat in let IB := o_ibias_true out 0%nat 0%nat 1%nat in
  I = 1 /\ IB = 1 /\ o_rp out 0%nat 0%nat = 0 /\ o_r0 out 0%nat 0%nat 1%nat = -1 / 2 /\
  (IB - I) * 1 <> I * (o_rp out 0%nat 0%nat + o_r0 out 0%nat 0%nat 1%nat).
Proof.
  set (cf := const_fitter 0 1 zeros).
  assert (In4 : forall i, In i [1; 2]%nat -> (i < 4)%nat) by (intros i [<-|[<-|[]]]; lia).
  assert (R := ibis_run cf ex_d ex_e ex_ib ex_z 1 0 [1; 2]%nat (RScalar 0) (RScalar 0) 1%nat false None 1%nat 1%nat 4%nat
                 ex_dims eq_refl eq_refl eq_refl eq_refl (const_total _ _ _) (ex_enough [1; 2]%nat (le_n 2) In4)
                 ltac:(discriminate) I I (OArr step) (OArr none3) (OArr none3) (OArr none3)).
  destruct R as [_ R]. destruct R as [_ R]; [right; tauto|].
  destruct R as [_ R]; [right; eauto|right; eauto|]. destruct R as [out E]; [right; intros N; apply N; reflexivity|].
  exists cf, out. split; [apply const_total|]. split; [exact E|].
  destruct (ibis_array_offsets _ _ _ _ _ _ _ _ _ _ _ _ _ _ _ _ _ _ _ _ _ E ex_dims 0%nat 0%nat ltac:(lia) ltac:(lia)) as [_ [_ [_ [_ A]]]].
  destruct (A 1%nat ltac:(lia)) as [A1 A2].
  destruct (ibis_given_circuit _ _ _ _ _ _ _ _ _ _ _ _ _ _ _ _ _ _ _ _ _ E ex_dims 0%nat 0%nat 1%nat ltac:(lia) ltac:(lia) ltac:(lia)) as [_ [K _]].
  destruct (ibis_resistances _ _ _ _ _ _ _ _ _ _ _ _ _ _ _ _ _ _ _ _ _ E ex_dims ltac:(lia) 0%nat 0%nat ltac:(lia) ltac:(lia)) as [_ [_ R3]].
  destruct (R3 eq_refl) as [R3' _]. cbn [load_at] in R3'.
  unfold ex_d, ex_ib in A1, A2, K. unfold step, none3 in A1, A2, K. rewrite !entry_array in A1, A2, K. cbn [Nat.mul Nat.add nth] in A1, A2, K.
  cbv zeta in K. destruct (K ltac:(lra)) as [K1 _]. rewrite R3', entry_array in K1. cbn [Nat.mul Nat.add nth] in K1.
  cbv zeta. rewrite A1, A2, R3'. split; [lra|]. split; [lra|]. split; [reflexivity|]. split; [lra|intros Q; lra].
Qed.
