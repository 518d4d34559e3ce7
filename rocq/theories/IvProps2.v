(** * Further properties of IV and IBIS: C137-C139 *)
From Verif Require Import Base ListLemmas UtilsModel OFFreeModel IvModel IvSpec IvProofs1 IvProofs2 IvProofs3 IvProofs4 IvProofs5 IvProofs6 IvProofs7 IvProofs8.
From Coquelicot Require Import Coquelicot.
Local Open Scope R_scope.

(** ** C137: what the constructors accept *)

(** Arguments that fit together are accepted, all others raise ValueError. *)
Theorem C137_iv : forall d de v ve r re nn inds, same_form r re ->
  (accepted d [de; v; ve] r nn -> exists o, iv_init d de v ve r re nn inds = Ok o) /\
  (~ accepted d [de; v; ve] r nn -> iv_init d de v ve r re nn inds = Err ValueError).
Proof. exact iv_init_outcome. Qed.
Print Assumptions C137_iv.

(** IBIS: moreover the superconducting points must be given if they are to be fitted. *)
Theorem C137_ibis : forall d de ib ibe rsh rshe ninds rp rpe nn fitsc scinds, same_form rp rpe ->
  (accepted d [de; ib; ibe] rp nn /\ (fitsc = true -> scinds <> None) ->
     exists o, ibis_init d de ib ibe rsh rshe ninds rp rpe nn fitsc scinds = Ok o) /\
  (~ (accepted d [de; ib; ibe] rp nn /\ (fitsc = true -> scinds <> None)) ->
     ibis_init d de ib ibe rsh rshe ninds rp rpe nn fitsc scinds = Err ValueError).
Proof. exact ibis_init_outcome. Qed.
Print Assumptions C137_ibis.

(** Four data points; two names for one channel; a load array of another shape; no superconducting points. *)
Example C137_ex :
  (exists o, iv_init ex_i ex_s ex_v ex_s (RScalar 1) (RScalar 0) 1 None = Ok o) /\
  iv_init ex_i ex_s ex_v ex_s (RScalar 1) (RScalar 0) 2 None = Err ValueError /\
  iv_init ex_i ex_s ex_v ex_s (RArr (array [3; 3]%nat [])) (RArr (array [3; 3]%nat [])) 1 None = Err ValueError /\
  ibis_init ex_i ex_s ex_v ex_s 1 0 [0; 1]%nat (RScalar 1) (RScalar 0) 1 true None = Err ValueError.
Proof.
  assert (D : has_dims ex_i 1 1 4) by (right; right; repeat split).
  assert (U : forall nt nc ni, has_dims ex_i nt nc ni -> nt = 1%nat /\ nc = 1%nat /\ ni = 4%nat).
  { intros nt nc ni H. destruct (has_dims_unique _ _ _ _ _ _ _ D H) as [<- [<- <-]]. repeat split. }
  split; [|split; [|split]].
  - apply C137_iv; [exact I|]. exists 1%nat, 1%nat, 4%nat. split; [exact D|]. split; [reflexivity|]. split; [|exact I].
    intros a [<-|[<-|[<-|[]]]]; reflexivity.
  - apply C137_iv; [exact I|]. intros (nt & nc & ni & H & N & _). destruct (U _ _ _ H) as [-> [-> ->]]. discriminate.
  - apply C137_iv; [reflexivity|]. intros (nt & nc & ni & H & _ & _ & F). destruct (U _ _ _ H) as [-> [-> ->]].
    destruct F as [F|[F|F]]; discriminate.
  - apply C137_ibis; [exact I|]. intros [_ H]. now apply H.
Qed.

(** ** C138: the resistances of IBIS and their uncertainties *)

(** The normal fit gives the total resistance, the superconducting one shunt and parasitic
    resistance; without it the given parasitic resistance is used. *)
Theorem C138_values : forall cf d de ib ibe rsh rshe ninds rp rpe nn fitsc scinds yo yoe xo xoe out nt nc ni,
  ibis_call cf d de ib ibe rsh rshe ninds rp rpe nn fitsc scinds yo yoe xo xoe = Ok out -> has_dims d nt nc ni -> (0 < ni)%nat ->
  forall t c, (t < nt)%nat -> (c < nc)%nat ->
    o_rfit out t c = rsh / o_slope_n out t c /\
    (fitsc = true -> o_rp out t c = rsh / o_slope_sc out t c - rsh) /\
    (fitsc = false -> load_at nt nc ni rp t c 0 (o_rp out t c) /\ load_at nt nc ni rpe t c 0 (o_rp_err out t c)).
Proof. exact ibis_resistances. Qed.
Print Assumptions C138_values.

(** The currents; the normal resistance if fit resistance and parasitic resistance were independent
    and the shunt were exact. *)
Theorem C138_errors_partial : forall cf d de ib ibe rsh rshe ninds rp rpe nn fitsc scinds yoe xoe out nt nc ni,
  ibis_call cf d de ib ibe rsh rshe ninds rp rpe nn fitsc scinds ONone yoe ONone xoe = Ok out -> has_dims d nt nc ni ->
  forall t c, (t < nt)%nat -> (c < nc)%nat ->
    (forall i, (i < ni)%nat ->
      propagates 2 (fun y => y 0%nat - y 1%nat) (vec [entry nc ni d t c i; o_ioff out t c])
        (independent [entry nc ni de t c i; o_ioff_err out t c]) (o_ites_err out t c i) /\
      propagates 2 (fun y => y 0%nat - y 1%nat) (vec [entry nc ni ib t c i; o_ibias_off out t c])
        (independent [entry nc ni ibe t c i; o_ibias_off_err out t c]) (o_ibias_true_err out t c i)) /\
    propagates 2 (fun y => y 0%nat - rsh - y 1%nat) (vec [o_rfit out t c; o_rp out t c])
      (independent [o_rfit_err out t c; o_rp_err out t c]) (o_rnorm_err out t c).
Proof. exact ibis_more_errors. Qed.
Print Assumptions C138_errors_partial.

(** The uncertain shunt enters both: shunt 1 with uncertainty 1, slopes exactly known, give a normal
    resistance with uncertainty 1; the reported one is 2. *)
Theorem C138_rnorm_err_refuted : exists cf out,
  total_fitter cf /\ shunt_call cf = Ok out /\
  exists bn mn bs ms,
    cf (points (entry 1 4 ex_ib 0 0) (entry 1 4 ex_d 0 0) (entry 1 4 ex_e 0 0) [1; 2]%nat) = Ok (mkFit bn mn zeros) /\
    cf (points (entry 1 4 ex_ib 0 0) (entry 1 4 ex_d 0 0) (entry 1 4 ex_e 0 0) [0; 3]%nat) = Ok (mkFit bs ms zeros) /\
    mn <> 0 /\ ms <> 0 /\ o_rnorm out 0%nat 0%nat = 1 / mn - 1 / ms /\
    o_rnorm_err out 0%nat 0%nat = 2 /\ propagates 1 (fun y => y 0%nat / mn - y 0%nat / ms) (vec (1 :: nil)) (independent (1 :: nil)) 1.
Proof. exact rnorm_err_wrong. Qed.
Print Assumptions C138_rnorm_err_refuted.

(** The parasitic resistance: right only if the slope is exactly known ... *)
Theorem C138_rp_err_partial : forall cf d de ib ibe rsh rshe ninds rp rpe nn l yo yoe xo xoe out nt nc ni,
  ibis_call cf d de ib ibe rsh rshe ninds rp rpe nn true (Some l) yo yoe xo xoe = Ok out -> has_dims d nt nc ni -> (0 < ni)%nat ->
  forall t c, (t < nt)%nat -> (c < nc)%nat -> forall covs,
    cf (points (entry nc ni ib t c) (entry nc ni d t c) (entry nc ni de t c) l)
        = Ok (mkFit (o_int_sc out t c) (o_slope_sc out t c) covs) -> o_slope_sc out t c <> 0 ->
    o_rp_err out t c = sqrt ((rsh * covs 1%nat 1%nat / o_slope_sc out t c ^ 4) ^ 2 + ((1 / o_slope_sc out t c - 1) * rshe) ^ 2) /\
    (covs 1%nat 1%nat = 0 ->
       propagates 2 (fun y => y 1%nat / y 0%nat - y 1%nat) (vec [o_slope_sc out t c; rsh]) (independent [sqrt (covs 1%nat 1%nat); rshe])
         (o_rp_err out t c)).
Proof. exact ibis_rp_error. Qed.
Print Assumptions C138_rp_err_partial.

(** ... since otherwise the variance of the inverse slope stands in for its standard deviation. *)
Theorem C138_rp_err_refuted : exists cf out bs ms covs,
  total_fitter cf /\ ex_call cf true = Ok out /\
  cf (points (entry 1 4 ex_ib 0 0) (entry 1 4 ex_d 0 0) (entry 1 4 ex_e 0 0) [0; 3]%nat) = Ok (mkFit bs ms covs) /\
  ms <> 0 /\ 0 <= covs 1%nat 1%nat /\
  ~ propagates 2 (fun y => y 1%nat / y 0%nat - y 1%nat) (vec [ms; 1]) (independent [sqrt (covs 1%nat 1%nat); 0]) (o_rp_err out 0%nat 0%nat).
Proof. exact rp_err_wrong. Qed.
Print Assumptions C138_rp_err_refuted.

Example C138_ex : (exists out, shunt_call wls_fitter = Ok out) /\ (exists out, ex_call wls_fitter false = Ok out) /\ has_dims ex_d 1 1 4.
Proof. split; [apply shunt_ok, wls_fitter_total|]. split; [apply ex_ok, wls_fitter_total|exact ex_dims]. Qed.

(** ** C139: given offset arrays *)

(** Resistance and power are those of the currents with the offsets of bias point 0 subtracted; they
    belong to the reported currents if the offsets at the bias point are the same. *)
Theorem C139_circuit_partial : forall cf d de ib ibe rsh rshe ninds rp rpe nn fitsc scinds fy gy fx gx out nt nc ni,
  ibis_call cf d de ib ibe rsh rshe ninds rp rpe nn fitsc scinds (OArr fy) (OArr gy) (OArr fx) (OArr gx) = Ok out -> has_dims d nt nc ni ->
  forall t c i, (t < nt)%nat -> (c < nc)%nat -> (i < ni)%nat ->
    let I := o_ites out t c i in let IB := o_ibias_true out t c i in
    o_vb out t c i = IB * rsh /\
    (let D := entry nc ni d t c i - fy t c 0%nat in let B := entry nc ni ib t c i - fx t c 0%nat in
     D <> 0 -> (B - D) * rsh = D * (o_rp out t c + o_r0 out t c i) /\ o_ptes out t c i = D ^ 2 * o_r0 out t c i) /\
    (fy t c i = fy t c 0%nat -> fx t c i = fx t c 0%nat -> I <> 0 ->
       (IB - I) * rsh = I * (o_rp out t c + o_r0 out t c i) /\ o_ptes out t c i = I ^ 2 * o_r0 out t c i).
Proof. exact ibis_given_circuit. Qed.
Print Assumptions C139_circuit_partial.

(** Otherwise Kirchhoff's law fails for the reported values. *)
Theorem C139_circuit_refuted : exists cf out,
  total_fitter cf /\
  ibis_call cf ex_d ex_e ex_ib ex_z 1 0 [1; 2]%nat (RScalar 0) (RScalar 0) 1 false None (OArr step) (OArr none3) (OArr none3) (OArr none3) = Ok out /\
  let I := o_ites out 0%nat 0%nat 1%nat in let IB := o_ibias_true out 0%nat 0%nat 1%nat in
  I = 1 /\ IB = 1 /\ o_rp out 0%nat 0%nat = 0 /\ o_r0 out 0%nat 0%nat 1%nat = -1 / 2 /\
  (IB - I) * 1 <> I * (o_rp out 0%nat 0%nat + o_r0 out 0%nat 0%nat 1%nat).
Proof. exact given_circuit_wrong. Qed.
Print Assumptions C139_circuit_refuted.

(** The bias point 0 of the same call. *)
Example C139_ex : exists cf out, total_fitter cf /\
  ibis_call cf ex_d ex_e ex_ib ex_z 1 0 [1; 2]%nat (RScalar 0) (RScalar 0) 1 false None (OArr step) (OArr none3) (OArr none3) (OArr none3) = Ok out /\
  (o_ibias_true out 0%nat 0%nat 0%nat - o_ites out 0%nat 0%nat 0%nat) * 1 =
    o_ites out 0%nat 0%nat 0%nat * (o_rp out 0%nat 0%nat + o_r0 out 0%nat 0%nat 0%nat).
Proof.
  destruct given_circuit_wrong as (cf & out & T & E & _). exists cf, out. split; [exact T|]. split; [exact E|].
  destruct (C139_circuit_partial _ _ _ _ _ _ _ _ _ _ _ _ _ _ _ _ _ _ _ _ _ E ex_dims 0%nat 0%nat 0%nat ltac:(lia) ltac:(lia) ltac:(lia)) as [_ [_ K]].
  destruct (ibis_array_offsets _ _ _ _ _ _ _ _ _ _ _ _ _ _ _ _ _ _ _ _ _ E ex_dims 0%nat 0%nat ltac:(lia) ltac:(lia)) as [_ [_ [_ [_ A]]]].
  destruct (A 0%nat ltac:(lia)) as [A1 _]. apply K; [reflexivity|reflexivity|]. rewrite A1. unfold ex_d, step. rewrite entry_array. cbn [Nat.mul Nat.add nth]. lra.
Qed.
