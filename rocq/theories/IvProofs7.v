(** * Witnesses against the uncertainty claims *)
From Verif Require Import Base ListLemmas UtilsModel OFFreeModel IvModel IvSpec IvProofs1 IvProofs2 IvProofs3 IvProofs4 IvProofs5 IvProofs6.
From Coquelicot Require Import Coquelicot.
Local Open Scope R_scope.

Definition zeros : nat -> nat -> R := fun _ _ => 0.
Definition only (i j : nat) (v : R) : nat -> nat -> R :=
  fun a b => if ((a =? i) && (b =? j))%nat%bool then v else 0.

(** One temperature, one channel, four bias points; points 1 and 2 normal, 0 and 3 superconducting. *)
Definition ex_d := array [1; 1; 4]%nat [1; 2; 3; 4].
Definition ex_e := array [1; 1; 4]%nat [1; 1; 1; 1].
Definition ex_ib := array [1; 1; 4]%nat [0; 1; 2; 3].
Definition ex_z := array [1; 1; 4]%nat [0; 0; 0; 0].

Definition ex_call (cf : fitter) (fitsc : bool) : res ibis_out :=
  ibis_call cf ex_d ex_e ex_ib ex_z 1 0 [1; 2]%nat (RScalar 0) (RScalar 0) 1 fitsc (Some [0; 3]%nat) ONone ONone ONone ONone.

Lemma ex_dims : has_dims ex_d 1 1 4.
Proof. left. reflexivity. Qed.

Lemma ex_enough l : (2 <= length l)%nat -> (forall i, In i l -> (i < 4)%nat) -> enough_bpoints 1 1 4 ex_d ex_e ex_ib l.
Proof. intros L H. split; [exact L|]. intros t c i _ _ Hi. split; [now apply H|]. repeat split. Qed.

Lemma ex_ok cf fitsc : total_fitter cf -> exists out, ex_call cf fitsc = Ok out.
Proof.
  intros Hf.
  assert (In4 : forall i, In i [1; 2]%nat -> (i < 4)%nat) by (intros i [<-|[<-|[]]]; lia).
  assert (In4' : forall i, In i [0; 3]%nat -> (i < 4)%nat) by (intros i [<-|[<-|[]]]; lia).
  assert (R := ibis_run cf ex_d ex_e ex_ib ex_z 1 0 [1; 2]%nat (RScalar 0) (RScalar 0) 1%nat fitsc (Some [0; 3]%nat) 1%nat 1%nat 4%nat
                 ex_dims eq_refl eq_refl eq_refl eq_refl Hf (ex_enough [1; 2]%nat (le_n 2) In4)
                 (fun _ => ex_intro _ _ (conj eq_refl (ex_enough [0; 3]%nat (le_n 2) In4'))) I I ONone ONone ONone ONone).
  destruct R as [_ R]. destruct R as [_ R]; [right; tauto|].
  destruct R as [_ R]; [left; reflexivity|left; reflexivity|]. apply R. right. intros N. apply N. reflexivity.
Qed.

Ltac ok_fields E :=
  pose proof (f_equal (fun r => match r with Ok a => fb a | Err _ => 0 end) E);
  pose proof (f_equal (fun r => match r with Ok a => fm a | Err _ => 0 end) E);
  pose proof (f_equal (fun r => match r with Ok a => fcov a | Err _ => zeros end) E);
  cbn [fb fm fcov] in *.

(** The fitted lines of the example *)
Lemma ex_fits f g out : ex_call (two_fitter f g) true = Ok out ->
  o_int_n out 0%nat 0%nat = fb g /\ o_slope_n out 0%nat 0%nat = fm g /\ o_int_sc out 0%nat 0%nat = fb f /\ o_slope_sc out 0%nat 0%nat = fm f.
Proof.
  intros E. destruct (ibis_lines _ _ _ _ _ _ _ _ _ _ _ _ _ _ _ _ _ _ _ _ _ E ex_dims 0%nat 0%nat ltac:(lia) ltac:(lia)) as [covn [H1 H2]].
  destruct (H2 eq_refl) as [l [covs [El H3]]]. injection El as <-.
  unfold two_fitter, points in H1, H3. cbn [map] in H1, H3. unfold ex_ib in H1, H3. rewrite !entry_array in H1, H3. cbn [Nat.mul Nat.add nth] in H1, H3.
  destruct (Reqb_spec 1 0) as [K|_]; [lra|]. destruct (Reqb_spec 0 0) as [_|K]; [|lra].
  ok_fields H1. ok_fields H3. split; [now symmetry|]. split; [now symmetry|]. split; now symmetry.
Qed.

Lemma ioff_err_wrong : exists cf out,
  total_fitter cf /\ ex_call cf true = Ok out /\
  exists bn mn covn bs ms covs,
    cf (points (entry 1 4 ex_ib 0 0) (entry 1 4 ex_d 0 0) (entry 1 4 ex_e 0 0) [1; 2]%nat) = Ok (mkFit bn mn covn) /\
    cf (points (entry 1 4 ex_ib 0 0) (entry 1 4 ex_d 0 0) (entry 1 4 ex_e 0 0) [0; 3]%nat) = Ok (mkFit bs ms covs) /\
    mn <> ms /\ covn 0%nat 1%nat = 0 /\ covn 1%nat 0%nat = 0 /\ covs 0%nat 1%nat = 0 /\ covs 1%nat 0%nat = 0 /\
    0 <= covn 0%nat 0%nat /\ 0 <= covn 1%nat 1%nat /\ 0 <= covs 0%nat 0%nat /\ 0 <= covs 1%nat 1%nat /\
    ~ propagates 4 cross_y (vec [bn; mn; bs; ms])
        (independent [sqrt (covn 0%nat 0%nat); sqrt (covn 1%nat 1%nat); sqrt (covs 0%nat 0%nat); sqrt (covs 1%nat 1%nat)])
        (o_ioff_err out 0%nat 0%nat).
Proof.
  set (g := mkFit 1 2 (only 1 1 1)). set (f := mkFit 0 3 zeros).
  destruct (ex_ok (two_fitter f g) true (two_total f g)) as [out E].
  exists (two_fitter f g), out. split; [apply two_total|]. split; [exact E|].
  exists 1, 2, (only 1 1 1), 0, 3, zeros.
  assert (P1 : two_fitter f g (points (entry 1 4 ex_ib 0 0) (entry 1 4 ex_d 0 0) (entry 1 4 ex_e 0 0) [1; 2]%nat) = Ok g).
  { unfold two_fitter, points. cbn [map]. unfold ex_ib. rewrite !entry_array. cbn [Nat.mul Nat.add nth].
    destruct (Reqb_spec 1 0) as [K|_]; [lra|reflexivity]. }
  assert (P2 : two_fitter f g (points (entry 1 4 ex_ib 0 0) (entry 1 4 ex_d 0 0) (entry 1 4 ex_e 0 0) [0; 3]%nat) = Ok f).
  { unfold two_fitter, points. cbn [map]. unfold ex_ib. rewrite !entry_array. cbn [Nat.mul Nat.add nth].
    destruct (Reqb_spec 0 0) as [_|K]; [reflexivity|lra]. }
  split; [exact P1|]. split; [exact P2|]. unfold only, zeros. cbn [Nat.eqb andb].
  repeat (split; [lra|]).
  destruct (ex_fits f g out E) as [F1 [F2 [F3 F4]]].
  destruct (ibis_offset_errors _ _ _ _ _ _ _ _ _ _ _ _ _ _ _ _ _ _ E ex_dims 0%nat 0%nat ltac:(lia) ltac:(lia)) as
    [covn [covs [l [El [H1 [H2 [_ [H4 _]]]]]]]].
  { rewrite F2, F4. cbn [fm f g]. lra. }
  injection El as <-. rewrite P1 in H1. rewrite P2 in H2.
  pose proof (f_equal (fun r => match r with Ok a => fcov a | Err _ => zeros end) H1) as C1. cbn [fcov g] in C1.
  pose proof (f_equal (fun r => match r with Ok a => fcov a | Err _ => zeros end) H2) as C2. cbn [fcov f] in C2.
  rewrite F1, F2, F3, F4, <- C1, <- C2 in H4. unfold only, zeros in H4. cbn [Nat.eqb andb fb fm f g] in H4.
  rewrite sqrt_0, sqrt_1 in *. intros HP.
  assert (T : propagates 4 cross_y (vec [1; 2; 0; 3]) (independent [0; 1; 0; 0]) 3).
  { exists (vec [3; 3; -2; -2]). split.
    - intros [|[|[|[|k]]]] Hk; try lia; unfold upd, vec, cross_y; cbn [Nat.eqb nth]; auto_derive; try exact I; try lra; field.
    - unfold vec, independent. cbn [rsum Nat.eqb nth].
      match goal with |- _ = sqrt ?u => replace u with (3 * 3) by ring end. now rewrite sqrt_square by lra. }
  assert (Q := propagates_unique _ _ _ _ _ _ HP T). rewrite H4 in Q. unfold y_int_err in Q. rewrite msum_sandwich in Q.
  unfold diag in Q. cbn [rsum Nat.eqb nth] in Q.
  match type of Q with sqrt ?u = _ => replace u with (2 * 2) in Q by field end. rewrite sqrt_square in Q by lra. lra.
Qed.

(** The covariance between slope and intercept of a fit is not used. *)
Definition block (a b : nat -> nat -> R) : nat -> nat -> R :=
  fun i j => if ((i <? 2) && (j <? 2))%nat%bool then a i j
             else if ((2 <=? i) && (2 <=? j))%nat%bool then b (i - 2)%nat (j - 2)%nat else 0.

Lemma covariance_ignored : exists cf out,
  total_fitter cf /\ ex_call cf true = Ok out /\
  exists bn mn covn bs ms covs,
    cf (points (entry 1 4 ex_ib 0 0) (entry 1 4 ex_d 0 0) (entry 1 4 ex_e 0 0) [1; 2]%nat) = Ok (mkFit bn mn covn) /\
    cf (points (entry 1 4 ex_ib 0 0) (entry 1 4 ex_d 0 0) (entry 1 4 ex_e 0 0) [0; 3]%nat) = Ok (mkFit bs ms covs) /\
    mn <> ms /\ (forall i j, covn i j = covn j i) /\ (forall u v, 0 <= u ^ 2 * covn 0%nat 0%nat + 2 * u * v * covn 0%nat 1%nat + v ^ 2 * covn 1%nat 1%nat) /\
    covs = zeros /\
    ~ propagates 4 cross_x (vec [bn; mn; bs; ms]) (block covn covs) (o_ibias_off_err out 0%nat 0%nat).
Proof.
  set (cn := fun i j : nat => if (i =? j)%nat then 1 else -1).
  set (g := mkFit 1 2 cn). set (f := mkFit 0 3 zeros).
  destruct (ex_ok (two_fitter f g) true (two_total f g)) as [out E].
  exists (two_fitter f g), out. split; [apply two_total|]. split; [exact E|].
  exists 1, 2, cn, 0, 3, zeros.
  assert (P1 : two_fitter f g (points (entry 1 4 ex_ib 0 0) (entry 1 4 ex_d 0 0) (entry 1 4 ex_e 0 0) [1; 2]%nat) = Ok g).
  { unfold two_fitter, points. cbn [map]. unfold ex_ib. rewrite !entry_array. cbn [Nat.mul Nat.add nth].
    destruct (Reqb_spec 1 0) as [K|_]; [lra|reflexivity]. }
  assert (P2 : two_fitter f g (points (entry 1 4 ex_ib 0 0) (entry 1 4 ex_d 0 0) (entry 1 4 ex_e 0 0) [0; 3]%nat) = Ok f).
  { unfold two_fitter, points. cbn [map]. unfold ex_ib. rewrite !entry_array. cbn [Nat.mul Nat.add nth].
    destruct (Reqb_spec 0 0) as [_|K]; [reflexivity|lra]. }
  split; [exact P1|]. split; [exact P2|]. split; [lra|]. split; [intros i j; unfold cn; now rewrite Nat.eqb_sym|].
  split; [intros u v; unfold cn; cbn [Nat.eqb]; replace (u ^ 2 * 1 + 2 * u * v * -1 + v ^ 2 * 1) with ((u - v) ^ 2) by ring; apply pow2_ge_0|].
  split; [reflexivity|].
  destruct (ex_fits f g out E) as [F1 [F2 [F3 F4]]].
  destruct (ibis_offset_errors _ _ _ _ _ _ _ _ _ _ _ _ _ _ _ _ _ _ E ex_dims 0%nat 0%nat ltac:(lia) ltac:(lia)) as
    [covn [covs [l [El [H1 [H2 [H3 _]]]]]]].
  { rewrite F2, F4. cbn [fm f g]. lra. }
  injection El as <-. rewrite P1 in H1. rewrite P2 in H2.
  pose proof (f_equal (fun r => match r with Ok a => fcov a | Err _ => zeros end) H1) as C1. cbn [fcov g] in C1.
  pose proof (f_equal (fun r => match r with Ok a => fcov a | Err _ => zeros end) H2) as C2. cbn [fcov f] in C2.
  rewrite F1, F2, F3, F4, <- C1, <- C2 in H3. unfold zeros in H3. cbn [fb fm f g] in H3. unfold cn in H3. cbn [Nat.eqb] in H3.
  rewrite sqrt_0, sqrt_1 in H3. intros HP.
  assert (T : propagates 4 cross_x (vec [1; 2; 0; 3]) (block cn zeros) 0).
  { exists (vec [1; 1; -1; -1]). split.
    - intros [|[|[|[|k]]]] Hk; try lia; unfold upd, vec, cross_x; cbn [Nat.eqb nth]; auto_derive; try exact I; try lra; field.
    - unfold vec, block, cn, zeros. cbn [rsum Nat.eqb Nat.ltb Nat.leb andb nth].
      match goal with |- _ = sqrt ?u => replace u with 0 by ring end. now rewrite sqrt_0. }
  rewrite (propagates_unique _ _ _ _ _ _ HP T) in H3.
  assert (T2 : propagates 4 cross_x (vec [1; 2; 0; 3]) (independent [1; 1; 0; 0]) (sqrt 2)).
  { exists (vec [1; 1; -1; -1]). split.
    - intros [|[|[|[|k]]]] Hk; try lia; unfold upd, vec, cross_x; cbn [Nat.eqb nth]; auto_derive; try exact I; try lra; field.
    - f_equal. unfold vec, independent. cbn [rsum Nat.eqb nth]. ring. }
  assert (Q := propagates_unique _ _ _ _ _ _ H3 T2). assert (0 < sqrt 2) by (apply sqrt_lt_R0; lra). lra.
Qed.

(** The variance of the inverse slope is used as if it were its standard deviation. *)
Lemma rfit_err_wrong : exists cf out bn mn covn,
  total_fitter cf /\ ex_call cf false = Ok out /\
  cf (points (entry 1 4 ex_ib 0 0) (entry 1 4 ex_d 0 0) (entry 1 4 ex_e 0 0) [1; 2]%nat) = Ok (mkFit bn mn covn) /\
  mn <> 0 /\ 0 <= covn 1%nat 1%nat /\
  ~ propagates 2 (fun y => y 1%nat / y 0%nat) (vec [mn; 1]) (independent [sqrt (covn 1%nat 1%nat); 0]) (o_rfit_err out 0%nat 0%nat).
Proof.
  set (cf := const_fitter 0 1 (only 1 1 4)).
  destruct (ex_ok cf false (const_total _ _ _)) as [out E].
  exists cf, out, 0, 1, (only 1 1 4). split; [apply const_total|]. split; [exact E|]. split; [reflexivity|].
  unfold only. cbn [Nat.eqb andb]. split; [lra|]. split; [lra|].
  destruct (ibis_lines _ _ _ _ _ _ _ _ _ _ _ _ _ _ _ _ _ _ _ _ _ E ex_dims 0%nat 0%nat ltac:(lia) ltac:(lia)) as [covn [H1 _]].
  assert (H1' := H1). unfold cf, const_fitter in H1'. ok_fields H1'.
  assert (M : o_slope_n out 0%nat 0%nat <> 0) by lra.
  destruct (ibis_resistance_errors _ _ _ _ _ _ _ _ _ _ _ _ _ _ _ _ _ _ _ _ _ E ex_dims 0%nat 0%nat ltac:(lia) ltac:(lia) covn H1 M) as [V _].
  rewrite <- H2, <- H0 in V. unfold only in V. cbn [Nat.eqb andb] in V.
  match type of V with _ = sqrt ?u => replace u with (4 * 4) in V by field end. rewrite sqrt_square in V by lra.
  intros HP. rewrite V in HP.
  assert (T : propagates 2 (fun y => y 1%nat / y 0%nat) (vec [1; 1]) (independent [sqrt 4; 0]) 2).
  { exists (vec [-1; 1]). split.
    - intros [|[|k]] Hk; try lia; unfold upd, vec; cbn [Nat.eqb nth]; auto_derive; try exact I; try lra; field.
    - unfold vec, independent. cbn [rsum Nat.eqb nth]. rewrite pow2_sqrt by lra.
      match goal with |- _ = sqrt ?u => replace u with (2 * 2) by ring end. now rewrite sqrt_square by lra. }
  assert (Q := propagates_unique _ _ _ _ _ _ HP T). lra.
Qed.

(** Without the superconducting fit the reported current offset is the intercept of the normal fit, but
    its uncertainty does not know the uncertainty of that intercept. *)
Lemma no_sc_ioff_err_wrong : exists cf out bn mn covn,
  total_fitter cf /\ ex_call cf false = Ok out /\
  cf (points (entry 1 4 ex_ib 0 0) (entry 1 4 ex_d 0 0) (entry 1 4 ex_e 0 0) [1; 2]%nat) = Ok (mkFit bn mn covn) /\
  o_ioff out 0%nat 0%nat = bn /\ sqrt (covn 0%nat 0%nat) = 1 /\ o_ioff_err out 0%nat 0%nat = 0 /\
  o_ibias_off out 0%nat 0%nat = 0 /\ o_ibias_off_err out 0%nat 0%nat = 1.
Proof.
  set (cf := const_fitter 0 1 (only 0 0 1)).
  destruct (ex_ok cf false (const_total _ _ _)) as [out E].
  exists cf, out, 0, 1, (only 0 0 1). split; [apply const_total|]. split; [exact E|]. split; [reflexivity|].
  destruct (ibis_no_sc _ _ _ _ _ _ _ _ _ _ _ _ _ _ _ _ _ _ E ex_dims 0%nat 0%nat ltac:(lia) ltac:(lia)) as [N1 [N2 _]].
  inv_ibis E ex_dims. destruct (HV 0%nat 0%nat) as [V1 [V2 [V3 [V4 [V5 [V6 [V7 [V8 _]]]]]]]].
  specialize (HN 0%nat 0%nat ltac:(lia) ltac:(lia)). apply arg_bfit_inv in HN. destruct HN as [_ [_ HN]].
  unfold cf, const_fitter in HN. ok_fields HN.
  assert (C00 : fcov (p 0%nat 0%nat) 0%nat 0%nat = 1) by (rewrite <- H1; reflexivity).
  assert (C11 : fcov (p 0%nat 0%nat) 1%nat 1%nat = 0) by (rewrite <- H1; reflexivity).
  split; [rewrite N2, V2; now symmetry|]. split; [unfold only; cbn [Nat.eqb andb]; apply sqrt_1|].
  cbn [use_off] in HY, HX.
  apply (f_equal (fun r => match r with Ok a => snd a 0%nat 0%nat 0%nat | Err _ => 0 end)) in HY. cbv beta iota in HY. cbn [snd] in HY.
  apply (f_equal (fun r => match r with Ok a => snd a 0%nat 0%nat 0%nat | Err _ => 0 end)) in HX. cbv beta iota in HX. cbn [snd] in HX.
  rewrite V6, V8, <- HX, <- HY, V1, V2, V3, V4, <- H, <- H0. rewrite C00, C11, sqrt_0, sqrt_1.
  split; [|split; [exact N1|]].
  - unfold y_int_err. rewrite msum_sandwich. unfold diag. cbn [rsum Nat.eqb nth].
    match goal with |- sqrt ?u = _ => replace u with 0 by (field; lra) end. apply sqrt_0.
  - unfold x_int_err. rewrite msum_sandwich. unfold diag. cbn [rsum Nat.eqb nth].
    match goal with |- sqrt ?u = _ => replace u with 1 by (field; lra) end. apply sqrt_1.
Qed.

(** ** IV *)

Definition ex_v := array (4%nat :: nil) [4; 3; 2; 1].
Definition ex_i := array (4%nat :: nil) [3; 5 / 2; 2; 2].
Definition ex_s := array (4%nat :: nil) [1; 1; 1; 1].

Lemma iv_ex_ok cf inds r re : total_fitter cf -> (inds = None \/ inds = Some [0; 1; 2]%nat) ->
  exists out, iv_call cf ex_i ex_s ex_v ex_s (RScalar r) (RScalar re) 1 inds = Ok out.
Proof.
  intros Hf Hi.
  assert (R := iv_call_run cf ex_i ex_s ex_v ex_s (RScalar r) (RScalar re) 1%nat inds 1%nat 1%nat 4%nat
     (or_intror (or_intror (conj eq_refl (conj eq_refl eq_refl)))) eq_refl eq_refl eq_refl eq_refl Hf).
  destruct R as [_ R]; [| exact I | exact I | apply R; intros []].
  destruct Hi as [->| ->]; cbn [enough_points].
  - split; [lia|]. intros. repeat split.
  - split; [simpl; lia|]. intros t c i _ _ Hi. split; [destruct Hi as [<-|[<-|[<-|[]]]]; lia|repeat split].
Qed.

Lemma iv_rfit_err_wrong : exists cf out b m cov,
  total_fitter cf /\ iv_call cf ex_i ex_s ex_v ex_s (RScalar 1) (RScalar 0) 1 (Some [0; 1; 2]%nat) = Ok out /\
  cf (points (entry 1 4 ex_v 0 0) (entry 1 4 ex_i 0 0) (entry 1 4 ex_s 0 0) [0; 1; 2]%nat) = Ok (mkFit b m cov) /\
  m <> 0 /\ 0 <= cov 1%nat 1%nat /\
  ~ propagates 1 (fun y => 1 / y 0%nat) (fun _ => m) (fun i j => cov 1%nat 1%nat) (iv_rfit_err out 0%nat 0%nat).
Proof.
  set (cf := const_fitter 0 1 zeros). destruct (iv_ex_ok cf (Some [0; 1; 2]%nat) 1 0 (const_total _ _ _) (or_intror eq_refl)) as [out E].
  exists cf, out, 0, 1, zeros. split; [apply const_total|]. split; [exact E|]. split; [reflexivity|]. split; [lra|].
  unfold zeros. split; [lra|]. rewrite (iv_rfit_err_is_rfit _ _ _ _ _ _ _ _ _ _ _ _ E).
  destruct (iv_normal_fit _ _ _ _ _ _ _ _ _ _ _ _ _ E (or_intror (or_intror (conj eq_refl (conj eq_refl eq_refl)))) 0%nat 0%nat ltac:(lia) ltac:(lia)) as
    [l [b [m [cov [_ [_ [_ [_ [H5 [_ [_ [G3 _]]]]]]]]]]]].
  unfold cf, const_fitter in H5. ok_fields H5. rewrite G3, <- H0. intros HP.
  assert (T : propagates 1 (fun y => 1 / y 0%nat) (fun _ => 1) (fun i j => 0) 0).
  { exists (fun _ => -1). split.
    - intros [|k] Hk; try lia. unfold upd. cbn [Nat.eqb]. auto_derive; [lra|field].
    - cbn [rsum]. match goal with |- _ = sqrt ?u => replace u with 0 by ring end. now rewrite sqrt_0. }
  assert (Q := propagates_unique _ _ _ _ _ _ HP T). lra.
Qed.
