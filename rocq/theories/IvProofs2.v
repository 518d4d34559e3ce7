(** * IV: calc_iv *)
From Verif Require Import Base ListLemmas UtilsModel OFFreeModel IvModel IvSpec IvProofs1.
From Coquelicot Require Import Coquelicot.
Local Open Scope R_scope.

Lemma dims_has a nt nc ni : has_dims a nt nc ni -> dims a = Ok (nt, nc, ni).
Proof. unfold dims. intros [->|[[-> ->]|[-> [-> ->]]]]; reflexivity. Qed.

Lemma dims_inv a nt nc ni : dims a = Ok (nt, nc, ni) -> has_dims a nt nc ni.
Proof.
  unfold dims, has_dims. destruct (shape a) as [|n1 [|n2 [|n3 [|]]]]; intros E; try discriminate; injection E as <- <- <-; auto 6.
Qed.

Lemma has_dims_size a nt nc ni : has_dims a nt nc ni -> size a = (nt * nc * ni)%nat.
Proof. unfold size. intros [->|[[-> ->]|[-> [-> ->]]]]; cbn [fold_right]; lia. Qed.

Lemma reshape3_inv a nt nc ni b : reshape3 a nt nc ni = Ok b -> flat b = flat a /\ nanat b = nanat a.
Proof. unfold reshape3. destruct (_ =? _)%nat; [|discriminate]. intros E. injection E as <-. split; reflexivity. Qed.

Lemma reshape3_ok a nt nc ni : size a = (nt * nc * ni)%nat -> exists b, reshape3 a nt nc ni = Ok b.
Proof. intros E. unfold reshape3. rewrite E, Nat.eqb_refl. eauto. Qed.

Lemma bcast_of3 nt nc ni f : bcast3 (of3 nt nc ni f) nt nc ni = Ok (at3 nc ni (of3 nt nc ni f)).
Proof. unfold bcast3. cbn [shape of3]. now rewrite !Nat.eqb_refl. Qed.

Lemma store_r_inv d nt nc ni r a : has_dims d nt nc ni -> store_r d nt nc ni r = Ok (Some a) ->
  exists f, bcast3 a nt nc ni = Ok f /\
    forall t c i, (t < nt)%nat -> (c < nc)%nat -> (i < ni)%nat -> load_at nt nc ni r t c i (f t c i).
Proof.
  intros Hd. unfold store_r. destruct r as [w|b].
  - intros E. injection E as <-. unfold bcast3. cbn [shape full_like].
    destruct Hd as [->|[[-> ->]|[-> [-> ->]]]]; rewrite !Nat.eqb_refl; cbn [andb]; eexists; split; try reflexivity;
      intros; cbn [load_at]; reflexivity.
  - destruct (shape_eqb (shape b) (nc :: nil)) eqn:S1; [|destruct (shape_eqb (shape b) [nt; nc]) eqn:S2].
    + apply shape_eqb_true in S1. intros E. injection E as <-. rewrite bcast_of3. eexists. split; [reflexivity|].
      intros t c i Ht Hc Hi. cbn [load_at]. left. split; [exact S1|]. now rewrite of3_at.
    + apply shape_eqb_true in S2. intros E. injection E as <-. rewrite bcast_of3. eexists. split; [reflexivity|].
      intros t c i Ht Hc Hi. cbn [load_at]. right. left. split; [exact S2|]. now rewrite of3_at.
    + destruct (shape_eqb (shape b) [nt; nc; ni]); cbn [negb]; discriminate.
Qed.

Lemma store_err_inv d nt nc ni r e a : has_dims d nt nc ni -> store_err d nt nc ni r e = Ok (Some a) ->
  exists f, bcast3 a nt nc ni = Ok f /\
    forall t c i, (t < nt)%nat -> (c < nc)%nat -> (i < ni)%nat -> load_at nt nc ni e t c i (f t c i).
Proof.
  intros Hd. unfold store_err. destruct r as [w|b], e as [w'|b']; intros E; try discriminate.
  - apply (store_r_inv d nt nc ni (RScalar w') a Hd). exact E.
  - destruct (shape_eqb (shape b) (shape b')); [|discriminate]. apply (store_r_inv d nt nc ni (RArr b') a Hd). exact E.
Qed.

Lemma store_r_ok d nt nc ni r : documented_form nt nc ni r -> ~ full_array nt nc ni r ->
  exists a, store_r d nt nc ni r = Ok (Some a).
Proof.
  destruct r as [w|a]; [intros; eexists; reflexivity|]. cbn [documented_form full_array]. unfold store_r.
  intros [->|[E|E]] N; [| |contradiction].
  - rewrite shape_eqb_refl. eauto.
  - destruct (shape_eqb (shape a) (nc :: nil)) eqn:S1; [eauto|]. rewrite E, shape_eqb_refl. eauto.
Qed.

Lemma store_r_full d nt nc ni r : full_array nt nc ni r -> store_r d nt nc ni r = Ok None.
Proof.
  destruct r as [w|a]; [contradiction|]. cbn [full_array]. unfold store_r. intros ->.
  rewrite !shape_eqb_false by discriminate. rewrite shape_eqb_refl. reflexivity.
Qed.

Lemma store_err_ok d nt nc ni r e : documented_form nt nc ni r -> ~ full_array nt nc ni r -> same_form r e ->
  exists a, store_err d nt nc ni r e = Ok (Some a).
Proof.
  destruct r as [w|a], e as [w'|a']; cbn [same_form]; try contradiction; intros D N S; unfold store_err; [eauto|].
  rewrite S, shape_eqb_refl. apply store_r_ok; cbn [documented_form full_array] in *; rewrite <- S; assumption.
Qed.

Lemma store_err_full d nt nc ni r e : full_array nt nc ni r -> same_form r e -> store_err d nt nc ni r e = Ok None.
Proof.
  destruct r as [w|a], e as [w'|a']; cbn [same_form full_array]; try contradiction. intros F S. unfold store_err.
  rewrite S, shape_eqb_refl. apply store_r_full. cbn [full_array]. now rewrite <- S.
Qed.

(** ** The result in terms of the arguments *)

(** From [Ok a = Ok x], replace [x] by [a] without simplifying. *)
Ltac ok_inj E x :=
  let E' := fresh in
  pose proof (f_equal (fun r => match r with Ok a => a | Err _ => x end) E) as E'; cbv beta iota in E'; clear E; subst x.

Lemma sandwich2 (a b : R) cov :
  sandwich 2 (diag [a; b]) cov 0%nat 0%nat = a * a * cov 0%nat 0%nat /\
  sandwich 2 (diag [a; b]) cov 1%nat 1%nat = b * b * cov 1%nat 1%nat.
Proof. unfold sandwich, mdot, mtr, diag. cbn [rsum Nat.eqb nth]. split; ring. Qed.

Definition iv_call (cf : fitter) (dites0 dites_err0 vb0 vb_err0 : nd) (rload0 rload_err0 : rarg) (nnames : nat)
    (normalinds0 : option (list nat)) : res iv_out :=
  do o <- iv_init dites0 dites_err0 vb0 vb_err0 rload0 rload_err0 nnames normalinds0; calc_iv cf o.

(** The fit of channel (t, c) in terms of the arguments *)
Definition arg_fit (cf : fitter) (nc ni : nat) (d de v : nd) (inds : option (list nat)) (t c : nat) : res linfit :=
  let nanx := entry_nan nc ni v t c in
  let bad := fun i => (nanx i || entry_nan nc ni d t c i || entry_nan nc ni de t c i)%bool in
  do l <- match inds with
          | None => findnormalinds cf ni (entry nc ni v t c) (entry nc ni d t c) (entry nc ni de t c) nanx bad 10
          | Some l => Ok l end;
  fit_row cf ni (entry nc ni v t c) (entry nc ni d t c) (entry nc ni de t c) bad l.

Lemma iv_call_inv cf d de v ve r re nn inds out :
  iv_call cf d de v ve r re nn inds = Ok out ->
  exists nt nc ni p rl rle, has_dims d nt nc ni /\ nn = nc /\
    (forall t c, (t < nt)%nat -> (c < nc)%nat -> arg_fit cf nc ni d de v inds t c = Ok (p t c)) /\
    (forall t c i, (t < nt)%nat -> (c < nc)%nat -> (i < ni)%nat ->
       load_at nt nc ni r t c i (rl t c i) /\ load_at nt nc ni re t c i (rle t c i)) /\
    (forall t c,
       iv_ioff out t c = fb (p t c) /\
       iv_ioff_err out t c = sqrt (fcov (p t c) 0%nat 0%nat) /\
       iv_rfit out t c = 1 / fm (p t c) /\
       iv_rfit_err out t c = 1 / fm (p t c) /\
       iv_rnorm out t c = 1 / fm (p t c) - rl t c 0%nat /\
       iv_rnorm_err out t c =
         sqrt (sqrt (-1 / fm (p t c) ^ 2 * (-1 / fm (p t c) ^ 2) * fcov (p t c) 1%nat 1%nat) ^ 2 + rle t c 0%nat ^ 2)) /\
    (forall t c i,
       iv_ites out t c i = entry nc ni d t c i - iv_ioff out t c /\
       iv_ites_err out t c i = sqrt (entry nc ni de t c i ^ 2 + iv_ioff_err out t c ^ 2) /\
       iv_r0 out t c i = entry nc ni v t c i / iv_ites out t c i - rl t c i /\
       iv_r0_err out t c i =
         sqrt ((1 / iv_ites out t c i) ^ 2 * entry nc ni ve t c i ^ 2
               + (entry nc ni v t c i / iv_ites out t c i ^ 2) ^ 2 * iv_ites_err out t c i ^ 2 + rle t c i ^ 2) /\
       iv_ptes out t c i = iv_ites out t c i ^ 2 * iv_r0 out t c i /\
       iv_ptes_err out t c i =
         sqrt ((entry nc ni v t c i - 2 * iv_ites out t c i * rl t c i) ^ 2 * iv_ites_err out t c i ^ 2
               + iv_ites out t c i ^ 2 * entry nc ni ve t c i ^ 2 + (iv_ites out t c i ^ 2) ^ 2 * rle t c i ^ 2)).
Proof.
  unfold iv_call, iv_init. intros E.
  destruct (dims d) as [[[nt nc] ni]|] eqn:Ed; [|discriminate]. cbn [bind] in E.
  apply dims_inv in Ed.
  destruct (Nat.eqb_spec nn nc) as [En|]; cbn [negb] in E; [|discriminate].
  destruct (reshape3 d nt nc ni) as [a|] eqn:Ea; [|discriminate]. cbn [bind] in E.
  destruct (reshape3 de nt nc ni) as [b|] eqn:Eb; [|discriminate]. cbn [bind] in E.
  destruct (reshape3 v nt nc ni) as [g|] eqn:Eg; [|discriminate]. cbn [bind] in E.
  destruct (reshape3 ve nt nc ni) as [h|] eqn:Eh; [|discriminate]. cbn [bind] in E.
  destruct (store_r d nt nc ni r) as [r1|] eqn:Er; [|discriminate]. cbn [bind] in E.
  destruct (store_err d nt nc ni r re) as [re1|] eqn:Ere; [|discriminate]. cbn [bind] in E.
  unfold calc_iv in E.
  cbn [IvModel.nt IvModel.nc IvModel.ni dites dites_err vb vb_err rload rload_err normalinds] in E.
  destruct (per_channel nt nc _) as [fits|] eqn:Ef; [|discriminate]. cbn [bind] in E.
  destruct r1 as [r1|]; [|discriminate]. cbn [getattr bind] in E.
  destruct (store_r_inv _ _ _ _ _ _ Ed Er) as [rl [Erl Hrl]]. rewrite Erl in E. cbn [bind] in E.
  destruct re1 as [re1|]; [|discriminate]. cbn [getattr bind] in E.
  destruct (store_err_inv _ _ _ _ _ _ _ Ed Ere) as [rle [Erle Hrle]]. rewrite Erle in E. cbn [bind] in E.
  apply reshape3_inv in Ea, Eb, Eg, Eh.
  assert (A : at3 nc ni a = entry nc ni d) by (unfold at3, entry; now rewrite (proj1 Ea)).
  assert (B : at3 nc ni b = entry nc ni de) by (unfold at3, entry; now rewrite (proj1 Eb)).
  assert (G : at3 nc ni g = entry nc ni v) by (unfold at3, entry; now rewrite (proj1 Eg)).
  assert (H : at3 nc ni h = entry nc ni ve) by (unfold at3, entry; now rewrite (proj1 Eh)).
  assert (A' : nan3 nc ni a = entry_nan nc ni d) by (unfold nan3, entry_nan; now rewrite (proj2 Ea)).
  assert (B' : nan3 nc ni b = entry_nan nc ni de) by (unfold nan3, entry_nan; now rewrite (proj2 Eb)).
  assert (G' : nan3 nc ni g = entry_nan nc ni v) by (unfold nan3, entry_nan; now rewrite (proj2 Eg)).
  rewrite A, B, G, H in E.
  exists nt, nc, ni, (fun t c => pick no_fit fits t c), rl, rle.
  split; [exact Ed|]. split; [exact En|]. split; [|split; [|split]].
  - intros t c Ht Hc. rewrite <- (per_channel_pick _ _ _ _ no_fit Ef t c Ht Hc).
    unfold iv_fit, arg_fit. cbn [IvModel.nt IvModel.nc IvModel.ni dites dites_err vb vb_err rload rload_err normalinds].
    rewrite A, B, G, A', B', G'. reflexivity.
  - intros t c i Ht Hc Hi. split; [now apply Hrl|now apply Hrle].
  - ok_inj E out. intros t c. cbn [iv_ioff iv_ioff_err iv_rfit iv_rfit_err iv_rnorm iv_rnorm_err].
    set (q := pick no_fit fits t c). destruct (sandwich2 1 (-1 / fm q ^ 2) (fcov q)) as [S0 S1]. rewrite S0, S1.
    repeat split. f_equal. ring.
  - ok_inj E out. intros t c i.
    cbn [iv_ites iv_ites_err iv_r0 iv_r0_err iv_ptes iv_ptes_err iv_ioff iv_ioff_err].
    repeat split.
Qed.
