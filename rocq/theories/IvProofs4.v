(** * IBIS *)
From Verif Require Import Base ListLemmas UtilsModel OFFreeModel IvModel IvSpec IvProofs1 IvProofs2 IvProofs3.
From Coquelicot Require Import Coquelicot.
Local Open Scope R_scope.

(** ** Quadratic forms *)

Lemma sandwich_diag k l cov i j : (i < k)%nat -> (j < k)%nat ->
  sandwich k (diag l) cov i j = nth i l 0 * cov i j * nth j l 0.
Proof.
  intros Hi Hj. unfold sandwich, mdot, mtr.
  rewrite (rsum_single k _ i Hi).
  - rewrite (rsum_single k _ j Hj).
    + unfold diag. rewrite !Nat.eqb_refl. ring.
    + intros a Ha Hn. unfold diag. destruct (Nat.eqb_spec j a); [congruence|ring].
  - intros a Ha Hn. unfold diag at 1. destruct (Nat.eqb_spec i a); [congruence|ring].
Qed.

Lemma msum_sandwich k l cov :
  msum k (sandwich k (diag l) cov) = rsum k (fun i => rsum k (fun j => nth i l 0 * cov i j * nth j l 0)).
Proof.
  unfold msum. apply rsum_ext. intros i Hi. apply rsum_ext. intros j Hj. now apply sandwich_diag.
Qed.

Lemma rtes_err_propagates x cov : x 2%nat - x 3%nat <> 0 ->
  propagates 6 (fun y => (y 0%nat - y 1%nat) * y 4%nat / (y 2%nat - y 3%nat) - (y 4%nat + y 5%nat)) x cov
    (rtes_err (x 0%nat) (x 1%nat) (x 4%nat) (x 2%nat) (x 3%nat) (x 5%nat) cov).
Proof.
  intros N. unfold rtes_err. rewrite msum_sandwich. eexists. split; [|reflexivity].
  intros [|[|[|[|[|[|k]]]]]] Hk; try lia; unfold upd; cbn [Nat.eqb nth]; auto_derive; try exact I; try exact N; try ring; try (field; exact N).
Qed.

Lemma ptes_err_propagates x cov :
  propagates 6 (fun y => (y 0%nat - y 1%nat) * y 4%nat * (y 2%nat - y 3%nat) - (y 4%nat + y 5%nat) * (y 2%nat - y 3%nat) ^ 2) x cov
    (ptes_err (x 0%nat) (x 1%nat) (x 4%nat) (x 2%nat) (x 3%nat) (x 5%nat) cov).
Proof.
  unfold ptes_err. rewrite msum_sandwich. eexists. split; [|reflexivity].
  intros [|[|[|[|[|[|k]]]]]] Hk; try lia; unfold upd; cbn [Nat.eqb nth]; auto_derive; try exact I; ring.
Qed.

(** Crossing point of two lines as a function of intercept and slope of the first, then the second *)
Definition cross_x (y : nat -> R) : R := (y 0%nat - y 2%nat) / (y 3%nat - y 1%nat).
Definition cross_y (y : nat -> R) : R := y 1%nat * ((y 0%nat - y 2%nat) / (y 3%nat - y 1%nat)) + y 0%nat.

Lemma diag_independent a b c d : forall i j, diag [a ^ 2; b ^ 2; c ^ 2; d ^ 2] i j = independent [a; b; c; d] i j.
Proof.
  intros i j. unfold diag, independent. destruct (i =? j)%nat; [|reflexivity].
  destruct i as [|[|[|[|[|i]]]]]; cbn [nth]; ring.
Qed.

Lemma x_int_err_propagates bn mn bs ms ebn emn ebs ems : ms - mn <> 0 ->
  propagates 4 cross_x (vec [bn; mn; bs; ms]) (independent [ebn; emn; ebs; ems])
    (x_int_err bn mn bs ms ebn emn ebs ems).
Proof.
  intros N. unfold x_int_err. rewrite msum_sandwich. eexists. split.
  2: { f_equal. apply rsum_ext. intros i _. apply rsum_ext. intros j _. rewrite diag_independent. reflexivity. }
  intros [|[|[|[|k]]]] Hk; try lia; unfold upd, vec, cross_x; cbn [Nat.eqb nth]; auto_derive; try exact I; try exact N; try (field; exact N).
Qed.

Lemma y_int_err_propagates bn mn bs ms ebn emn ebs ems : ms - mn <> 0 ->
  (bn - bs) * (mn - 1) * emn = 0 ->
  propagates 4 cross_y (vec [bn; mn; bs; ms]) (independent [ebn; emn; ebs; ems])
    (y_int_err bn mn bs ms ebn emn ebs ems).
Proof.
  intros N Z. unfold y_int_err. rewrite msum_sandwich.
  set (dm := (bn - bs) / (ms - mn) + mn * (bn - bs) / (ms - mn) ^ 2).
  exists (vec [mn / (ms - mn) + 1; dm; - mn / (ms - mn); - mn * (bn - bs) / (ms - mn) ^ 2]). split.
  - intros [|[|[|[|k]]]] Hk; try lia; unfold upd, vec, cross_y, dm; cbn [Nat.eqb nth]; auto_derive; try exact I; try exact N; try (field; exact N).
  - f_equal. unfold vec, diag, independent. cbn [rsum Nat.eqb nth].
    assert (Q : ((bn - bs) / (ms - mn) + (bn - bs) / (ms - mn) ^ 2) ^ 2 * emn ^ 2 = dm ^ 2 * emn ^ 2).
    { replace (((bn - bs) / (ms - mn) + (bn - bs) / (ms - mn) ^ 2) ^ 2 * emn ^ 2)
        with ((((bn - bs) / (ms - mn) + (bn - bs) / (ms - mn) ^ 2) * emn) ^ 2) by ring.
      replace (dm ^ 2 * emn ^ 2) with ((dm * emn) ^ 2) by ring. f_equal.
      assert (D : dm * emn - ((bn - bs) / (ms - mn) + (bn - bs) / (ms - mn) ^ 2) * emn = (bn - bs) * (mn - 1) * emn / (ms - mn) ^ 2).
      { unfold dm. field. exact N. }
      rewrite Z in D. assert (Z0 : 0 / (ms - mn) ^ 2 = 0) by (unfold Rdiv; ring). lra. }
    lra.
Qed.

Lemma propagates_unique n f x cov e e' : propagates n f x cov e -> propagates n f x cov e' -> e = e'.
Proof.
  intros [g [Hg ->]] [g' [Hg' ->]]. f_equal. apply rsum_ext. intros i Hi. apply rsum_ext. intros j Hj.
  assert (G : forall k, (k < n)%nat -> g k = g' k).
  { intros k Hk. rewrite <- (is_derive_unique _ _ _ (Hg k Hk)). exact (is_derive_unique _ _ _ (Hg' k Hk)). }
  now rewrite (G i Hi), (G j Hj).
Qed.

(** ** The result in terms of the arguments *)

Definition ibis_call (cf : fitter) (d de ib ibe : nd) (rsh rsh_err : R) (ninds : list nat) (rp rpe : rarg)
    (nn : nat) (fitsc : bool) (scinds : option (list nat)) (yoff yoff_err xoff xoff_err : off) : res ibis_out :=
  do o <- ibis_init d de ib ibe rsh rsh_err ninds rp rpe nn fitsc scinds;
  analyze cf o yoff yoff_err xoff xoff_err.

Definition arg_bfit (cf : fitter) (nc ni : nat) (d de ib : nd) (l : list nat) (t c : nat) : res linfit :=
  fit_row cf ni (entry nc ni ib t c) (entry nc ni d t c) (entry nc ni de t c)
    (fun i => (entry_nan nc ni ib t c i || entry_nan nc ni d t c i || entry_nan nc ni de t c i)%bool) l.

Lemma first_bias_of3 nt nc ni f g : first_bias nc ni (of3 nt nc ni f) = Ok g -> (0 < ni)%nat ->
  forall t c, (c < nc)%nat -> g t c = f t c 0%nat.
Proof.
  unfold first_bias. cbn [shape of3]. intros E Hi t c Hc. injection E as <-. now apply (of3_at nt).
Qed.

Lemma store_first d nt nc ni r a f : store_r d nt nc ni r = Ok (Some a) -> has_dims d nt nc ni -> first_bias nc ni a = Ok f ->
  (0 < ni)%nat -> forall t c, (t < nt)%nat -> (c < nc)%nat -> load_at nt nc ni r t c 0 (f t c).
Proof.
  intros E Hd F Hi t c Ht Hc. destruct r as [w|b].
  - cbn [store_r] in E. injection E as <-. unfold first_bias in F. cbn [full_like shape] in F.
    destruct (shape d) as [|? [|? [|? [|]]]]; try discriminate. injection F as <-. reflexivity.
  - destruct (store_r_inv _ _ _ _ _ _ Hd E) as [g [Eg Hg]].
    assert (S : shape a = [nt; nc; ni]).
    { unfold store_r in E. destruct (shape_eqb _ _); [now injection E as <-|].
      destruct (shape_eqb _ _); [now injection E as <-|]. destruct (negb _); discriminate. }
    unfold bcast3 in Eg. unfold first_bias in F. rewrite S in Eg, F. rewrite !Nat.eqb_refl in Eg. cbn [andb] in Eg.
    injection Eg as <-. injection F as <-. now apply Hg.
Qed.

Lemma store_err_first d nt nc ni r e a f : store_err d nt nc ni r e = Ok (Some a) -> has_dims d nt nc ni -> first_bias nc ni a = Ok f ->
  (0 < ni)%nat -> forall t c, (t < nt)%nat -> (c < nc)%nat -> load_at nt nc ni e t c 0 (f t c).
Proof.
  unfold store_err. destruct r, e; try discriminate.
  - intros E. apply (store_first d nt nc ni (RScalar r0) a f). exact E.
  - destruct (shape_eqb _ _); [|discriminate]. apply store_first.
Qed.

Lemma ibis_call_inv cf d de ib ibe rsh rshe ninds rp rpe nn fitsc scinds yo yoe xo xoe out :
  ibis_call cf d de ib ibe rsh rshe ninds rp rpe nn fitsc scinds yo yoe xo xoe = Ok out ->
  exists nt nc ni p q ys yse xs xse, has_dims d nt nc ni /\ nn = nc /\
    (forall t c, (t < nt)%nat -> (c < nc)%nat -> arg_bfit cf nc ni d de ib ninds t c = Ok (p t c)) /\
    (fitsc = true -> exists l, scinds = Some l /\
       forall t c, (t < nt)%nat -> (c < nc)%nat -> arg_bfit cf nc ni d de ib l t c = Ok (q t c)) /\
    (let sn t c := sqrt (fcov (p t c) 1%nat 1%nat) in
     let bn t c := sqrt (fcov (p t c) 0%nat 0%nat) in
     let ss t c := if fitsc then sqrt (fcov (q t c) 1%nat 1%nat) else 0 in
     let bs t c := if fitsc then sqrt (fcov (q t c) 0%nat 0%nat) else 0 in
     use_off (fun t c _ => if fitsc then o_slope_n out t c * ((o_int_n out t c - o_int_sc out t c) / (o_slope_sc out t c - o_slope_n out t c)) + o_int_n out t c
                           else o_int_n out t c)
             (fun t c _ => y_int_err (o_int_n out t c) (o_slope_n out t c) (o_int_sc out t c) (o_slope_sc out t c) (bn t c) (sn t c) (bs t c) (ss t c))
             yo yoe = Ok (ys, yse) /\
     use_off (fun t c _ => if fitsc then (o_int_n out t c - o_int_sc out t c) / (o_slope_sc out t c - o_slope_n out t c) else 0)
             (fun t c _ => x_int_err (o_int_n out t c) (o_slope_n out t c) (o_int_sc out t c) (o_slope_sc out t c) (bn t c) (sn t c) (bs t c) (ss t c))
             xo xoe = Ok (xs, xse)) /\
    (forall t c,
       o_slope_n out t c = fm (p t c) /\ o_int_n out t c = fb (p t c) /\
       o_slope_sc out t c = (if fitsc then fm (q t c) else 0) /\ o_int_sc out t c = (if fitsc then fb (q t c) else 0) /\
       o_ioff out t c = ys t c 0%nat /\ o_ioff_err out t c = yse t c 0%nat /\
       o_ibias_off out t c = xs t c 0%nat /\ o_ibias_off_err out t c = xse t c 0%nat /\
       o_rfit out t c = 1 / fm (p t c) * rsh /\
       o_rfit_err out t c = sqrt ((rsh * (-1 / fm (p t c) ^ 2 * (-1 / fm (p t c) ^ 2) * fcov (p t c) 1%nat 1%nat)) ^ 2
                                  + (1 / fm (p t c) * rshe) ^ 2) /\
       o_rnorm out t c = o_rfit out t c - rsh - o_rp out t c /\
       o_rnorm_err out t c = sqrt (o_rfit_err out t c ^ 2 + o_rp_err out t c ^ 2)) /\
    (forall t c, (0 < ni)%nat -> (t < nt)%nat -> (c < nc)%nat ->
       if fitsc
       then o_rp out t c = 1 / fm (q t c) * rsh - rsh /\
            o_rp_err out t c = sqrt ((rsh * (-1 / fm (q t c) ^ 2 * (-1 / fm (q t c) ^ 2) * fcov (q t c) 1%nat 1%nat)) ^ 2
                                     + ((1 / fm (q t c) - 1) * rshe) ^ 2)
       else load_at nt nc ni rp t c 0 (o_rp out t c) /\ load_at nt nc ni rpe t c 0 (o_rp_err out t c)) /\
    (forall t c i,
       let cov := diag [entry nc ni ibe t c i ^ 2; o_ibias_off_err out t c ^ 2; entry nc ni de t c i ^ 2; o_ioff_err out t c ^ 2;
                        rshe ^ 2; o_rp_err out t c ^ 2] in
       let D := entry nc ni d t c i in
       let B := entry nc ni ib t c i in
       o_ites out t c i = D - ys t c i /\
       o_ites_err out t c i = sqrt (entry nc ni de t c i ^ 2 + yse t c i ^ 2) /\
       o_ibias_true out t c i = B - xs t c i /\
       o_ibias_true_err out t c i = sqrt (entry nc ni ibe t c i ^ 2 + xse t c i ^ 2) /\
       o_r0 out t c i = rtes B (o_ibias_off out t c) rsh D (o_ioff out t c) (o_rp out t c) /\
       o_r0_err out t c i = rtes_err B (o_ibias_off out t c) rsh D (o_ioff out t c) (o_rp out t c) cov /\
       o_ptes out t c i = ptes B (o_ibias_off out t c) rsh D (o_ioff out t c) (o_rp out t c) /\
       o_ptes_err out t c i = ptes_err B (o_ibias_off out t c) rsh D (o_ioff out t c) (o_rp out t c) cov /\
       o_vb out t c i = o_ibias_true out t c i * rsh /\
       o_vb_err out t c i = sqrt ((o_ibias_true out t c i * rshe) ^ 2 + (rsh * o_ibias_true_err out t c i) ^ 2)).
Proof.
  unfold ibis_call, ibis_init. intros E.
  destruct (fitsc && match scinds with None => true | Some _ => false end)%bool eqn:Esc; [discriminate|].
  destruct (dims d) as [[[nt nc] ni]|] eqn:Ed; [|discriminate]. cbn [bind] in E.
  apply dims_inv in Ed.
  destruct (Nat.eqb_spec nn nc) as [En|]; cbn [negb] in E; [|discriminate].
  destruct (reshape3 d nt nc ni) as [a|] eqn:Ea; [|discriminate]. cbn [bind] in E.
  destruct (reshape3 de nt nc ni) as [b|] eqn:Eb; [|discriminate]. cbn [bind] in E.
  destruct (reshape3 ib nt nc ni) as [g|] eqn:Eg; [|discriminate]. cbn [bind] in E.
  destruct (reshape3 ibe nt nc ni) as [h|] eqn:Eh; [|discriminate]. cbn [bind] in E.
  destruct (store_r d nt nc ni rp) as [r1|] eqn:Er; [|discriminate]. cbn [bind] in E.
  destruct (store_err d nt nc ni rp rpe) as [re1|] eqn:Ere; [|discriminate]. cbn [bind] in E.
  unfold analyze in E.
  cbn [bt bc bi b_dites b_dites_err b_ibias b_ibias_err b_rsh b_rsh_err b_rp b_rp_err b_normalinds b_fitsc b_scinds] in E.
  destruct (per_channel nt nc _) as [fits|] eqn:Ef in E; [|discriminate]. cbn [bind] in E.
  apply reshape3_inv in Ea, Eb, Eg, Eh.
  assert (A : at3 nc ni a = entry nc ni d) by (unfold at3, entry; now rewrite (proj1 Ea)).
  assert (B : at3 nc ni b = entry nc ni de) by (unfold at3, entry; now rewrite (proj1 Eb)).
  assert (G : at3 nc ni g = entry nc ni ib) by (unfold at3, entry; now rewrite (proj1 Eg)).
  assert (H : at3 nc ni h = entry nc ni ibe) by (unfold at3, entry; now rewrite (proj1 Eh)).
  assert (A' : nan3 nc ni a = entry_nan nc ni d) by (unfold nan3, entry_nan; now rewrite (proj2 Ea)).
  assert (B' : nan3 nc ni b = entry_nan nc ni de) by (unfold nan3, entry_nan; now rewrite (proj2 Eb)).
  assert (G' : nan3 nc ni g = entry_nan nc ni ib) by (unfold nan3, entry_nan; now rewrite (proj2 Eg)).
  assert (Fit : forall l t c r1 re1, ibis_fit cf (mkIbis nt nc ni a b g h rsh rshe r1 re1 ninds fitsc scinds) l t c = arg_bfit cf nc ni d de ib l t c).
  { intros l t c r2 re2. unfold ibis_fit, arg_bfit.
    cbn [bt bc bi b_dites b_dites_err b_ibias b_ibias_err]. now rewrite A, B, G, A', B', G'. }
  rewrite A, B, G, H in E.
  match type of E with bind ?m _ = _ => destruct m as [scf|] eqn:Escf; [|discriminate] end. cbn [bind] in E.
  match type of E with bind ?m _ = _ => destruct m as [[rps rpse]|] eqn:Erps; [|discriminate] end. cbn [bind] in E.
  match type of E with bind ?m _ = _ => destruct m as [[ys yse]|] eqn:Eys; [|discriminate] end. cbn [bind] in E.
  match type of E with bind ?m _ = _ => destruct m as [[xs xse]|] eqn:Exs; [|discriminate] end. cbn [bind] in E.
  cbn [fst snd] in E.
  destruct (first_bias nc ni rpse) as [rpe2|] eqn:F1; [|discriminate]. cbn [bind] in E.
  destruct (first_bias nc ni rps) as [rp2|] eqn:F2; [|discriminate]. cbn [bind] in E.
  exists nt, nc, ni, (fun t c => pick no_fit fits t c), (fun t c => pick no_fit scf t c), ys, yse, xs, xse.
  split; [exact Ed|]. split; [exact En|]. split; [|split; [|split; [|split; [|split]]]].
  - intros t c Ht Hc. rewrite <- (per_channel_pick _ _ _ _ no_fit Ef t c Ht Hc). symmetry. apply Fit.
  - intros ->. destruct scinds as [l|]; [|discriminate]. exists l. split; [reflexivity|].
    cbn [bind] in Escf. intros t c Ht Hc. rewrite <- (per_channel_pick _ _ _ _ no_fit Escf t c Ht Hc). symmetry. apply Fit.
  - ok_inj E out. cbn [o_int_n o_slope_n o_int_sc o_slope_sc]. destruct fitsc; (split; [exact Eys|exact Exs]).
  - ok_inj E out. intros t c.
    cbn [o_int_n o_slope_n o_int_sc o_slope_sc o_ioff o_ioff_err o_ibias_off o_ibias_off_err o_rfit o_rfit_err o_rnorm o_rnorm_err o_rp o_rp_err].
    do 9 (split; [reflexivity|]). split; [|split; reflexivity].
    set (z := pick no_fit fits t c). now rewrite (proj2 (sandwich2 1 (-1 / fm z ^ 2) (fcov z))).
  - intros t c Hi Ht Hc. ok_inj E out. cbn [o_rp o_rp_err]. destruct fitsc.
    + apply (f_equal (fun r => match r with Ok a => a | Err _ => (rps, rpse) end)) in Erps. cbv beta iota in Erps.
      apply pair_equal_spec in Erps. destruct Erps as [<- <-].
      rewrite (first_bias_of3 _ _ _ _ _ F1 Hi t c Hc), (first_bias_of3 _ _ _ _ _ F2 Hi t c Hc).
      split; [reflexivity|]. set (z := pick no_fit scf t c). now rewrite (proj2 (sandwich2 1 (-1 / fm z ^ 2) (fcov z))).
    + destruct r1 as [r1|]; [|discriminate]. destruct re1 as [re1|]; [|discriminate]. cbn [getattr bind] in Erps.
      injection Erps as <- <-. split.
      * exact (store_first _ _ _ _ _ _ _ Er Ed F2 Hi t c Ht Hc).
      * exact (store_err_first _ _ _ _ _ _ _ _ Ere Ed F1 Hi t c Ht Hc).
  - ok_inj E out. intros t c i.
    cbn [o_int_n o_slope_n o_int_sc o_slope_sc o_ioff o_ioff_err o_ibias_off o_ibias_off_err o_rfit o_rfit_err o_rnorm o_rnorm_err o_rp o_rp_err
         o_ites o_ites_err o_ibias_true o_ibias_true_err o_r0 o_r0_err o_ptes o_ptes_err o_vb o_vb_err].
    repeat split.
Qed.
