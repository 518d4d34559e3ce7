(** * The unconstrained fit, the background-only fit and fits in a subspace *)
From Coq Require Import Reals ZArith List Lia Lra Bool.
From Verif Require Import Base ListLemmas Dft WindowModel WindowProofs NsmbModel NsmbSpec NsmbProofs1 NsmbProofs2.
From Coquelicot Require Import Coquelicot.
Import ListNotations.
Local Open Scope R_scope.

(** ** Windows *)
Lemma pyindex_mk (nt : nat) (g : nat -> R) i : (- Z.of_nat nt <= i < Z.of_nat nt)%Z -> pyindex (mk nt g) i = Ok (g (col nt i)).
Proof.
  intros H. unfold pyindex, col. rewrite mk_length. destruct (Z.ltb_spec i 0).
  - destruct (Z.ltb_spec (i + Z.of_nat nt) 0); [lia|]. rewrite mk_nth_error. destruct (Nat.ltb_spec (Z.to_nat (i + Z.of_nat nt)) nt); [reflexivity|lia].
  - destruct (Z.ltb_spec i 0); [lia|]. rewrite mk_nth_error. destruct (Nat.ltb_spec (Z.to_nat i) nt); [reflexivity|lia].
Qed.
Lemma pyindex_mk_inv (nt : nat) (g : nat -> R) i v : pyindex (mk nt g) i = Ok v -> (- Z.of_nat nt <= i < Z.of_nat nt)%Z.
Proof.
  unfold pyindex. rewrite mk_length. destruct (Z.ltb_spec i 0).
  - destruct (Z.ltb_spec (i + Z.of_nat nt) 0); [discriminate|]. lia.
  - destruct (Z.ltb_spec i 0); [discriminate|]. rewrite mk_nth_error. destruct (Nat.ltb_spec (Z.to_nat i) nt); [lia|discriminate].
Qed.
Lemma take_mk nt (g : nat -> R) w : (forall i, In i w -> (- Z.of_nat nt <= i < Z.of_nat nt)%Z) -> WindowModel.take (mk nt g) w = Ok (map (fun i => g (col nt i)) w).
Proof.
  induction w as [|i w IH]; intros H; [reflexivity|]. cbn [WindowModel.take]. rewrite pyindex_mk by (apply H; now left). cbn [bind].
  rewrite IH by (intros; apply H; now right). reflexivity.
Qed.
Lemma take_mk_inv nt (g : nat -> R) w vals : WindowModel.take (mk nt g) w = Ok vals -> forall i, In i w -> (- Z.of_nat nt <= i < Z.of_nat nt)%Z.
Proof.
  revert vals. induction w as [|j w IH]; intros vals H i Hi; [destruct Hi|]. cbn [WindowModel.take] in H.
  destruct (pyindex (mk nt g) j) as [x|] eqn:E; [|discriminate]. cbn [bind] in H.
  destruct (WindowModel.take (mk nt g) w) as [r|] eqn:E2; [|discriminate]. destruct Hi as [<-|Hi]; [exact (pyindex_mk_inv _ _ _ _ E)|].
  exact (IH r eq_refl i Hi).
Qed.
Lemma col_lt nt i : (- Z.of_nat nt <= i < Z.of_nat nt)%Z -> (col nt i < nt)%nat.
Proof. unfold col. destruct (Z.ltb_spec i 0); lia. Qed.
Lemma col_mod nt i : (- Z.of_nat nt <= i < Z.of_nat nt)%Z -> (Z.of_nat (col nt i) mod Z.of_nat nt = i mod Z.of_nat nt)%Z.
Proof.
  intros H. unfold col. destruct (Z.ltb_spec i 0).
  - rewrite Z2Nat.id by lia. replace (i + Z.of_nat nt)%Z with (i + 1 * Z.of_nat nt)%Z by lia. apply Z.mod_add. lia.
  - now rewrite Z2Nat.id by lia.
Qed.

Lemma window_min_spec nt g w v i : window_min (mk nt g) w = Ok (v, i) ->
  In i w /\ (forall j, In j w -> (- Z.of_nat nt <= j < Z.of_nat nt)%Z) /\ v = g (col nt i) /\ (forall j, In j w -> v <= g (col nt j)).
Proof.
  unfold window_min. destruct (WindowModel.take (mk nt g) w) as [vals|] eqn:E; [|discriminate]. cbn [bind].
  assert (HR := take_mk_inv _ _ _ _ E). rewrite (take_mk nt g w HR) in E.
  assert (EV : vals = map (fun i => g (col nt i)) w) by (injection E as <-; reflexivity). subst vals. clear E.
  destruct (argmin _) as [b|] eqn:Eb; [|discriminate]. cbn [bind].
  destruct (argmin_spec _ _ Eb) as [Hb Hm]. rewrite map_length in Hb, Hm.
  rewrite (pyindex_in w (Z.of_nat b) 0%Z) by lia. cbn [bind]. rewrite Nat2Z.id. intros H. injection H as <- <-.
  rewrite (nth_indep _ 0 (g (col nt 0))) by (now rewrite map_length). rewrite (map_nth (fun i => g (col nt i)) w 0%Z b).
  split; [apply nth_In; exact Hb|]. split; [exact HR|]. split; [reflexivity|].
  intros j Hj. destruct (In_nth w j 0%Z Hj) as [n [Hn <-]]. destruct (Hm n Hn) as [Hle _].
  rewrite !(nth_indep _ 0 (g (col nt 0))) in Hle by (now rewrite map_length).
  now rewrite !(map_nth (fun i => g (col nt i)) w 0%Z) in Hle.
Qed.
Lemma window_min_ok nt g w : w <> [] -> (forall j, In j w -> (- Z.of_nat nt <= j < Z.of_nat nt)%Z) -> exists m, window_min (mk nt g) w = Ok m.
Proof.
  intros Hw HR. unfold window_min. rewrite take_mk by assumption. cbn [bind].
  destruct (argmin_ok (map (fun i => g (col nt i)) w)) as [b Eb]; [destruct w; [contradiction|discriminate]|].
  rewrite Eb. cbn [bind]. destruct (argmin_spec _ _ Eb) as [Hb _]. rewrite map_length in Hb.
  rewrite (pyindex_in w (Z.of_nat b) 0%Z) by lia. cbn [bind]. eauto.
Qed.

Lemma wrap_in nt w i : (0 < nt)%nat -> In i (wrap_window nt w) -> exists j, In j w /\ (i mod Z.of_nat nt = j mod Z.of_nat nt)%Z.
Proof.
  intros Hn H. apply in_map_iff in H. destruct H as [j [E Hj]]. exists j. split; [exact Hj|].
  assert (G : ((if (j <? 0)%Z then Z.of_nat nt + j else j) mod Z.of_nat nt = j mod Z.of_nat nt)%Z).
  { destruct (j <? 0)%Z; [|reflexivity]. replace (Z.of_nat nt + j)%Z with (j + 1 * Z.of_nat nt)%Z by lia. apply Z.mod_add. lia. }
  rewrite <- G, <- E. cbv zeta. destruct (Z.leb_spec (Z.of_nat nt) (if (j <? 0)%Z then Z.of_nat nt + j else j)); [|reflexivity].
  apply Z.mod_mod. lia.
Qed.
Lemma wrap_has nt w j : (0 < nt)%nat -> In j w -> exists i, In i (wrap_window nt w) /\ (i mod Z.of_nat nt = j mod Z.of_nat nt)%Z.
Proof.
  intros Hn Hj. eexists. split; [apply in_map_iff; exists j; split; [reflexivity|exact Hj]|].
  assert (G : ((if (j <? 0)%Z then Z.of_nat nt + j else j) mod Z.of_nat nt = j mod Z.of_nat nt)%Z).
  { destruct (j <? 0)%Z; [|reflexivity]. replace (Z.of_nat nt + j)%Z with (j + 1 * Z.of_nat nt)%Z by lia. apply Z.mod_add. lia. }
  rewrite <- G. cbv zeta. destruct (Z.leb_spec (Z.of_nat nt) (if (j <? 0)%Z then Z.of_nat nt + j else j)); [|reflexivity].
  apply Z.mod_mod. lia.
Qed.
Lemma wrap_range nt w i : (0 < nt)%nat -> (forall j, In j w -> (- 2 * Z.of_nat nt <= j)%Z) -> In i (wrap_window nt w) -> (- Z.of_nat nt <= i < Z.of_nat nt)%Z.
Proof.
  intros Hn HR H. apply in_map_iff in H. destruct H as [j [E Hj]]. specialize (HR j Hj). subst i. cbv zeta.
  destruct (Z.ltb_spec j 0).
  - destruct (Z.leb_spec (Z.of_nat nt) (Z.of_nat nt + j)); lia.
  - destruct (Z.leb_spec (Z.of_nat nt) j); [|lia]. assert (B := Z.mod_pos_bound j (Z.of_nat nt) ltac:(lia)). lia.
Qed.

(** ** Vectors with a given support *)
Lemma scatter_notin idx v i : ~ In i idx -> scatter idx v i = 0.
Proof.
  revert v. induction idx as [|j idx IH]; intros v H; [reflexivity|]. simpl. destruct (Nat.eqb_spec i j) as [->|].
  - elim H. now left.
  - apply IH. intros G. apply H. now right.
Qed.
Lemma scatter_nth idx v n : NoDup idx -> (n < length idx)%nat -> scatter idx v (nth n idx O) = v n.
Proof.
  revert v n. induction idx as [|j idx IH]; intros v n ND Hn; [simpl in Hn; lia|].
  inversion ND as [|x l Hx ND' Heq]; subst. destruct n as [|n]; simpl.
  - now rewrite Nat.eqb_refl.
  - simpl in Hn. destruct (Nat.eqb_spec (nth n idx O) j) as [E|E].
    + elim Hx. rewrite <- E. apply nth_In. lia.
    + apply (IH (fun x => v (S x)) n ND'). lia.
Qed.
Lemma rsum_scatter K idx v (g : nat -> R) : NoDup idx -> (forall i, In i idx -> (i < K)%nat) ->
  rsum K (fun j => g j * scatter idx v j) = rsum (length idx) (fun j => g (nth j idx O) * v j).
Proof.
  revert v. induction idx as [|j idx IH]; intros v ND HK.
  - simpl. rewrite (rsum_ext K _ (fun _ => 0)); [apply rsum_zero|intros; ring].
  - inversion ND as [|x l Hx ND' Heq]; subst. cbn [length]. rewrite rsum_S_first. cbn [nth].
    rewrite <- (IH (fun x => v (S x)) ND') by (intros; apply HK; now right).
    rewrite (rsum_ext K _ (fun i => (if (i =? j)%nat then g j * v O else 0) + g i * scatter idx (fun x => v (S x)) i)).
    + rewrite rsum_plus. f_equal. rewrite (rsum_single K _ j).
      * now rewrite Nat.eqb_refl.
      * apply HK; now left.
      * intros i Hi Hn. destruct (Nat.eqb_spec i j); [contradiction|reflexivity].
    + intros i Hi. simpl. destruct (Nat.eqb_spec i j) as [->|]; [|ring]. rewrite (scatter_notin idx _ j) by assumption. ring.
Qed.

Lemma indices_nodup k m : NoDup (indices k m).
Proof. apply NoDup_filter. apply seq_NoDup. Qed.
Lemma indices_in k m i : In i (indices k m) <-> (i < k)%nat /\ m i = true.
Proof. unfold indices. rewrite filter_In, in_seq. intuition lia. Qed.

(** Fit of a sub-family: the expanded amplitudes solve the normal equations of the kept templates,
    are zero elsewhere, and minimise the error among all such vectors. *)
Lemma subfit nt J K m D A X q idx : (forall f, (f < nt)%nat -> 0 < J f) ->
  NoDup idx -> (forall i, In i idx -> (i < K)%nat) ->
  (forall i j, (i < length idx)%nat -> (j < length idx)%nat -> A i j = gram nt J m (nth i idx O) (nth j idx O)) ->
  penrose (length idx) A X -> (forall i, (i < K)%nat -> q i = ip nt J (m i) D) ->
  let v := mv (length idx) X (fun i => q (nth i idx O)) in
  let a := scatter idx v in
  (forall i, In i idx -> mv K (gram nt J m) a i = q i) /\
  (forall i, ~ In i idx -> a i = 0) /\
  vdot (length idx) v (fun i => q (nth i idx O)) = vdot K a q /\
  err nt J K m D a = ip nt J D D - vdot K a q /\
  (forall b, (forall i, (i < K)%nat -> ~ In i idx -> b i = 0) -> err nt J K m D a <= err nt J K m D b).
Proof.
  intros HJ ND HK HA HP Hq v a.
  assert (N1 : forall i, In i idx -> mv K (gram nt J m) a i = q i).
  { intros i Hi. destruct (In_nth idx i O Hi) as [n [Hn <-]].
    unfold mv at 1, a. rewrite rsum_scatter by assumption.
    assert (S := gram_solves nt J HJ (length idx) (fun i => m (nth i idx O)) X D A HA HP (fun i => q (nth i idx O))).
    rewrite <- (S ltac:(intros j Hj; apply Hq, HK, nth_In; exact Hj) n Hn). reflexivity. }
  assert (N2 : forall i, ~ In i idx -> a i = 0) by (intros; now apply scatter_notin).
  assert (N3 : vdot (length idx) v (fun i => q (nth i idx O)) = vdot K a q).
  { rewrite (vdot_comm K). unfold vdot at 2, a. rewrite rsum_scatter by assumption. apply rsum_ext. intros; ring. }
  assert (Q : forall i, (i < K)%nat -> nq nt J m D i = q i) by (intros i Hi; symmetry; now apply Hq).
  split; [exact N1|]. split; [exact N2|]. split; [exact N3|].
  assert (EG : vdot K a (mv K (gram nt J m) a) = vdot K a q).
  { apply rsum_ext. intros i Hi. destruct (in_dec Nat.eq_dec i idx) as [Hin|Hin]; [now rewrite N1|]. rewrite (N2 i Hin). ring. }
  split.
  - rewrite err_expand, EG. rewrite (vdot_ext K a (nq nt J m D) a q) by (auto; reflexivity). ring.
  - intros b Hb. assert (E := err_diff nt J K m D a b). rewrite gram_lin in E.
    assert (P := ip_self_nonneg nt J HJ (lin K m (fun i => b i - a i))).
    assert (Z : vdot K (fun i => b i - a i) (fun i => nq nt J m D i - mv K (gram nt J m) a i) = 0).
    { unfold vdot. rewrite (rsum_ext K _ (fun _ => 0)); [apply rsum_zero|]. intros i Hi.
      destruct (in_dec Nat.eq_dec i idx) as [Hin|Hin].
      - rewrite N1, Q by assumption. ring.
      - rewrite (N2 i Hin), (Hb i Hi Hin). ring. }
    lra.
Qed.

Section Fits.
Variables (pinv : nat -> (nat -> nat -> R) -> nat -> nat -> R) (nt : nat) (s : nat -> R) (bs : list (nat -> R)) (psd : nat -> R) (fs : R).
Hypothesis Hnt : (2 <= nt)%nat.
Hypothesis Hfs : 0 < fs.
Hypothesis Hpsd : forall f, (1 <= f < nt)%nat -> 0 < psd f.
Hypothesis Hpinv : pinv_ok pinv.
Let J := jnoise nt psd fs.
Let tf := stf nt s bs.
Let st := the_setup pinv nt s bs psd fs.
Let K := (1 + length bs)%nat.
Let T := tvec nt s bs.
Let HJ : forall f, (f < nt)%nat -> 0 < J f := J_pos nt bs psd fs Hnt Hfs Hpsd.

Lemma nsmb_solves pulse d : forall i, (i < K)%nat ->
  mv K (gram nt J (T (Z.of_nat d))) (mv K (fun i j => of_nsmb_getiP pinv st i j d) (qt st pulse d)) i
  = nq nt J (T (Z.of_nat d)) (fftn nt pulse) i.
Proof.
  intros i Hi. assert (PG : forall i j, (i < K)%nat -> (j < K)%nat -> s_P st i j d = gram nt J (T (Z.of_nat d)) i j)
    by (intros; now apply P_gram).
  assert (Q : forall j, (j < K)%nat -> qt st pulse d j = ip nt J (T (Z.of_nat d) j) (fftn nt pulse)) by (intros; now apply qt_ip).
  unfold nq. rewrite <- (Q i Hi).
  apply (gram_solves nt J HJ K (T (Z.of_nat d)) _ (fftn nt pulse) (fun i j => s_P st i j d)); [exact PG| |exact Q|exact Hi].
  apply (Hpinv K). apply (psd_ext K (gram nt J (T (Z.of_nat d)))); [intros; symmetry; now apply PG|]. apply gram_psd. exact HJ.
Qed.

Lemma err_mod pulse a d d' : (d mod Z.of_nat nt = d' mod Z.of_nat nt)%Z ->
  err nt J K (T d) (fftn nt pulse) a = err nt J K (T d') (fftn nt pulse) a.
Proof.
  intros H. assert (E : forall f, csub (fftn nt pulse) (lin K (T d) a) f = csub (fftn nt pulse) (lin K (T d') a) f).
  { intros f. unfold csub, lin. f_equal. apply csum_ext. intros k Hk. f_equal. now apply tvec_mod. }
  unfold err. apply ip_ext; intros; apply E.
Qed.

Lemma nsmb_correct pulse window lf out : of_nsmb st (of_nsmb_getiP pinv st) pulse fs window lf = Ok out ->
  exists d, In d window /\
    (exists e, o_tdel out = IZR e / fs /\ (e mod Z.of_nat nt = d mod Z.of_nat nt)%Z /\
       ((forall j, In j window -> (- Z.of_nat nt <= j)%Z) -> (- Z.of_nat nt < 2 * e <= Z.of_nat nt)%Z)) /\
    (forall t, (t < nt)%nat -> o_resid out t = pulse t - sb_model nt s bs (o_amp out) d t) /\
    o_chi2 out = trace_chi2 nt nt (bin_noise nt psd fs) (o_resid out) /\
    o_lf out = trace_chi2 nt (Nat.min lf nt) (bin_noise nt psd fs) (o_resid out) /\
    (forall d' b, In d' window -> o_chi2 out <= trace_chi2 nt nt (bin_noise nt psd fs) (trace_minus pulse (sb_model nt s bs b d'))).
Proof.
  unfold of_nsmb. rewrite Reqb_false by lra. change (s_nt st) with nt. change (nsb st) with K. change (s_nb st) with (length bs).
  destruct (Nat.eqb_spec (length bs) 0); [destruct (wrap_window nt window); discriminate|].
  set (chi := fun d => chi2f st nt (fftn nt pulse) - vdot K (mv K (fun i j => of_nsmb_getiP pinv st i j d) (qt st pulse d)) (qt st pulse d)).
  destruct (window_min (mk nt chi) (wrap_window nt window)) as [[v ind]|] eqn:E; [|discriminate]. cbn [bind fst snd].
  destruct (window_min_spec _ _ _ _ _ E) as [Hin [HR [Hv Hmin]]].
  set (a := fun d => mv K (fun i j => of_nsmb_getiP pinv st i j d) (qt st pulse d)).
  assert (CE : forall d, chi d = err nt J K (T (Z.of_nat d)) (fftn nt pulse) (a d)).
  { intros d. rewrite (err_value nt J K (T (Z.of_nat d)) (fftn nt pulse) (a d)).
    - unfold chi. f_equal.
      + unfold st. rewrite chi2f_sum by (assumption || lia). reflexivity.
      + apply vdot_ext; [reflexivity|]. intros j Hj. unfold st. now rewrite qt_ip.
    - intros i Hi. now apply nsmb_solves. }
  destruct (wrap_in nt window ind ltac:(lia) Hin) as [d [Hd Hmod]].
  intros H. assert (Ho : out = mkOut (a (col nt ind)) (tdel_of nt fs ind) v
    (chi2f st (lowbins st lf) (fftn nt (fun t => pulse t - fit_trace st fs (a (col nt ind)) (tdel_of nt fs ind) t)))
    (fun t => pulse t - fit_trace st fs (a (col nt ind)) (tdel_of nt fs ind) t) (wrap_window nt window)).
  { symmetry. exact (f_equal (fun r => match r with Ok x => x | Err _ => out end) H). }
  rewrite Ho. cbn [o_amp o_tdel o_chi2 o_lf o_resid]. clear H Ho out.
  assert (SM : forall t, (t < nt)%nat -> fit_trace st fs (a (col nt ind)) (tdel_of nt fs ind) t = sb_model nt s bs (a (col nt ind)) d t).
  { intros t Ht. unfold st. rewrite fit_trace_model by assumption. unfold sb_model. do 4 f_equal.
    rewrite Zminus_mod, Hmod, <- Zminus_mod. reflexivity. }
  exists d. split; [exact Hd|]. split; [|split; [|split; [|split]]].
  - exists (ind - (if (Z.of_nat nt <? 2 * ind)%Z then Z.of_nat nt else 0))%Z. split; [|split].
    + unfold tdel_of. unfold Rdiv. ring.
    + rewrite <- Hmod. destruct (Z.of_nat nt <? 2 * ind)%Z.
      * replace (ind - Z.of_nat nt)%Z with (ind + (-1) * Z.of_nat nt)%Z by lia. apply Z.mod_add. lia.
      * now rewrite Z.sub_0_r.
    + intros Hwin. assert (0 <= ind)%Z.
      { apply in_map_iff in Hin. destruct Hin as [j [Ej Hj]]. specialize (Hwin j Hj). cbv zeta in Ej. subst ind.
        destruct (Z.ltb_spec j 0).
        - destruct (Z.leb_spec (Z.of_nat nt) (Z.of_nat nt + j)); [apply Z.mod_pos_bound; lia|lia].
        - destruct (Z.leb_spec (Z.of_nat nt) j); [apply Z.mod_pos_bound; lia|lia]. }
      specialize (HR ind Hin). destruct (Z.ltb_spec (Z.of_nat nt) (2 * ind)); lia.
  - intros t Ht. now rewrite SM.
  - rewrite Hv, CE.
    rewrite (trace_chi2_ext nt psd fs nt _ (trace_minus pulse (sb_model nt s bs (a (col nt ind)) d))).
    + rewrite trace_err by assumption. fold J T K. apply err_mod. rewrite col_mod by (now apply HR). exact Hmod.
    + intros t Ht. unfold trace_minus. now rewrite SM.
  - unfold st. rewrite chi2f_trace; [reflexivity|assumption|assumption|assumption|]. unfold lowbins. cbn [s_nt the_setup]. apply Nat.le_min_r.
  - intros d' b Hd'. destruct (wrap_has nt window d' ltac:(lia) Hd') as [i [Hi Hm]].
    rewrite trace_err by assumption. fold J T K. rewrite <- (err_mod pulse b i d' Hm).
    apply Rle_trans with (1 := Hmin i Hi). rewrite CE.
    rewrite <- (err_mod pulse b (Z.of_nat (col nt i)) i) by (apply col_mod; now apply HR).
    apply err_min; [exact HJ|]. intros k Hk. now apply nsmb_solves.
Qed.

Lemma nsmb_ok pulse window lf : bs <> [] -> window <> [] -> (forall j, In j window -> (- 2 * Z.of_nat nt <= j)%Z) ->
  exists out, of_nsmb st (of_nsmb_getiP pinv st) pulse fs window lf = Ok out /\ o_window out = wrap_window nt window.
Proof.
  intros Hb Hw HR. unfold of_nsmb. rewrite Reqb_false by lra. change (s_nt st) with nt. change (s_nb st) with (length bs).
  destruct (Nat.eqb_spec (length bs) 0) as [E|E]; [destruct bs; [contradiction|discriminate]|].
  match goal with |- context [window_min (mk nt ?g) ?w] => destruct (window_min_ok nt g w) as [m Em] end.
  - unfold wrap_window. destruct window; [contradiction|discriminate].
  - intros j Hj. apply (wrap_range nt window j); [lia|exact HR|exact Hj].
  - rewrite Em. cbn [bind]. eexists. split; reflexivity.
Qed.

(** ** The background-only fit *)
Definition bq (pulse : nat -> R) (i : nat) : R := ip nt J (tf (ns + i)%nat) (fftn nt pulse).
Definition bamp (pulse : nat -> R) : nat -> R := mv (length bs) (s_iB st) (fun i => fst (csum nt (qf st pulse (ns + i)))).

Lemma bamp_solves pulse i : (i < length bs)%nat ->
  mv (length bs) (gram nt J (fun k => tf (ns + k)%nat)) (bamp pulse) i = bq pulse i.
Proof.
  intros Hi. assert (PG : forall i j, (i < length bs)%nat -> (j < length bs)%nat -> s_B st i j = gram nt J (fun k => tf (ns + k)%nat) i j)
    by (intros; now apply B_gram).
  assert (Q : forall j, (j < length bs)%nat -> fst (csum nt (qf st pulse (ns + j))) = bq pulse j) by (intros; now apply bsum_ip).
  rewrite <- (Q i Hi). unfold bamp.
  apply (gram_solves nt J HJ (length bs) (fun k => tf (ns + k)%nat) _ (fftn nt pulse) (s_B st)); [exact PG| |exact Q|exact Hi].
  apply (Hpinv (length bs)). apply (psd_ext (length bs) (gram nt J (fun k => tf (ns + k)%nat))); [intros; symmetry; now apply PG|].
  apply gram_psd. exact HJ.
Qed.

Lemma mb_correct pulse lf con out : of_mb pinv st pulse lf (Some con) = Ok out -> length con = length bs ->
  exists a0 : nat -> R,
    (forall b, trace_chi2 nt nt (bin_noise nt psd fs) (trace_minus pulse (b_model bs a0)) <=
               trace_chi2 nt nt (bin_noise nt psd fs) (trace_minus pulse (b_model bs b))) /\
    (forall i, (i < length bs)%nat -> a0 i = 0 \/ ~ obeys (nth i con 0) (a0 i) -> b_amp out i = 0) /\
    b_chi2 out = trace_chi2 nt nt (bin_noise nt psd fs) (trace_minus pulse (b_model bs (b_amp out))) /\
    b_lf out = trace_chi2 nt (Nat.min lf nt) (bin_noise nt psd fs) (trace_minus pulse (b_model bs (b_amp out))) /\
    (forall b, (forall i, (i < length bs)%nat -> a0 i = 0 \/ ~ obeys (nth i con 0) (a0 i) -> b i = 0) ->
       b_chi2 out <= trace_chi2 nt nt (bin_noise nt psd fs) (trace_minus pulse (b_model bs b))).
Proof.
  intros H HL. unfold of_mb in H. change (s_nt st) with nt in H. change (s_nb st) with (length bs) in H.
  unfold con_of in H. rewrite HL, Nat.eqb_refl in H. cbn [bind] in H. fold (bamp pulse) in H.
  set (idx := indices (length bs) (fun i => negb (disallowed (bamp pulse i) (nth i con 0)))) in H.
  destruct (Nat.eqb_spec (length idx) 1) as [|NE]; [discriminate|].
  set (X := pinv (length idx) (fun i j => s_B st (nth i idx O) (nth j idx O))) in H.
  set (v := mv (length idx) X (fun i => fst (csum nt (qf st pulse (ns + nth i idx O))))) in H.
  set (amp := scatter idx v) in H.
  set (resid := fun t => pulse t - rsum (length bs) (fun i => s_tt st (ns + i)%nat t * amp i)) in H.
  assert (Ho : out = mkMb amp (chi2f st nt (fftn nt resid)) (chi2f st (lowbins st lf) (fftn nt resid))).
  { symmetry. exact (f_equal (fun r => match r with Ok x => x | Err _ => out end) H). }
  assert (RE : forall t, (t < nt)%nat -> resid t = trace_minus pulse (b_model bs amp) t).
  { intros t Ht. unfold resid, trace_minus, b_model. f_equal. apply rsum_ext. intros k Hk. simpl. ring. }
  assert (KI : forall i, (i < length bs)%nat -> (bamp pulse i = 0 \/ ~ obeys (nth i con 0) (bamp pulse i)) -> ~ In i idx).
  { intros i Hi HD Hin. apply indices_in in Hin. destruct Hin as [_ Hin]. apply negb_true_iff in Hin. unfold disallowed in Hin.
    apply orb_false_elim in Hin. destruct Hin as [Hin H3]. apply orb_false_elim in Hin. destruct Hin as [H1 H2].
    destruct HD as [HD|HD]; [rewrite Reqb_true in H3 by assumption; discriminate|].
    apply HD. split; intros C.
    - rewrite (Reqb_true _ 1) in H1 by assumption. destruct (Rltb_spec (bamp pulse i) 0); [discriminate|lra].
    - rewrite (Reqb_true _ (-1)) in H2 by assumption. destruct (Rltb_spec 0 (bamp pulse i)); [discriminate|lra]. }
  assert (KO : forall i, (i < length bs)%nat -> ~ In i idx -> bamp pulse i = 0 \/ ~ obeys (nth i con 0) (bamp pulse i)).
  { intros i Hi Hn. destruct (disallowed (bamp pulse i) (nth i con 0)) eqn:ED; [|elim Hn; apply indices_in; now rewrite ED].
    unfold disallowed in ED. apply orb_prop in ED. destruct ED as [ED|ED].
    - right. intros [O1 O2]. apply orb_prop in ED. destruct ED as [ED|ED]; apply andb_prop in ED; destruct ED as [E1 E2].
      + destruct (Reqb_spec (nth i con 0) 1); [|discriminate]. destruct (Rltb_spec (bamp pulse i) 0); [|discriminate]. specialize (O1 e). lra.
      + destruct (Reqb_spec (nth i con 0) (-1)); [|discriminate]. destruct (Rltb_spec 0 (bamp pulse i)); [|discriminate]. specialize (O2 e). lra.
    - left. destruct (Reqb_spec (bamp pulse i) 0); [assumption|discriminate]. }
  assert (PG : forall i j, (i < length idx)%nat -> (j < length idx)%nat ->
     s_B st (nth i idx O) (nth j idx O) = gram nt J (fun k => tf (ns + k)%nat) (nth i idx O) (nth j idx O)) by (intros; now apply B_gram).
  assert (Q : forall j, (j < length bs)%nat -> fst (csum nt (qf st pulse (ns + j))) = ip nt J (tf (ns + j)%nat) (fftn nt pulse)) by (intros; now apply bsum_ip).
  assert (PX : penrose (length idx) (fun i j => s_B st (nth i idx O) (nth j idx O)) X).
  { apply Hpinv. apply (psd_ext (length idx) (gram nt J (fun k => tf (ns + nth k idx O)%nat))); [|apply gram_psd; exact HJ].
    intros i j Hi Hj. symmetry. now apply PG. }
  destruct (subfit nt J (length bs) (fun k => tf (ns + k)%nat) (fftn nt pulse) _ X (fun j => fst (csum nt (qf st pulse (ns + j)))) idx HJ
      (indices_nodup _ _) (fun i Hi => proj1 (proj1 (indices_in _ _ i) Hi)) PG PX Q) as [S1 [S2 [S3 [S4 S5]]]].
  exists (bamp pulse). subst out. cbn [b_amp b_chi2 b_lf]. split; [|split; [|split; [|split]]].
  - intros b. rewrite !(trace_err_b nt s) by assumption. fold J tf. apply err_min; [exact HJ|]. intros i Hi. now apply bamp_solves.
  - intros i Hi HD. apply S2. now apply KI.
  - unfold st. rewrite chi2f_trace by (assumption || lia). now apply trace_chi2_ext.
  - unfold st. rewrite chi2f_trace by (try assumption; unfold lowbins; cbn [s_nt the_setup]; apply Nat.le_min_r).
    now apply trace_chi2_ext.
  - intros b Hb. unfold st. rewrite chi2f_trace by (assumption || lia). rewrite (trace_chi2_ext nt psd fs nt _ _ RE).
    rewrite !(trace_err_b nt s) by assumption. fold J tf. apply S5. intros i Hi Hn. apply Hb; [exact Hi|]. now apply KO.
Qed.

(** Exactly one amplitude left: an exception *)
Lemma mb_one pulse lf con : length con = length bs ->
  length (indices (length bs) (fun i => negb (disallowed (bamp pulse i) (nth i con 0)))) = 1%nat ->
  of_mb pinv st pulse lf (Some con) = Err ValueError.
Proof.
  intros HL H1. unfold of_mb. change (s_nt st) with nt. change (s_nb st) with (length bs). unfold con_of. rewrite HL, Nat.eqb_refl.
  cbn [bind]. fold (bamp pulse). rewrite H1. reflexivity.
Qed.
End Fits.
