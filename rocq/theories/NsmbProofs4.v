(** * The polarity-constrained fit *)
From Coq Require Import Reals ZArith List Lia Lra Bool.
From Verif Require Import Base ListLemmas Dft WindowModel WindowProofs OFFreeModel OFProofs8 NsmbModel NsmbSpec NsmbProofs1 NsmbProofs2 NsmbProofs3.
From Coquelicot Require Import Coquelicot.
Import ListNotations.
Local Open Scope R_scope.

Lemma bitcombs_length n : length (bitcombs n) = (2 ^ n)%nat.
Proof. induction n as [|n IH]; [reflexivity|]. cbn [bitcombs]. rewrite app_length, !map_length, IH. simpl. lia. Qed.
Lemma bitcombs_last n : nth (2 ^ n - 1) (bitcombs n) [] = repeat true n.
Proof.
  induction n as [|n IH]; [reflexivity|]. cbn [bitcombs repeat].
  assert (P : (0 < 2 ^ n)%nat) by (assert (2 ^ n <> 0)%nat by (apply Nat.pow_nonzero; lia); lia).
  rewrite app_nth2 by (rewrite map_length, bitcombs_length; simpl; lia). rewrite map_length, bitcombs_length.
  replace (2 ^ S n - 1 - 2 ^ n)%nat with (2 ^ n - 1)%nat by (simpl; lia).
  rewrite (nth_indep _ [] (cons true [])) by (rewrite map_length, bitcombs_length; lia). rewrite map_nth. now rewrite IH.
Qed.
Lemma bitmask_all st : s_bitcomb st = bitcombs (nsb st) ->
  exists m, bitmask st (2 ^ Z.of_nat (nsb st) - 1) = Ok m /\ indices (nsb st) m = seq 0 (nsb st) /\ (forall i, (i < nsb st)%nat -> m i = true).
Proof.
  intros HB. unfold bitmask. rewrite HB. set (n := nsb st).
  assert (P : (0 < 2 ^ n)%nat) by (assert (2 ^ n <> 0)%nat by (apply Nat.pow_nonzero; lia); lia).
  assert (EZ : (2 ^ Z.of_nat n - 1)%Z = Z.of_nat (2 ^ n - 1)) by (rewrite Nat2Z.inj_sub, Nat2Z.inj_pow by lia; reflexivity).
  rewrite EZ, (pyindex_in _ _ []) by (rewrite bitcombs_length; lia). cbn [bind]. rewrite Nat2Z.id, bitcombs_last.
  assert (M : forall i, (i < n)%nat -> nth i (repeat true n) false = true) by (intros i Hi; now apply nth_repeat_lt || (revert i Hi; generalize n; clear; intros n; induction n; intros [|i] Hi; simpl; try lia; auto; apply IHn; lia)).
  eexists. split; [reflexivity|]. split; [|exact M].
  unfold indices. assert (G : forall l, (forall i, In i l -> (i < n)%nat) -> filter (fun i => nth i (repeat true n) false) l = l).
  { induction l as [|x l IH]; intros H; [reflexivity|]. cbn [filter]. rewrite M by (apply H; now left). f_equal. apply IH. intros; apply H; now right. }
  apply G. intros i Hi. apply in_seq in Hi. lia.
Qed.

Lemma mask_eq_true k m1 m2 : mask_eq k m1 m2 = true <-> forall i, (i < k)%nat -> m1 i = m2 i.
Proof.
  unfold mask_eq. rewrite forallb_forall. split.
  - intros H i Hi. apply eqb_prop. apply H. apply in_seq. lia.
  - intros H i Hi. apply in_seq in Hi. rewrite H by lia. apply eqb_reflx.
Qed.
Lemma indices_ext k m1 m2 : (forall i, (i < k)%nat -> m1 i = m2 i) -> indices k m1 = indices k m2.
Proof.
  intros H. unfold indices. apply filter_ext_in. intros i Hi. apply in_seq in Hi. apply H. lia.
Qed.
(** The kept indices: the signal comes first. *)
Lemma indices_head k m i : (i < length (indices k m))%nat -> (0 < k)%nat ->
  (i <? (if m O then 1 else 0))%nat = (nth i (indices k m) O <? ns)%nat.
Proof.
  intros Hi Hk. unfold indices in *. destruct k as [|k]; [lia|]. cbn [seq filter] in *. destruct (m O) eqn:E.
  - destruct i as [|i]; [reflexivity|]. cbn [nth length] in *.
    assert (IN : In (nth i (filter m (seq 1 k)) O) (seq 1 k)) by (apply (proj1 (filter_In m _ _)), nth_In; lia).
    apply in_seq in IN. unfold ns. destruct (Nat.ltb_spec (nth i (filter m (seq 1 k)) O) 1); [lia|]. reflexivity.
  - assert (IN : In (nth i (filter m (seq 1 k)) O) (seq 1 k)) by (apply (proj1 (filter_In m _ _)), nth_In; lia).
    apply in_seq in IN. unfold ns. destruct (Nat.ltb_spec (nth i (filter m (seq 1 k)) O) 1); [lia|]. reflexivity.
Qed.

Lemma disallowed_spec a c : disallowed a c = true <-> a = 0 \/ (c = 1 /\ a < 0) \/ (c = -1 /\ 0 < a).
Proof.
  unfold disallowed. split.
  - intros H. apply orb_prop in H. destruct H as [H|H].
    + apply orb_prop in H. destruct H as [H|H]; apply andb_prop in H; destruct H as [H1 H2].
      * destruct (Rltb_spec a 0); [|discriminate]. destruct (Reqb_spec c 1); [|discriminate]. auto.
      * destruct (Rltb_spec 0 a); [|discriminate]. destruct (Reqb_spec c (-1)); [|discriminate]. auto.
    + destruct (Reqb_spec a 0); [auto|discriminate].
  - intros [H|[[H1 H2]|[H1 H2]]].
    + rewrite (Reqb_true a 0 H). now rewrite orb_true_r.
    + rewrite (Reqb_true c 1 H1). destruct (Rltb_spec a 0); [reflexivity|lra].
    + rewrite (Reqb_true c (-1) H1). destruct (Rltb_spec 0 a); [|lra]. cbn [andb]. now rewrite orb_true_r.
Qed.

Lemma filter_len_le {A} (p q : A -> bool) l : (length (filter (fun i => p i && q i) l) <= length (filter p l))%nat.
Proof. induction l as [|y l IH]; [auto|]. simpl. destruct (p y); simpl; [|exact IH]. destruct (q y); simpl; lia. Qed.
Lemma filter_len_eq {A} (p q : A -> bool) l : length (filter p l) = length (filter (fun i => p i && q i) l) ->
  filter p l = filter (fun i => p i && q i) l.
Proof.
  induction l as [|x l IH]; [reflexivity|]. simpl. assert (LE := filter_len_le p q l). destruct (p x); simpl; [|exact IH].
  destruct (q x); simpl; intros HH; [f_equal; apply IH; lia|lia].
Qed.

Lemma sequence_map_ok {A B} (f : A -> res B) l r x0 y0 : sequence (map f l) = Ok r -> length r = length l /\ forall i, (i < length l)%nat -> f (nth i l x0) = Ok (nth i r y0).
Proof.
  revert r. induction l as [|x l IH]; intros r H; simpl in H.
  - injection H as <-. split; [reflexivity|]. simpl. lia.
  - destruct (f x) as [y|] eqn:E; [|discriminate]. cbn [bind] in H. destruct (sequence (map f l)) as [r'|]; [|discriminate]. cbn [bind] in H.
    injection H as <-. destruct (IH r' eq_refl) as [L N]. split; [simpl; now rewrite L|]. intros [|i] Hi; [exact E|]. simpl. apply N. simpl in Hi. lia.
Qed.

Section Con.
Variables (pinv : nat -> (nat -> nat -> R) -> nat -> nat -> R) (nt : nat) (s : nat -> R) (bs : list (nat -> R)) (psd : nat -> R) (fs : R).
Hypothesis Hnt : (2 <= nt)%nat.
Hypothesis Hfs : 0 < fs.
Hypothesis Hpsd : forall f, (1 <= f < nt)%nat -> 0 < psd f.
Hypothesis Hpinv : pinv_ok pinv.
Let J := jnoise nt psd fs.
Let tf := stf nt s bs.
Let st := the_setup pinv nt s bs psd fs.
Let K := (1 + length bs)%nat.
Let T := tvec nt s bs.
Let HJ : forall f, (f < nt)%nat -> 0 < J f := J_pos nt bs psd fs Hnt Hfs Hpsd.

Lemma getPt_spec d mask idx Pt iPt : of_nsmb_getPt pinv st d mask = Ok (idx, Pt, iPt) ->
  idx = indices K mask /\ length idx <> 1%nat /\
  (forall i j, (i < length idx)%nat -> (j < length idx)%nat -> Pt i j = gram nt J (T (Z.of_nat d)) (nth i idx O) (nth j idx O)) /\
  penrose (length idx) Pt iPt.
Proof.
  unfold of_nsmb_getPt. change (nsb st) with K. set (id := indices K mask).
  destruct (Nat.eqb_spec (length id) 1) as [|NE]; [discriminate|]. intros H.
  set (n0 := if mask O then 1%nat else O) in H.
  set (P0 := fun i j : nat => if Bool.eqb (i <? n0)%nat (j <? n0)%nat then s_Pfs st (nth i id O) (nth j id O)
     else if (i <? n0)%nat then s_P st (nth i id O) (nth j id O) d else s_P st (nth j id O) (nth i id O) d) in H.
  assert (E : idx = id /\ Pt = P0 /\ iPt = pinv (length id) P0).
  { assert (E := f_equal (fun r => match r with Ok x => x | Err _ => (id, P0, P0) end) H). cbn beta iota in E. now injection E as <- <- <-. }
  destruct E as [-> [-> ->]]. split; [reflexivity|]. split; [exact NE|].
  assert (PG : forall i j, (i < length id)%nat -> (j < length id)%nat -> P0 i j = gram nt J (T (Z.of_nat d)) (nth i id O) (nth j id O)).
  { intros i j Hi Hj. unfold P0, n0. rewrite !(indices_head K mask) by (assumption || (unfold K; lia)). fold id.
    destruct (Bool.eqb _ _) eqn:EB.
    - apply eqb_prop in EB. unfold gram, T, J. rewrite (ip_tvec_same nt s bs) by (assumption || exact EB). unfold st. cbn [s_Pfs the_setup].
      apply Pfs_ip; assumption.
    - destruct (nth i id O <? ns)%nat; [unfold st; rewrite P_gram by assumption; reflexivity|].
      unfold st. rewrite P_gram by assumption. fold T J. apply gram_sym. }
  split; [exact PG|]. apply Hpinv. apply (psd_ext (length id) (gram nt J (fun i => T (Z.of_nat d) (nth i id O)))); [|apply gram_psd; exact HJ].
  intros i j Hi Hj. symmetry. now apply PG.
Qed.

(** What a refit gives *)
Definition fitted (d : nat) (D : nat -> C) (keep : nat -> Prop) (a : nat -> R) (v : R) : Prop :=
  (forall i, (i < K)%nat -> keep i -> mv K (gram nt J (T (Z.of_nat d))) a i = nq nt J (T (Z.of_nat d)) D i) /\
  (forall i, (i < K)%nat -> ~ keep i -> a i = 0) /\
  err nt J K (T (Z.of_nat d)) D a = ip nt J D D - v /\
  (forall b, (forall i, (i < K)%nat -> ~ keep i -> b i = 0) -> err nt J K (T (Z.of_nat d)) D a <= err nt J K (T (Z.of_nat d)) D b).

Lemma refit_spec pulse d mask r : refit pinv st d (qt st pulse d) mask = Ok r ->
  fitted d (fftn nt pulse) (fun i => mask i = true) (fst r) (snd r).
Proof.
  unfold refit. destruct (of_nsmb_getPt pinv st d mask) as [[[idx Pt] iPt]|] eqn:E; [|discriminate]. cbn [bind].
  destruct (getPt_spec _ _ _ _ _ E) as [EI [_ [PG PX]]]. intros H.
  assert (Hr : r = (scatter idx (mv (length idx) iPt (fun i => qt st pulse d (nth i idx O))),
     vdot (length idx) (mv (length idx) iPt (fun i => qt st pulse d (nth i idx O))) (fun i => qt st pulse d (nth i idx O)))).
  { symmetry. exact (f_equal (fun r0 => match r0 with Ok x => x | Err _ => r end) H). }
  assert (Q : forall j, (j < K)%nat -> qt st pulse d j = ip nt J (T (Z.of_nat d) j) (fftn nt pulse)) by (intros; now apply qt_ip).
  destruct (subfit nt J K (T (Z.of_nat d)) (fftn nt pulse) Pt iPt (qt st pulse d) idx HJ) as [S1 [S2 [S3 [S4 S5]]]]; try assumption.
  - rewrite EI. apply indices_nodup.
  - intros i Hi. rewrite EI in Hi. now apply indices_in in Hi.
  - rewrite Hr. cbn [fst snd]. assert (KI : forall i, (i < K)%nat -> In i idx <-> mask i = true) by (intros i Hi; rewrite EI, indices_in; tauto).
    split; [|split; [|split]].
    + intros i Hi Hm. rewrite S1 by (now apply KI). now apply Q.
    + intros i Hi Hm. apply S2. now rewrite KI.
    + rewrite S4, <- S3. reflexivity.
    + intros b Hb. apply S5. intros i Hi Hn. apply Hb; [exact Hi|]. now rewrite <- KI.
Qed.
Lemma fitted_ext d D keep keep' a v : (forall i, (i < K)%nat -> keep i <-> keep' i) -> fitted d D keep a v -> fitted d D keep' a v.
Proof.
  intros H [F1 [F2 [F3 F4]]]. split; [|split; [|split]].
  - intros i Hi Hk. apply F1; [exact Hi|]. now apply H.
  - intros i Hi Hk. apply F2; [exact Hi|]. now rewrite H.
  - exact F3.
  - intros b Hb. apply F4. intros i Hi Hk. apply Hb; [exact Hi|]. now rewrite <- H.
Qed.

Lemma all_spec d : match bitmask st (2 ^ Z.of_nat K - 1) with
  | Ok all => forall idx Pt iPt, of_nsmb_getPt pinv st d all = Ok (idx, Pt, iPt) ->
      length idx = K /\ (forall i j, (i < K)%nat -> (j < K)%nat -> Pt i j = gram nt J (T (Z.of_nat d)) i j) /\
      (forall pulse i, (i < K)%nat -> mv K Pt (mv K iPt (qt st pulse d)) i = nq nt J (T (Z.of_nat d)) (fftn nt pulse) i)
  | Err _ => False end.
Proof.
  change K with (nsb st). destruct (bitmask_all st eq_refl) as [m [E [EI EM]]]. rewrite E. intros idx Pt iPt H.
  destruct (getPt_spec _ _ _ _ _ H) as [EX [_ [PG PX]]]. change (nsb st) with K in *. rewrite EI in EX.
  assert (EL : length idx = K) by (rewrite EX; apply seq_length). split; [exact EL|].
  assert (PG' : forall i j, (i < K)%nat -> (j < K)%nat -> Pt i j = gram nt J (T (Z.of_nat d)) i j).
  { intros i j Hi Hj. rewrite PG by (now rewrite EL). rewrite EX, !seq_nth by assumption. reflexivity. }
  split; [exact PG'|]. intros pulse i Hi. rewrite EL in PX.
  assert (Q : forall j, (j < K)%nat -> qt st pulse d j = ip nt J (T (Z.of_nat d) j) (fftn nt pulse)) by (intros; now apply qt_ip).
  assert (S := gram_solves nt J HJ K (T (Z.of_nat d)) iPt (fftn nt pulse) Pt PG' PX (qt st pulse d) Q i Hi).
  unfold nq. rewrite <- (Q i Hi), <- S. apply mv_ext; [|reflexivity]. intros j Hj. now apply PG'.
Qed.

(** One bin: the amplitudes are the best ones on their support, the chi2 belongs to them. *)
Lemma con_bin_spec pulse con d r : con_bin pinv st (qt st pulse) (chi2f st nt (fftn nt pulse)) con d = Ok r ->
  exists keep, fitted d (fftn nt pulse) keep (fst r) (ip nt J (fftn nt pulse) (fftn nt pulse) - snd r) /\
    ((forall i, (i < K)%nat -> con i <> 1 /\ con i <> -1) ->
       forall b, err nt J K (T (Z.of_nat d)) (fftn nt pulse) (fst r) <= err nt J K (T (Z.of_nat d)) (fftn nt pulse) b).
Proof.
  unfold con_bin. change (nsb st) with K. assert (A := all_spec d).
  destruct (bitmask st _) as [all|]; [|contradiction]. cbn [bind].
  destruct (of_nsmb_getPt pinv st d all) as [[[idx Pt] iPt]|] eqn:E; [|discriminate]. cbn [bind].
  destruct (A idx Pt iPt eq_refl) as [EL [PG SA]]. specialize (SA pulse). clear A.
  set (a := mv K iPt (qt st pulse d)) in *. set (m1 := float_mask K Pt a a con).
  destruct (refit pinv st d (qt st pulse d) m1) as [f1|] eqn:E1; [|discriminate]. cbn [bind].
  set (m2 := float_mask K Pt a (fst f1) con).
  destruct (if mask_eq K m1 m2 then Ok f1 else refit pinv st d (qt st pulse d) m2) as [f2|] eqn:E2; [|discriminate]. cbn [bind].
  set (m3 := fun i => negb (disallowed (fst f2 i) (con i))).
  destruct (if mask_eq K m2 m3 then Ok f2 else refit pinv st d (qt st pulse d) m3) as [f3|] eqn:E3; [|discriminate]. cbn [bind].
  intros H. assert (Hr : r = (fst f3, chi2f st nt (fftn nt pulse) - snd f3)).
  { symmetry. exact (f_equal (fun r0 => match r0 with Ok x => x | Err _ => r end) H). }
  rewrite Hr. cbn [fst snd]. clear H Hr r.
  assert (CB : chi2f st nt (fftn nt pulse) = ip nt J (fftn nt pulse) (fftn nt pulse)).
  { unfold st. rewrite chi2f_sum by (assumption || lia). symmetry. apply ip_self. }
  rewrite CB. replace (ip nt J (fftn nt pulse) (fftn nt pulse) - (ip nt J (fftn nt pulse) (fftn nt pulse) - snd f3)) with (snd f3) by ring.
  assert (F1 : fitted d (fftn nt pulse) (fun i => m1 i = true) (fst f1) (snd f1)) by (now apply refit_spec).
  assert (F2 : fitted d (fftn nt pulse) (fun i => m2 i = true) (fst f2) (snd f2)).
  { destruct (mask_eq K m1 m2) eqn:EM.
    - rewrite <- (f_equal (fun r0 => match r0 with Ok x => x | Err _ => f2 end) E2). apply (fitted_ext d _ (fun i => m1 i = true)); [|exact F1].
      intros i Hi. rewrite (proj1 (mask_eq_true K m1 m2) EM i Hi). reflexivity.
    - now apply refit_spec. }
  assert (F3 : fitted d (fftn nt pulse) (fun i => m3 i = true) (fst f3) (snd f3)).
  { destruct (mask_eq K m2 m3) eqn:EM.
    - rewrite <- (f_equal (fun r0 => match r0 with Ok x => x | Err _ => f3 end) E3). apply (fitted_ext d _ (fun i => m2 i = true)); [|exact F2].
      intros i Hi. rewrite (proj1 (mask_eq_true K m2 m3) EM i Hi). reflexivity.
    - now apply refit_spec. }
  exists (fun i => m3 i = true). split; [exact F3|].
  intros NC.
  assert (DZ : forall x i, (i < K)%nat -> disallowed x (con i) = true -> x = 0).
  { intros x i Hi HD. apply disallowed_spec in HD. destruct (NC i Hi) as [N1 N2]. destruct HD as [HD|[[HD _]|[HD _]]]; [exact HD|contradiction|contradiction]. }
  assert (A0 : forall b, err nt J K (T (Z.of_nat d)) (fftn nt pulse) a <= err nt J K (T (Z.of_nat d)) (fftn nt pulse) b).
  { apply err_min; [exact HJ|]. intros i Hi. rewrite <- (SA i Hi). apply mv_ext; [|reflexivity]. intros j Hj. symmetry. now apply PG. }
  assert (step : forall cur m f, (forall i, (i < K)%nat -> m i = false -> cur i = 0) ->
     (forall b, err nt J K (T (Z.of_nat d)) (fftn nt pulse) cur <= err nt J K (T (Z.of_nat d)) (fftn nt pulse) b) ->
     fitted d (fftn nt pulse) (fun i => m i = true) (fst f) (snd f) ->
     forall b, err nt J K (T (Z.of_nat d)) (fftn nt pulse) (fst f) <= err nt J K (T (Z.of_nat d)) (fftn nt pulse) b).
  { intros cur m f Hz Hopt [_ [_ [_ HF]]] b. apply Rle_trans with (2 := Hopt b). apply HF.
    intros i Hi Hm. apply Hz; [exact Hi|]. now apply not_true_is_false. }
  assert (B1 := step a m1 f1 ltac:(intros i Hi Hm; apply negb_false_iff in Hm; apply andb_prop in Hm; apply (DZ _ i Hi), Hm) A0 F1).
  assert (B2 := step (fst f1) m2 f2 ltac:(intros i Hi Hm; apply negb_false_iff in Hm; apply andb_prop in Hm; apply (DZ _ i Hi), Hm) B1 F2).
  exact (step (fst f2) m3 f3 ltac:(intros i Hi Hm; apply negb_false_iff in Hm; apply (DZ _ i Hi), Hm) B2 F3).
Qed.

(** Strictly allowed unconstrained optimum: kept *)
Lemma con_bin_allowed pulse con d r : con_bin pinv st (qt st pulse) (chi2f st nt (fftn nt pulse)) con d = Ok r ->
  (forall a, (forall b, err nt J K (T (Z.of_nat d)) (fftn nt pulse) a <= err nt J K (T (Z.of_nat d)) (fftn nt pulse) b) ->
     forall i, (i < K)%nat -> a i <> 0 /\ obeys (con i) (a i)) ->
  forall b, err nt J K (T (Z.of_nat d)) (fftn nt pulse) (fst r) <= err nt J K (T (Z.of_nat d)) (fftn nt pulse) b.
Proof.
  unfold con_bin. change (nsb st) with K. assert (A := all_spec d).
  destruct (bitmask st _) as [all|]; [|contradiction]. cbn [bind].
  destruct (of_nsmb_getPt pinv st d all) as [[[idx Pt] iPt]|] eqn:E; [|discriminate]. cbn [bind].
  destruct (A idx Pt iPt eq_refl) as [EL [PG SA]]. specialize (SA pulse). clear A.
  set (a := mv K iPt (qt st pulse d)) in *. set (m1 := float_mask K Pt a a con).
  destruct (refit pinv st d (qt st pulse d) m1) as [f1|] eqn:E1; [|discriminate]. cbn [bind].
  set (m2 := float_mask K Pt a (fst f1) con).
  destruct (if mask_eq K m1 m2 then Ok f1 else refit pinv st d (qt st pulse d) m2) as [f2|] eqn:E2; [|discriminate]. cbn [bind].
  set (m3 := fun i => negb (disallowed (fst f2 i) (con i))).
  destruct (if mask_eq K m2 m3 then Ok f2 else refit pinv st d (qt st pulse d) m3) as [f3|] eqn:E3; [|discriminate]. cbn [bind].
  intros H NC. assert (Hr : r = (fst f3, chi2f st nt (fftn nt pulse) - snd f3)).
  { symmetry. exact (f_equal (fun r0 => match r0 with Ok x => x | Err _ => r end) H). }
  rewrite Hr. cbn [fst snd]. clear H Hr r.
  assert (F1 : fitted d (fftn nt pulse) (fun i => m1 i = true) (fst f1) (snd f1)) by (now apply refit_spec).
  assert (A0 : forall b, err nt J K (T (Z.of_nat d)) (fftn nt pulse) a <= err nt J K (T (Z.of_nat d)) (fftn nt pulse) b).
  { apply err_min; [exact HJ|]. intros i Hi. rewrite <- (SA i Hi). apply mv_ext; [|reflexivity]. intros j Hj. symmetry. now apply PG. }
  assert (ND : forall x, (forall b, err nt J K (T (Z.of_nat d)) (fftn nt pulse) x <= err nt J K (T (Z.of_nat d)) (fftn nt pulse) b) ->
     forall i, (i < K)%nat -> disallowed (x i) (con i) = false).
  { intros x Hx i Hi. destruct (disallowed (x i) (con i)) eqn:ED; [|reflexivity]. apply disallowed_spec in ED.
    destruct (NC x Hx i Hi) as [N0 [N1 N2]]. destruct ED as [ED|[[C1 ED]|[C1 ED]]]; [contradiction|specialize (N1 C1); lra|specialize (N2 C1); lra]. }
  assert (M1 : forall i, (i < K)%nat -> m1 i = true) by (intros i Hi; unfold m1, float_mask; now rewrite (ND a A0 i Hi)).
  assert (step : forall m f, (forall i, (i < K)%nat -> m i = true) -> fitted d (fftn nt pulse) (fun i => m i = true) (fst f) (snd f) ->
     forall b, err nt J K (T (Z.of_nat d)) (fftn nt pulse) (fst f) <= err nt J K (T (Z.of_nat d)) (fftn nt pulse) b).
  { intros m f Hm [_ [_ [_ HF]]] b. apply HF. intros i Hi Hn. elim Hn. now apply Hm. }
  assert (B1 := step m1 f1 M1 F1).
  assert (M2 : forall i, (i < K)%nat -> m2 i = true) by (intros i Hi; unfold m2, float_mask; now rewrite (ND _ B1 i Hi)).
  rewrite (proj2 (mask_eq_true K m1 m2)) in E2 by (intros i Hi; now rewrite M1, M2).
  assert (EQ2 : f2 = f1) by (symmetry; exact (f_equal (fun r0 => match r0 with Ok x => x | Err _ => f2 end) E2)).
  assert (M3 : forall i, (i < K)%nat -> m3 i = true) by (intros i Hi; unfold m3; rewrite EQ2; now rewrite (ND _ B1 i Hi)).
  rewrite (proj2 (mask_eq_true K m2 m3)) in E3 by (intros i Hi; now rewrite M2, M3).
  assert (EQ3 : f3 = f2) by (symmetry; exact (f_equal (fun r0 => match r0 with Ok x => x | Err _ => f3 end) E3)).
  now rewrite EQ3, EQ2.
Qed.

Lemma err_mod' pulse a d d' : (d mod Z.of_nat nt = d' mod Z.of_nat nt)%Z ->
  err nt J K (T d) (fftn nt pulse) a = err nt J K (T d') (fftn nt pulse) a.
Proof. intros H. now apply err_mod. Qed.
Lemma model_col a ind t : (- Z.of_nat nt <= ind < Z.of_nat nt)%Z ->
  sb_model nt s bs a (Z.of_nat (col nt ind)) t = sb_model nt s bs a ind t.
Proof. intros H. unfold sb_model. do 4 f_equal. rewrite Zminus_mod, col_mod, <- Zminus_mod by assumption. reflexivity. Qed.

Definition con_list (sig : sigcon) (bkgcon : option (list R)) : list R :=
  (match sig with SigNone => 0 :: nil | SigInt _ => [] | SigArr l => l end) ++ (match bkgcon with Some c => c | None => repeat 0 (length bs) end).

(** The result of the constrained fit *)
Lemma con_correct polyfit pulse windows lf bkgcon sig out :
  of_nsmb_con pinv polyfit st pulse fs windows lf bkgcon sig = Ok out ->
  length (con_list sig bkgcon) = K ->
  let con := fun i => nth i (con_list sig bkgcon) 0 in
  exists w d, nth_error windows 0 = Some w /\ In d w /\ (forall j, In j w -> (- Z.of_nat nt <= j < Z.of_nat nt)%Z) /\
    (exists e, c_tdel out = IZR e / fs /\ (e mod Z.of_nat nt = d mod Z.of_nat nt)%Z) /\
    (forall t, (t < nt)%nat -> c_resid out t = pulse t - sb_model nt s bs (c_amp out) d t) /\
    c_chi2 out = trace_chi2 nt nt (bin_noise nt psd fs) (c_resid out) /\
    c_lf out = trace_chi2 nt (Nat.min lf nt) (bin_noise nt psd fs) (c_resid out) /\
    (forall b, (forall i, (i < K)%nat -> c_amp out i = 0 -> b i = 0) ->
       c_chi2 out <= trace_chi2 nt nt (bin_noise nt psd fs) (trace_minus pulse (sb_model nt s bs b d))) /\
    (c_warning out = false -> (forall i, (i < K)%nat -> obeys (con i) (c_amp out i)) ->
       forall b, (forall i, (i < K)%nat -> obeys (con i) (b i)) ->
       c_chi2 out <= trace_chi2 nt nt (bin_noise nt psd fs) (trace_minus pulse (sb_model nt s bs b d))) /\
    ((forall i, (i < K)%nat -> con i <> 1 /\ con i <> -1) \/
     (forall d' a, In d' w ->
        (forall b, trace_chi2 nt nt (bin_noise nt psd fs) (trace_minus pulse (sb_model nt s bs a d')) <=
                   trace_chi2 nt nt (bin_noise nt psd fs) (trace_minus pulse (sb_model nt s bs b d'))) ->
        forall i, (i < K)%nat -> a i <> 0 /\ obeys (con i) (a i)) ->
     forall d' b, In d' w -> c_chi2 out <= trace_chi2 nt nt (bin_noise nt psd fs) (trace_minus pulse (sb_model nt s bs b d'))).
Proof.
  intros H HL con. unfold of_nsmb_con in H. rewrite Reqb_false in H by lra. change (s_nt st) with nt in H. change (nsb st) with K in H.
  change (s_nb st) with (length bs) in H.
  destruct (match sig with SigNone => Ok (repeat 0 ns) | SigInt _ => Err ValueError | SigArr l => Ok l end) as [sc|] eqn:ES; [|discriminate].
  cbn [bind] in H.
  assert (EC : sc ++ match bkgcon with Some c => c | None => repeat 0 (length bs) end = con_list sig bkgcon).
  { unfold con_list. f_equal. destruct sig; [|discriminate|]; injection ES as <-; reflexivity. }
  rewrite EC in H. unfold con_of in H. rewrite HL, Nat.eqb_refl in H. cbn [bind] in H. fold con in H.
  destruct (sequence _) as [bins|] eqn:EB; [|discriminate]. cbn [bind] in H.
  destruct (sequence_map_ok _ _ _ O (fun _ => 0, 0) EB) as [BL BN]. rewrite seq_length in BL, BN.
  assert (BN' : forall d, (d < nt)%nat -> con_bin pinv st (qt st pulse) (chi2f st nt (fftn nt pulse)) con d = Ok (nth d bins (fun _ => 0, 0))).
  { intros d Hd. rewrite <- (BN d Hd), seq_nth by assumption. reflexivity. }
  destruct (pyindex windows 0) as [w|] eqn:EW; [|discriminate]. cbn [bind] in H.
  destruct (window_min _ w) as [[v ind]|] eqn:EM; [|discriminate]. cbn [bind snd] in H.
  destruct (interpchi2 _ _ _ _ _) as [z|] eqn:EZ; [|discriminate]. cbn [bind] in H.
  destruct (sequence (map (cwindow _ _ _ _ _) _)) as [cw|] eqn:ECW; [|discriminate]. cbn [bind] in H.
  assert (A := all_spec (col nt ind)).
  destruct (bitmask st _) as [all|]; [|contradiction]. cbn [bind] in H.
  destruct (of_nsmb_getPt pinv st (col nt ind) all) as [[[idx Pt] iPt]|] eqn:EP; [|discriminate]. cbn [bind] in H.
  destruct (A idx Pt iPt eq_refl) as [EL [PG SA]]. specialize (SA pulse). clear A.
  destruct (window_min_spec _ _ _ _ _ EM) as [Hin [HR [Hv Hmin]]].
  set (d0 := col nt ind) in *. set (amin := fst (nth d0 bins (fun _ => 0, 0))) in *.
  match type of H with Ok ?x = _ => assert (Ho : out = x) by (symmetry; exact (f_equal (fun r => match r with Ok y => y | Err _ => out end) H)) end.
  clear H.
  assert (Hd0 : (d0 < nt)%nat) by (apply col_lt; now apply HR).
  set (resid := fun t => pulse t - fit_trace st fs amin (tdel_of nt fs ind) t) in *.
  assert (SM : forall t, (t < nt)%nat -> fit_trace st fs amin (tdel_of nt fs ind) t = sb_model nt s bs amin ind t) by (intros t Ht; now apply fit_trace_model).
  assert (TE : forall b d', (- Z.of_nat nt <= d' < Z.of_nat nt)%Z -> trace_chi2 nt nt (bin_noise nt psd fs) (trace_minus pulse (sb_model nt s bs b d'))
     = err nt J K (T (Z.of_nat (col nt d'))) (fftn nt pulse) b).
  { intros b d' Hd'. rewrite trace_err by assumption. fold J T K. apply err_mod'. symmetry. now apply col_mod. }
  assert (RE : trace_chi2 nt nt (bin_noise nt psd fs) resid = err nt J K (T (Z.of_nat d0)) (fftn nt pulse) amin).
  { unfold d0 at 1; rewrite <- (TE amin ind) by (now apply HR). apply trace_chi2_ext. intros t Ht. unfold resid, trace_minus. now rewrite SM. }
  assert (CC : chi2f st nt (fftn nt resid) = trace_chi2 nt nt (bin_noise nt psd fs) resid) by (unfold st; apply chi2f_trace; assumption || lia).
  destruct (con_bin_spec _ _ _ _ (BN' d0 Hd0)) as [keep [[F1 [F2 [F3 F4]]] _]]. fold amin in F1, F2, F3, F4.
  exists w, ind. rewrite Ho. cbn [c_amp c_tdel c_chi2 c_lf c_resid c_warning]. rewrite CC.
  split; [|split; [exact Hin|split; [exact HR|]]].
  { unfold pyindex in EW. simpl in EW. destruct windows; [discriminate|]. simpl in *. now injection EW as <-. }
  split; [|split; [|split; [reflexivity|split; [|split; [|split]]]]].
  - exists (ind - (if (Z.of_nat nt <? 2 * ind)%Z then Z.of_nat nt else 0))%Z. split; [unfold tdel_of, Rdiv; ring|].
    destruct (Z.of_nat nt <? 2 * ind)%Z; [|now rewrite Z.sub_0_r].
    replace (ind - Z.of_nat nt)%Z with (ind + (-1) * Z.of_nat nt)%Z by lia. apply Z.mod_add. lia.
  - intros t Ht. unfold resid. now rewrite SM.
  - unfold st. apply chi2f_trace; try assumption. unfold lowbins. cbn [s_nt the_setup]. apply Nat.le_min_r.
  - intros b Hb. rewrite RE, TE by (now apply HR). apply F4. intros i Hi Hk. apply Hb; [exact Hi|]. now apply F2.
  - intros HW Hobey b Hb. rewrite RE, TE by (now apply HR). fold d0.
    assert (EI : indices K (fun i => disallowed (amin i) (con i)) = indices K (fun i => disallowed (amin i) (con i) && disallowed (neggrad K Pt amin (mv K iPt (qt st pulse d0)) i) (con i))).
    { apply negb_false_iff, Nat.eqb_eq in HW. now apply filter_len_eq. }
    assert (GR : forall i, (i < K)%nat -> neggrad K Pt amin (mv K iPt (qt st pulse d0)) i =
       nq nt J (T (Z.of_nat d0)) (fftn nt pulse) i - mv K (gram nt J (T (Z.of_nat d0))) amin i).
    { intros i Hi. unfold neggrad. rewrite mv_sub, SA by assumption.
      rewrite (mv_ext K Pt (gram nt J (T (Z.of_nat d0))) amin amin i); [ring|intros j Hj; now apply PG|reflexivity]. }
    assert (ZD : forall i, (i < K)%nat -> amin i = 0 -> disallowed (neggrad K Pt amin (mv K iPt (qt st pulse d0)) i) (con i) = true).
    { intros i Hi Hz. assert (IN : In i (indices K (fun i => disallowed (amin i) (con i)))).
      { apply indices_in. split; [exact Hi|]. apply disallowed_spec. now left. }
      rewrite EI in IN. apply indices_in in IN. destruct IN as [_ IN]. now apply andb_prop in IN. }
    assert (NZ : forall i, (i < K)%nat -> amin i <> 0 -> nq nt J (T (Z.of_nat d0)) (fftn nt pulse) i - mv K (gram nt J (T (Z.of_nat d0))) amin i = 0).
    { intros i Hi Hz. destruct (Req_dec (mv K (gram nt J (T (Z.of_nat d0))) amin i) (nq nt J (T (Z.of_nat d0)) (fftn nt pulse) i)) as [EQ|NE]; [lra|].
      elim Hz. apply F2; [exact Hi|]. intros Hk. apply NE. now apply F1. }
    apply (err_kkt nt J HJ K (T (Z.of_nat d0)) (fftn nt pulse) amin con).
    + intros i Hi. destruct (Req_dec (amin i) 0) as [Z|Z]; [rewrite Z; ring|]. rewrite (NZ i Hi Z). ring.
    + intros i Hi Hg. destruct (Req_dec (amin i) 0) as [Z|Z]; [|elim Hg; now apply NZ].
      assert (D := ZD i Hi Z). rewrite GR in D by assumption. apply disallowed_spec in D. destruct D as [D|[D|D]]; [contradiction|now left|now right].
    + exact Hb.
  - intros HC d' b Hd'. rewrite RE, TE by (now apply HR).
    assert (Hc' : (col nt d' < nt)%nat) by (apply col_lt; now apply HR).
    assert (V : err nt J K (T (Z.of_nat d0)) (fftn nt pulse) amin <= snd (nth (col nt d') bins (fun _ => 0, 0))).
    { rewrite F3. specialize (Hmin d' Hd'). rewrite Hv in Hmin. fold d0 in Hmin. lra. }
    apply Rle_trans with (1 := V).
    destruct (con_bin_spec _ _ _ _ (BN' _ Hc')) as [keep' [[_ [_ [F3' _]]] FU]].
    assert (ES' : snd (nth (col nt d') bins (fun _ => 0, 0)) = err nt J K (T (Z.of_nat (col nt d'))) (fftn nt pulse) (fst (nth (col nt d') bins (fun _ => 0, 0)))) by lra.
    rewrite ES'. destruct HC as [HC|HC]; [now apply FU|].
    apply (con_bin_allowed pulse con (col nt d') _ (BN' _ Hc')). intros a Ha i Hi. apply (HC d' a Hd'); [|exact Hi].
    intros b'. rewrite !TE by (now apply HR). apply Ha.
Qed.
End Con.
