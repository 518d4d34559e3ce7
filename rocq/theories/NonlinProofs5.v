(** * Automatic start values, unsupported pole numbers, the muon tail fit *)
From Coq Require Import Reals ZArith List Bool Lia Lra.
From Verif Require Import Base ListLemmas Dft UtilsModel UtilsSpec UtilsProofs3 WindowModel WindowProofs CutModel OFModel OFProofs2 OFProofs3
  NonlinModel NonlinSpec NonlinProofs1 NonlinProofs2 NonlinProofs3 NonlinProofs4.
From Coquelicot Require Import Complex.
Import ListNotations.
Local Open Scope R_scope.

Lemma length_zero_nil {A} (l : list A) : length l = 0%nat -> l = [].
Proof. destruct l; [reflexivity|intros X; discriminate X]. Qed.

Lemma nth_of_error (l : list R) i : nth i l 0 = match nth_error l i with Some v => v | None => 0 end.
Proof. revert i. induction l as [|x l IH]; intros [|i]; simpl; try reflexivity. apply IH. Qed.

(** Maximum within the first seven samples *)
Lemma guess_early fs npole pulse m : first_max pulse m -> (m < 7)%nat -> (14 <= length pulse)%nat ->
  nl_guess fs npole None pulse = Err ValueError \/ nl_guess fs npole None pulse = Ok None.
Proof.
  intros M Hm L. unfold nl_guess.
  destruct (Nat.eqb_spec (length pulse) 0) as [X|_]; [exfalso; lia|].
  rewrite (proj2 (np_argmax_spec pulse m) M). cbn [bind].
  replace (pyslice pulse (Z.of_nat m - 7) (Z.of_nat m + 7)) with (@nil R).
  2: { symmetry. apply length_zero_nil. rewrite length_pyslice. unfold slice_bound.
       destruct (Z.ltb_spec (Z.of_nat m - 7) 0), (Z.ltb_spec (Z.of_nat m + 7) 0); lia. }
  cbn [npmean]. destruct (npole =? 4)%Z; [right; reflexivity|]. destruct (npole =? 3)%Z; [right; reflexivity|].
  destruct (pyslice pulse (Z.of_nat m + 1) _); [left|right]; reflexivity.
Qed.

(** No sample to take the fall time from *)
Lemma guess_window fs npole template pulse m : npole <> 3%Z -> npole <> 4%Z ->
  first_max (match template with Some t => t | None => pulse end) m ->
  (int_trunc (300 / 10 ^ 6 * fs) <= 0)%Z \/ (length pulse <= m + 1)%nat -> 
  (- 1 <= int_trunc (300 / 10 ^ 6 * fs))%Z ->
  nl_guess fs npole template pulse = Err ValueError.
Proof.
  intros N3 N4 M H Hp. unfold nl_guess.
  destruct (Nat.eqb (length pulse) 0); [reflexivity|].
  rewrite (proj2 (np_argmax_spec _ m) M). cbn [bind].
  apply Z.eqb_neq in N3, N4. rewrite N3, N4. cbv zeta.
  set (e := int_trunc (300 / 10 ^ 6 * fs)) in *.
  replace (pyslice pulse (Z.of_nat m + 1) (Z.of_nat m + 1 + e)) with (@nil R).
  2: { symmetry. apply length_zero_nil. rewrite length_pyslice. unfold slice_bound.
       destruct (Z.ltb_spec (Z.of_nat m + 1) 0), (Z.ltb_spec (Z.of_nat m + 1 + e) 0); lia. }
  destruct (match npmean (pyslice _ _ _) with Some m0 => Some _ | None => None end); reflexivity.
Qed.

(** A good peak *)
Lemma guess_good fs npole pulse m : 0 < fs -> first_max pulse m -> (7 <= m)%nat ->
  0 < lsum (pyslice pulse (Z.of_nat m - 7) (Z.of_nat m + 7)) ->
  (npole <> 3%Z -> npole <> 4%Z -> (m + 1 < length pulse)%nat /\ 10000 / 3 <= fs) ->
  exists g, nl_guess fs npole None pulse = Ok (Some g) /\ length g = param_count npole /\
    (forall v, In v g -> 0 < v) /\
    (npole = 2%Z -> nth 1 g 0 = 20 / 10 ^ 6 /\ exists j : nat, nth 2 g 0 = INR (S j) / fs) /\
    (npole <> 2%Z -> npole <> 3%Z -> npole <> 4%Z -> exists j : nat, nth 1 g 0 = INR (S j) / fs).
Proof.
  intros Hf M H7 Sm W. destruct (M) as (Lm & _). unfold nl_guess.
  destruct (Nat.eqb_spec (length pulse) 0) as [X|_]; [exfalso; lia|].
  rewrite (proj2 (np_argmax_spec pulse m) M). cbn [bind]. cbv zeta.
  set (s := pyslice pulse (Z.of_nat m - 7) (Z.of_nat m + 7)) in *.
  assert (Ns : s <> []) by (intros E; rewrite E in Sm; simpl in Sm; lra).
  assert (Em : npmean s = Some (lmean s)) by (destruct s; [contradiction|reflexivity]).
  rewrite Em. set (a := lmean s * 1).
  assert (Pa : 0 < a).
  { unfold a. rewrite Rmult_1_r. unfold lmean. apply Rdiv_lt_0_compat; [exact Sm|]. apply lt_0_INR.
    destruct s; [contradiction|simpl; lia]. }
  assert (Pt : 0 < INR m / fs) by (apply Rdiv_lt_0_compat; [apply lt_0_INR; lia|exact Hf]).
  assert (P6 : 0 < 10 ^ 6) by (apply pow_lt; lra).
  assert (C : forall x, 0 < x -> 0 < x / 10 ^ 6) by (intros x Hx; now apply Rdiv_lt_0_compat).
  rewrite <- dof_count. unfold nl_dof.
  destruct (npole =? 4)%Z eqn:E4.
  { apply Z.eqb_eq in E4. eexists. split; [reflexivity|]. split; [reflexivity|]. split; [|split; intros; exfalso; lia].
    intros v Hv. simpl in Hv. decompose [or] Hv; subst; try assumption; try contradiction; try lra; apply C; lra. }
  destruct (npole =? 3)%Z eqn:E3.
  { apply Z.eqb_eq in E3. eexists. split; [reflexivity|]. split; [reflexivity|]. split; [|split; intros; exfalso; lia].
    intros v Hv. simpl in Hv. decompose [or] Hv; subst; try assumption; try contradiction; try lra; apply C; lra. }
  apply Z.eqb_neq in E4, E3. destruct (W E3 E4) as (Lp & Fs).
  set (e := int_trunc (300 / 10 ^ 6 * fs)).
  assert (He : (1 <= e)%Z).
  { unfold e. assert (K : 1 <= 300 / 10 ^ 6 * fs).
    { replace (300 / 10 ^ 6 * fs) with (fs * 3 / 10000) by (simpl; field). lra. }
    unfold int_trunc, Rltb. destruct (Rlt_dec (300 / 10 ^ 6 * fs) 0); [exfalso; lra|].
    assert (B := base_Int_part (300 / 10 ^ 6 * fs)). destruct B as (_ & B).
    apply le_IZR. assert (IZR (Int_part (300 / 10 ^ 6 * fs)) > 0) by lra.
    apply Rgt_lt, lt_IZR in H. apply IZR_le. lia. }
  set (w := pyslice pulse (Z.of_nat m + 1) (Z.of_nat m + 1 + e)).
  assert (Nw : map (fun v => Rabs (v - 37 / 100 * a)) w <> []).
  { intros X. apply (f_equal (@length R)) in X. rewrite map_length in X. unfold w in X. rewrite length_pyslice in X.
    unfold slice_bound in X. simpl length in X.
    destruct (Z.ltb_spec (Z.of_nat m + 1) 0), (Z.ltb_spec (Z.of_nat m + 1 + e) 0); lia. }
  destruct (argmin_ok _ Nw) as (j & Ej). rewrite Ej. cbn [bind].
  assert (T : (INR (j + m + 1) - INR m) / fs = INR (S j) / fs).
  { f_equal. rewrite S_INR, !plus_INR. simpl. ring. }
  assert (Ptau : 0 < INR (S j) / fs) by (apply Rdiv_lt_0_compat; [apply lt_0_INR; lia|exact Hf]).
  destruct (npole =? 2)%Z eqn:E2.
  - apply Z.eqb_eq in E2. eexists. split; [reflexivity|]. split; [reflexivity|]. split; [|split].
    + intros v Hv. simpl in Hv. decompose [or] Hv; subst; try assumption; try contradiction; try lra;
        try (apply C; lra); rewrite T; exact Ptau.
    + intros _. split; [reflexivity|]. exists j. simpl nth. exact T.
    + intros X. contradiction.
  - apply Z.eqb_neq in E2. eexists. split; [reflexivity|]. split; [reflexivity|]. split; [|split].
    + intros v Hv. simpl in Hv. decompose [or] Hv; subst; try assumption; try contradiction; try lra;
        rewrite T; exact Ptau.
    + intros X. contradiction.
    + intros _ _ _. exists j. exact T.
Qed.

(** The sample right after the peak is the closest one, at 50 kHz *)
Lemma guess_equal pulse m : first_max pulse m -> (7 <= m)%nat -> (m + 1 < length pulse)%nat ->
  let a := lmean (pyslice pulse (Z.of_nat m - 7) (Z.of_nat m + 7)) in
  (forall i, (m + 1 < i < m + 16)%nat -> (i < length pulse)%nat ->
     Rabs (nth (m + 1) pulse 0 - 37 / 100 * a) <= Rabs (nth i pulse 0 - 37 / 100 * a)) ->
  nl_guess 50000 2 None pulse = Ok (Some [a; 20 / 10 ^ 6; 20 / 10 ^ 6; INR m / 50000]).
Proof.
  intros M H7 Lp a Cl. unfold nl_guess.
  destruct (Nat.eqb_spec (length pulse) 0) as [X|_]; [exfalso; lia|].
  rewrite (proj2 (np_argmax_spec pulse m) M). cbn [bind]. cbv zeta.
  assert (Em : npmean (pyslice pulse (Z.of_nat m - 7) (Z.of_nat m + 7)) = Some a).
  { unfold a. destruct (pyslice pulse (Z.of_nat m - 7) (Z.of_nat m + 7)) eqn:E; [|reflexivity].
    exfalso. apply (f_equal (@length R)) in E. rewrite length_pyslice in E. unfold slice_bound in E. simpl length in E.
    destruct (Z.ltb_spec (Z.of_nat m - 7) 0), (Z.ltb_spec (Z.of_nat m + 7) 0); lia. }
  rewrite Em. rewrite Rmult_1_r. change (2 =? 4)%Z with false. change (2 =? 3)%Z with false. change (2 =? 2)%Z with true. cbv iota.
  replace (int_trunc (300 / 10 ^ 6 * 50000)) with 15%Z.
  2: { symmetry. replace (300 / 10 ^ 6 * 50000) with (IZR 15) by (simpl; field).
       apply int_trunc_Z. }
  set (w := pyslice pulse (Z.of_nat m + 1) (Z.of_nat m + 1 + 15)).
  assert (Lw : (0 < length w <= 15)%nat /\ (length w = Nat.min 15 (length pulse - (m + 1)))%nat).
  { unfold w. rewrite length_pyslice. unfold slice_bound.
    destruct (Z.ltb_spec (Z.of_nat m + 1) 0), (Z.ltb_spec (Z.of_nat m + 1 + 15) 0); lia. }
  assert (Nw : forall i, (i < length w)%nat -> nth i w 0 = nth (m + 1 + i) pulse 0).
  { intros i Hi. rewrite (nth_of_error w), (nth_of_error pulse). unfold w. rewrite nth_error_pyslice.
    unfold slice_bound. destruct (Z.ltb_spec (Z.of_nat m + 1) 0), (Z.ltb_spec (Z.of_nat m + 1 + 15) 0); try lia.
    destruct (Z.ltb_spec (Z.of_nat i) (Z.min (Z.of_nat m + 1 + 15) (Z.of_nat (length pulse)) - Z.min (Z.of_nat m + 1) (Z.of_nat (length pulse)))); [|exfalso; lia].
    replace (Z.to_nat (Z.min (Z.of_nat m + 1) (Z.of_nat (length pulse))) + i)%nat with (m + 1 + i)%nat by lia. reflexivity. }
  assert (Ej : argmin (map (fun v => Rabs (v - 37 / 100 * a)) w) = Ok 0%nat).
  { assert (Nn : map (fun v => Rabs (v - 37 / 100 * a)) w <> []).
    { intros X. apply (f_equal (@length R)) in X. rewrite map_length in X. simpl in X. lia. }
    destruct (argmin_ok _ Nn) as (j & E). rewrite E. f_equal.
    destruct (argmin_spec _ _ E) as (J1 & J2). rewrite map_length in J1, J2.
    destruct (Nat.eq_dec j 0) as [|Nj]; [assumption|exfalso].
    destruct (J2 0%nat ltac:(lia)) as (_ & J3). specialize (J3 ltac:(lia)).
    set (F := fun v => Rabs (v - 37 / 100 * a)) in *.
    rewrite (nth_indep _ 0 (F 0)), (nth_indep (map F w) 0 (F 0) (n := 0%nat)) in J3 by (rewrite map_length; lia).
    rewrite !map_nth, !Nw in J3 by lia. unfold F in J3. rewrite Nat.add_0_r in J3.
    specialize (Cl (m + 1 + j)%nat ltac:(lia) ltac:(lia)). lra. }
  rewrite Ej. cbn [bind]. do 3 f_equal. f_equal. f_equal.
  rewrite Nat.add_0_l, plus_INR. simpl. field.
Qed.
