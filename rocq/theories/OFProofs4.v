(** * Optimum filters: baseline fit *)
From Verif Require Import Base ListLemmas UtilsModel Dft WindowModel WindowSpec WindowProofs
  OFModel OFSpec OFProofs1 OFProofs2 OFProofs3.
Local Open Scope R_scope.

Definition one : nat -> R := fun _ => 1.

Lemma F_one n k : (k < n)%nat -> F n one k = if (k =? 0)%nat then RtoC (INR n) else RtoC 0.
Proof.
  intros Hk. unfold F, dft.
  rewrite (csum_ext n _ (fun j => tw n (Z.of_nat j * (- Z.of_nat k)))).
  - rewrite tw_orth by lia. destruct (Nat.eqb_spec k 0) as [->|H].
    + reflexivity.
    + destruct (Z.eqb_spec ((- Z.of_nat k) mod Z.of_nat n) 0) as [E|E]; [|reflexivity].
      apply Z.mod_divide in E; [|lia]. destruct E as [q Eq].
      assert (q = 0 \/ q <= -1 \/ q >= 1)%Z by lia. nia.
  - intros j _. unfold one. replace (- (Z.of_nat j * Z.of_nat k))%Z with (Z.of_nat j * - Z.of_nat k)%Z by lia.
    ring.
Qed.

Lemma wip_one n fs0 p x : (0 < n)%nat -> fs0 <> 0 -> p 0%nat <> 0 ->
  wip n (bin_weight n fs0 p false) x one = rsum n x / (p 0%nat * fs0).
Proof.
  intros Hn Hf Hp. unfold wip.
  rewrite (rsum_single n _ 0%nat).
  - rewrite F_one by lia. simpl Nat.eqb. cbv iota. rewrite F_zero_bin. unfold bin_weight. simpl.
    field. split; [exact Hf|]. split; [exact Hp|]. apply INR_neq0. lia.
  - exact Hn.
  - intros k Hk Hne. rewrite F_one by exact Hk. destruct (Nat.eqb_spec k 0); [lia|].
    rewrite Cmult_0_r. simpl. ring.
Qed.

Lemma rsum_one n : rsum n one = INR n.
Proof. unfold one. rewrite rsum_const. ring. Qed.

(** The weighted product with and without the zero bin. *)
Lemma wip_ac_split n fs0 p x y : (0 < n)%nat ->
  wip n (bin_weight n fs0 p false) x y =
  wip n (bin_weight n fs0 p true) x y + / (p 0%nat * INR n * fs0) * (rsum n x * rsum n y).
Proof.
  intros Hn. unfold wip.
  assert (E : rsum n (fun k => if (k =? 0)%nat then bin_weight n fs0 p false k * fst (Cconj (F n x k) * F n y k)%C else 0)
     = / (p 0%nat * INR n * fs0) * (rsum n x * rsum n y)).
  { rewrite (rsum_single n _ 0%nat); [|exact Hn|].
    - simpl Nat.eqb. cbv iota. rewrite !F_zero_bin. unfold bin_weight. simpl. ring.
    - intros k Hk Hne. destruct (Nat.eqb_spec k 0); [lia|reflexivity]. }
  rewrite <- E, <- rsum_plus. apply rsum_ext. intros k Hk. unfold bin_weight.
  destruct (Nat.eqb_spec k 0) as [->|H]; simpl; ring.
Qed.

Section Base.
  Variables (n : nat) (signal template p : nat -> R) (fs0 : R) (ac inorm : bool).
  Hypothesis Hfit : fit_problem n template p fs0 ac inorm.
  Hypothesis Hvis : visible n true template.
  Let T := used_template n fs0 template inorm.
  Let w := bin_weight n fs0 p false.
  Let o := of_init n signal template p fs0 ac inorm.
  Let od := of_init n signal template p fs0 false inorm.
  Let N := norm od.
  Let X0 := wchi2 n fs0 p false signal.
  Let filtd := filt n signal template p fs0 false inorm.
  Let Hn : (0 < n)%nat. Proof. apply Hfit. Qed.
  Let Hf : 0 < fs0. Proof. apply Hfit. Qed.
  Let Hf0 : fs0 <> 0. Proof. lra. Qed.
  Let Hp : forall k, (k < n)%nat -> p k <> 0.
  Proof. intros k Hk. destruct Hfit as (_ & _ & H & _). specialize (H k Hk). lra. Qed.
  Let Hp0 : 0 < p 0%nat. Proof. destruct Hfit as (_ & _ & H & _). apply H. lia. Qed.
  Let HNn : 0 < INR n. Proof. apply lt_0_INR. lia. Qed.

  Lemma fit_dc : fit_problem n template p fs0 false inorm.
  Proof.
    destruct Hfit as (H1 & H2 & H3 & H4 & H5). split; [exact H1|]. split; [exact H2|].
    split; [exact H3|]. split; [|exact H5].
    destruct H4 as (k & Hk & Ha & Hne). exists k. auto.
  Qed.
  Lemma fit_true : fit_problem n template p fs0 true inorm.
  Proof.
    destruct Hfit as (H1 & H2 & H3 & H4 & H5). split; [exact H1|]. split; [exact H2|].
    split; [exact H3|]. split; [exact Hvis|exact H5].
  Qed.
  Let HN : 0 < N. Proof. apply (norm_pos n signal template p fs0 false inorm fit_dc). Qed.

  Let B2 := rsum n T / (p 0%nat * fs0).
  Let C1 := rsum n signal / (p 0%nat * fs0).
  Let C2 := INR n / (p 0%nat * fs0).

  Lemma phi_dc k : (k < n)%nat ->
    (match psd o 0%nat with
     | None => fun k => if (k =? 0)%nat then (s o 0%nat / RtoC (psd0 o))%C else phi o k
     | Some _ => phi o
     end) k = phi od k.
  Proof.
    intros Hk. change (psd o 0%nat) with (coupled_psd ac p 0%nat). unfold coupled_psd.
    case_eq ac; intros Eac; cbn [andb Nat.eqb].
    - unfold od. rewrite (phi_F n signal template p fs0 false inorm fit_dc k Hk). cbn [andb].
      destruct (Nat.eqb_spec k 0) as [->|H].
      + assert (Es : s o 0%nat = s od 0%nat) by (unfold o, od; rewrite Eac; reflexivity).
        rewrite Es. unfold od. rewrite (s_F n signal template p fs0 false inorm fit_dc).
        rewrite F_zero_bin, Cconj_mult, !Cconj_R. change (psd0 o) with (p 0%nat).
        rewrite (RtoC_inv (p 0%nat)) by (apply Hp; lia). unfold Cdiv. ring.
      + unfold o. rewrite Eac. rewrite (phi_F n signal template p fs0 true inorm fit_true k Hk).
        destruct (Nat.eqb_spec k 0); [lia|]. reflexivity.
    - unfold o, od. rewrite Eac. reflexivity.
  Qed.

  Lemma setup_norm : bf_norm (baseline_setup o) = N.
  Proof.
    unfold baseline_setup. cbn [bf_norm].
    assert (E : fst (cdot n (fun k => (match psd o 0%nat with
     | None => fun k => if (k =? 0)%nat then (s o 0%nat / RtoC (psd0 o))%C else phi o k
     | Some _ => phi o end) k) (s o)) * df o = N).
    { unfold N. change (norm od) with (fst (cdot n (phi od) (s od)) * (fs0 / INR n)).
      change (df o) with (fs0 / INR n). do 2 f_equal. apply csum_ext. intros k Hk.
      rewrite phi_dc by exact Hk. reflexivity. }
    revert E. change (psd o 0%nat) with (coupled_psd ac p 0%nat). unfold coupled_psd.
    case_eq ac; intros Eac; cbn [andb Nat.eqb]; intros E.
    - exact E.
    - unfold o, N, od. rewrite Eac. reflexivity.
  Qed.

  Lemma setup_b1 j : bf_b1 (baseline_setup o) j = filtd (Z.of_nat j) * N.
  Proof.
    unfold baseline_setup. cbn [bf_b1].
    unfold filtd. rewrite <- (sftd_filt n signal template p fs0 false inorm fit_dc j).
    fold od. unfold ifft_td, idft. change (nbins o) with n. change (df o) with (fs0 / INR n).
    change (df od) with (fs0 / INR n). change (nbins od) with n.
    assert (EN : RtoC N <> RtoC 0) by (apply RtoC_neq; lra).
    rewrite <- !csum_scal_r, !csum_fst.
    rewrite Rmult_assoc, <- rsum_scal_r, <- !rsum_scal_r. apply rsum_ext. intros k Hk.
    rewrite phi_dc by exact Hk. change (v o k) with (v od k).
    change (signalfilt od k) with (phi od k * v od k / RtoC N)%C.
    generalize (tw n (Z.of_nat k * Z.of_nat j)) as t. intros t.
    generalize (phi od k * v od k)%C as z. intros z.
    unfold Cdiv. rewrite <- RtoC_inv by lra. 
    change (df od) with (fs0 / INR n). simpl. field. split; lra.
  Qed.

  Lemma setup_b2 : bf_b2 (baseline_setup o) = B2.
  Proof.
    unfold baseline_setup. cbn [bf_b2]. rewrite phi_dc by exact Hn.
    unfold od at 1. rewrite (phi_F n signal template p fs0 false inorm fit_dc 0%nat Hn). cbn [andb].
    rewrite (s_F n signal template p fs0 false inorm fit_dc). fold T.
    rewrite F_zero_bin, Cconj_mult, !Cconj_R. change (df o) with (fs0 / INR n).
    unfold B2. simpl. field. split; [lra|]. split; lra.
  Qed.

  Lemma setup_c1 : bf_c1 (baseline_setup o) = C1.
  Proof.
    unfold baseline_setup. cbn [bf_c1]. unfold o at 1.
    rewrite (v_F n signal template p fs0 ac inorm Hfit).
    rewrite F_zero_bin. change (df o) with (fs0 / INR n). change (psd0 o) with (p 0%nat).
    unfold Cdiv. rewrite <- RtoC_inv by lra.
    unfold C1. simpl. field. split; [lra|]. split; lra.
  Qed.

  Lemma setup_c2 : bf_c2 (baseline_setup o) = C2.
  Proof.
    unfold baseline_setup. cbn [bf_c2]. change (df o) with (fs0 / INR n). change (psd0 o) with (p 0%nat).
    unfold C2. field. split; [lra|]. split; lra.
  Qed.

  Lemma setup_chi0 : bf_chi0 (baseline_setup o) = X0.
  Proof.
    unfold baseline_setup. cbn [bf_chi0]. change (nbins o) with n.
    assert (ES := chi0_sum n signal template p fs0 ac inorm Hfit). fold o in ES.
    assert (EV : v o 0%nat = (RtoC (/ fs0) * RtoC (rsum n signal))%C).
    { unfold o. rewrite (v_F n signal template p fs0 ac inorm Hfit 0%nat), F_zero_bin. reflexivity. }
    rewrite ES. change (psd o 0%nat) with (coupled_psd ac p 0%nat). unfold coupled_psd.
    case_eq ac; intros Eac; cbn [andb Nat.eqb]; [|reflexivity].
    unfold X0. rewrite !wchi2_wip. rewrite (wip_ac_split n fs0 p signal signal Hn).
    rewrite EV. change (psd0 o) with (p 0%nat). change (df o) with (fs0 / INR n). f_equal.
    unfold cn2. simpl. field. split; [lra|]. split; lra.
  Qed.

  Lemma wip_T_one d : wip n w (roll n d T) one = B2.
  Proof.
    rewrite <- (wip_ext n w (roll n d T) (roll n d T) (roll n d one) one) by reflexivity.
    rewrite wip_roll by exact Hn. unfold w. rewrite wip_one by (auto; lra). reflexivity.
  Qed.

  (** chi-square of pulse plus baseline *)
  Lemma chi2_base a d b :
    wchi2 n fs0 p false (minus_pulse_base n signal T a d b) =
    X0 - 2 * (a * (filtd d * N) + b * C1) + a ^ 2 * N + 2 * a * b * B2 + b ^ 2 * C2.
  Proof.
    rewrite (wchi2_ext n fs0 p false _ (fun i => minus_pulse n signal T a d i + (- b) * one i))
      by (intros; unfold minus_pulse_base, minus_pulse, one; ring).
    rewrite wchi2_wip, wip_lin, !wip_lin_r. fold w.
    assert (E1 : wip n w (minus_pulse n signal T a d) (minus_pulse n signal T a d) =
       X0 - 2 * a * filtd d * N + a ^ 2 * N).
    { unfold w. rewrite <- wchi2_wip. unfold T.
      rewrite (chi2_pulse n signal template p fs0 false inorm fit_dc). reflexivity. }
    assert (E2 : wip n w (minus_pulse n signal T a d) one = C1 - a * B2).
    { rewrite (wip_ext n w _ (fun i => signal i + (- a) * roll n d T i) one one)
        by (intros; try reflexivity; unfold minus_pulse; ring).
      rewrite wip_lin, wip_T_one. unfold w. rewrite wip_one by (auto; lra). fold C1. ring. }
    assert (E3 : wip n w one one = C2).
    { unfold w. rewrite wip_one by (auto; lra). rewrite rsum_one. reflexivity. }
    change (wip n w (fun i => minus_pulse n signal T a d i) (fun i => minus_pulse n signal T a d i))
      with (wip n w (minus_pulse n signal T a d) (minus_pulse n signal T a d)).
    rewrite (wip_sym n w one). change (wip n w (fun i => minus_pulse n signal T a d i) one)
      with (wip n w (minus_pulse n signal T a d) one).
    rewrite E1, E2, E3. ring.
  Qed.

  Lemma C2_pos : 0 < C2.
  Proof. unfold C2. apply Rmult_lt_0_compat; [lra|]. apply Rinv_0_lt_compat. apply Rmult_lt_0_compat; lra. Qed.

  Lemma det_pos : 0 < N * C2 - B2 ^ 2.
  Proof.
    assert (EN : N = wip n w T T) by (apply (norm_wip n signal template p fs0 false inorm fit_dc)).
    assert (EV := visible_used n signal template p fs0 true inorm fit_true).
    fold T in EV.
    assert (HP := wip_pos n fs0 p true T Hn Hf ltac:(apply Hfit) EV).
    rewrite EN. unfold w. rewrite (wip_ac_split n fs0 p T T Hn).
    replace (_ * C2 - B2 ^ 2) with (wip n (bin_weight n fs0 p true) T T * C2).
    - apply Rmult_lt_0_compat; [exact HP|apply C2_pos].
    - unfold C2, B2. field. split; [lra|]. split; lra.
  Qed.

  Let bf := baseline_setup o.

  Lemma bf_chi2_spec j : (j < n)%nat ->
    bf_chi2 bf j = wchi2 n fs0 p false (minus_pulse_base n signal T (bf_amp bf j) (Z.of_nat j) (bf_base bf j)) /\
    forall a b, bf_chi2 bf j <= wchi2 n fs0 p false (minus_pulse_base n signal T a (Z.of_nat j) b).
  Proof.
    intros Hj.
    assert (E : bf_chi2 bf j = wchi2 n fs0 p false (minus_pulse_base n signal T (bf_amp bf j) (Z.of_nat j) (bf_base bf j))).
    { rewrite chi2_base. unfold bf_chi2, bf. rewrite setup_chi0, setup_b1, setup_c1, setup_norm, setup_b2, setup_c2. ring. }
    split; [exact E|]. intros a b. rewrite E, !chi2_base.
    assert (HD := det_pos). assert (HC := C2_pos).
    unfold bf_base, bf_amp, bf. rewrite setup_b1, setup_c1, setup_norm, setup_b2, setup_c2.
    set (f := filtd (Z.of_nat j) * N). set (D := N * C2 - B2 ^ 2) in *.
    set (a0 := (f * C2 - B2 * C1) / D). set (b0 := (C1 - a0 * B2) / C2).
    assert (E1 : a0 * N + b0 * B2 = f) by (subst b0 a0 D; field; split; lra).
    assert (E2 : a0 * B2 + b0 * C2 = C1) by (subst b0; field; lra).
    rewrite <- E1, <- E2. clearbody a0 b0.
    (* difference is N e1^2 + 2 B2 e1 e2 + C2 e2^2 *)
    assert (Q : 0 <= N * (a - a0) ^ 2 + 2 * B2 * (a - a0) * (b - b0) + C2 * (b - b0) ^ 2).
    { assert (0 <= C2 * (N * (a - a0) ^ 2 + 2 * B2 * (a - a0) * (b - b0) + C2 * (b - b0) ^ 2)).
      { replace (C2 * _) with (D * (a - a0) ^ 2 + (B2 * (a - a0) + C2 * (b - b0)) ^ 2) by (subst D; ring).
        apply Rplus_le_le_0_compat; [apply Rmult_le_pos; [lra|]|]; apply pow2_ge_0. }
      apply (Rmult_le_reg_l C2); [exact HC|]. rewrite Rmult_0_r. exact H. }
    clear - Q. lra.
  Qed.

  (** The baseline used. *)
  Definition used_baseline : R :=
    match argmin (mk n (bf_chi2 bf)) with Ok b => bf_base bf b | Err _ => 0 end.

  Lemma used_baseline_joint :
    exists a d, (0 <= d < Z.of_nat n)%Z /\ forall a' d' b',
      wchi2 n fs0 p false (minus_pulse_base n signal T a d used_baseline)
      <= wchi2 n fs0 p false (minus_pulse_base n signal T a' d' b').
  Proof.
    unfold used_baseline. destruct (argmin_ok (mk n (bf_chi2 bf))) as [bi Hb].
    { intros E. apply (f_equal (@length R)) in E. rewrite mk_length in E. simpl in E. lia. }
    rewrite Hb. destruct (argmin_spec _ _ Hb) as [Hlt Hmin]. rewrite mk_length in *.
    exists (bf_amp bf bi), (Z.of_nat bi). split; [lia|]. intros a' d' b'.
    destruct (bf_chi2_spec bi Hlt) as [E _]. rewrite <- E.
    set (j := Z.to_nat (d' mod Z.of_nat n)).
    assert (Hd := Z.mod_pos_bound d' (Z.of_nat n) ltac:(lia)).
    assert (Hj : (j < n)%nat) by (subst j; lia).
    destruct (Hmin j Hj) as [Hle _]. rewrite !mk_nth in Hle by assumption.
    apply Rle_trans with (1 := Hle).
    destruct (bf_chi2_spec j Hj) as [_ Hopt].
    apply Rle_trans with (1 := Hopt a' b').
    right. apply wchi2_ext. intros i Hi. unfold minus_pulse_base. do 3 f_equal.
    subst j. rewrite Z2Nat.id by lia. apply roll_mod'.
  Qed.

  Lemma filt_base b d : filt n (fun i => signal i - b) template p fs0 false inorm d =
    (filtd d * N - b * B2) / N.
  Proof.
    unfold filtd, filt.
    change (norm (of_init n (fun i => signal i - b) template p fs0 false inorm)) with N.
    change (norm (of_init n signal template p fs0 false inorm)) with N. fold T w.
    rewrite (wip_ext n w (roll n d T) (roll n d T) (fun i => signal i - b) (fun i => signal i + (- b) * one i))
      by (intros; try reflexivity; unfold one; ring).
    rewrite wip_lin_r, wip_T_one. field. lra.
  Qed.

  Lemma baseline_is_scan a :
    snd (ofamp_baseline a o) =
    snd (ofamp_withdelay a (of_init n (fun i => signal i - used_baseline) template p fs0 false inorm)).
  Proof.
    rewrite withdelay_unfold by exact fit_dc. rewrite bind_assoc.
    unfold ofamp_baseline. cbn [snd]. fold bf. change (nbins o) with n. change (fs o) with fs0.
    unfold used_baseline. destruct (argmin_ok (mk n (bf_chi2 bf))) as [bi Hb].
    { intros E. apply (f_equal (@length R)) in E. rewrite mk_length in E. simpl in E. lia. }
    rewrite Hb. cbn [bind]. set (bs := bf_base bf bi). clearbody bs.
    assert (EX0 : bf_chi0_out bf bs = wchi2 n fs0 p false (fun i => signal i - bs)).
    { rewrite (wchi2_ext n fs0 p false (fun i => signal i - bs) (minus_pulse_base n signal T 0 0 bs))
        by (intros; unfold minus_pulse_base; ring).
      rewrite chi2_base. unfold bf_chi0_out, bf. rewrite setup_chi0, setup_c1, setup_c2. ring. }
    assert (EA : mk n (roll n (Z.of_nat n / 2) (bf_amp_out bf bs)) =
      mk n (fun i => scan_amp n (fun i => signal i - bs) template p fs0 false inorm (Z.of_nat i))).
    { apply mk_ext. intros i Hi. unfold scan_amp. apply roll_periodic; [exact Hn| |].
      - intros z. apply filt_mod.
      - intros j. rewrite filt_base. unfold bf_amp_out, bf. rewrite setup_b1, setup_b2, setup_norm. reflexivity. }
    assert (EX : mk n (roll n (Z.of_nat n / 2) (bf_chi2_out bf bs)) =
      mk n (fun i => scan_chi n (fun i => signal i - bs) template p fs0 false inorm (Z.of_nat i))).
    { apply mk_ext. intros i Hi. unfold scan_chi, scan_amp.
      apply (roll_periodic n (Z.of_nat n / 2) (fun z => wchi2 n fs0 p false (fun i0 => signal i0 - bs) -
         filt n (fun i0 => signal i0 - bs) template p fs0 false inorm z ^ 2 * N)); [exact Hn| |].
      - intros z. now rewrite filt_mod.
      - intros j. rewrite <- EX0, filt_base. unfold bf_chi2_out, bf_amp_out, bf.
        rewrite setup_b1, setup_b2, setup_norm. field. lra. }
    rewrite EA, EX, EX0. reflexivity.
  Qed.
End Base.
