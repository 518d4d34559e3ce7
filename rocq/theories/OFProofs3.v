(** * Optimum filters: pileup fits *)
From Verif Require Import Base ListLemmas UtilsModel Dft WindowModel WindowSpec WindowProofs
  OFModel OFSpec OFProofs1 OFProofs2.
Local Open Scope R_scope.

Lemma Int_part_Z z : Int_part (IZR z) = z.
Proof.
  destruct (base_Int_part (IZR z)) as [H1 H2]. apply le_IZR in H1.
  assert (H : IZR z - 1 < IZR (Int_part (IZR z))) by lra.
  rewrite <- minus_IZR in H. apply lt_IZR in H. lia.
Qed.

Lemma int_trunc_Z z : int_trunc (IZR z) = z.
Proof.
  unfold int_trunc. destruct (Rltb_spec (IZR z) 0).
  - rewrite <- opp_IZR, Int_part_Z. lia.
  - apply Int_part_Z.
Qed.

Lemma t1_index_grid n fs0 k : 0 < fs0 ->
  t1_index n fs0 (IZR k / fs0) = if (k <? 0)%Z then (k + Z.of_nat n)%Z else k.
Proof.
  intros Hf. unfold t1_index.
  replace (IZR k / fs0 * fs0) with (IZR k) by (field; lra).
  destruct (Rltb_spec (IZR k / fs0) 0) as [H|H]; destruct (Z.ltb_spec k 0) as [H'|H'].
  - rewrite INR_IZR_INZ, <- plus_IZR. apply int_trunc_Z.
  - exfalso. apply IZR_le in H'. assert (0 <= IZR k / fs0); [|lra].
    apply Rmult_le_pos; [exact H'|]. left. now apply Rinv_0_lt_compat.
  - exfalso. apply H. apply IZR_lt in H'. apply (Rmult_lt_reg_r fs0); [exact Hf|].
    replace (IZR k / fs0 * fs0) with (IZR k) by (field; lra). lra.
  - apply int_trunc_Z.
Qed.

Lemma roll_periodic n h (g : Z -> R) (f : nat -> R) i : (0 < n)%nat ->
  (forall z, g (z mod Z.of_nat n)%Z = g z) -> (forall j, f j = g (Z.of_nat j)) ->
  roll n h f i = g (Z.of_nat i - h)%Z.
Proof.
  intros Hn Hg Hf. unfold roll. rewrite Hf, Z2Nat.id by (apply Z.mod_pos_bound; lia). apply Hg.
Qed.

Lemma roll_mod' {A} n (f : nat -> A) d i : roll n (d mod Z.of_nat n) f i = roll n d f i.
Proof. unfold roll. f_equal. f_equal. exact (Zminus_mod_idemp_r (Z.of_nat i) d (Z.of_nat n)). Qed.

Section Pileup.
  Variables (n : nat) (signal template p : nat -> R) (fs0 : R) (ac inorm : bool).
  Hypothesis Hfit : fit_problem n template p fs0 ac inorm.
  Let T := used_template n fs0 template inorm.
  Let w := bin_weight n fs0 p ac.
  Let o := of_init n signal template p fs0 ac inorm.
  Let N := norm o.
  Let X0 := wchi2 n fs0 p ac signal.
  Let filt := filt n signal template p fs0 ac inorm.
  Let Hn : (0 < n)%nat. Proof. apply Hfit. Qed.
  Let Hf : 0 < fs0. Proof. apply Hfit. Qed.
  Let HN : 0 < N. Proof. apply (norm_pos n signal template p fs0 ac inorm Hfit). Qed.

  (** Filtered residual after subtraction of a first pulse. *)
  Lemma filt_residual a1 k1 d :
    OFProofs2.filt n (minus_pulse n signal T a1 k1) template p fs0 ac inorm d =
    filt d - a1 * wip n w (roll n d T) (roll n k1 T) / N.
  Proof.
    unfold filt, OFProofs2.filt. change (norm (of_init n (minus_pulse n signal T a1 k1) template p fs0 ac inorm)) with N.
    rewrite (wip_ext n _ (roll n d (used_template n fs0 template inorm)) (roll n d T)
       (minus_pulse n signal T a1 k1) (fun i => signal i + (- a1) * roll n k1 T i));
      [|reflexivity|intros; unfold minus_pulse; ring].
    rewrite wip_lin_r. fold T w. change (norm (of_init n signal template p fs0 ac inorm)) with N.
    field. lra.
  Qed.

  Lemma iterative_is_scan a1 k1 a : (- Z.of_nat n <= k1 < Z.of_nat n)%Z ->
    snd (pileup_iterative a1 (IZR k1 / fs0) a o) =
    snd (ofamp_withdelay a (of_init n (minus_pulse n signal T a1 k1) template p fs0 ac inorm)).
  Proof.
    intros Hk. rewrite withdelay_unfold by exact Hfit. rewrite bind_assoc.
    unfold pileup_iterative, bindM, check_freqs, get_sftd, get_times, get_chi0', cached.
    cbn [freqs signalfilt_td times chi0 snd fst set_freqs set_sftd set_times set_chi0
         of_init o nbins fs].
    set (sf := ifft_td _ _ _).
    assert (Esf : forall j, sf j = filt (Z.of_nat j)) by (apply (sftd_filt n signal template p fs0 ac inorm Hfit)).
    set (c0 := Rmult (fst _) _).
    assert (Ec : c0 = X0) by (apply (chi0_wip n signal template p fs0 ac inorm Hfit)).
    set (ttd := template_td _ _ _ _ _ _).
    assert (Et : forall j, ttd j = wip n w (roll n (Z.of_nat j) T) (roll n k1 T))
      by (apply (template_td_wip n signal template p fs0 ac inorm Hfit)).
    set (N' := norm _). change N' with N.
    clearbody c0 ttd. subst c0.
    assert (Epi : pyindex (mk n sf) (t1_index n fs0 (IZR k1 / fs0)) = Ok (filt k1)).
    { rewrite t1_index_grid by exact Hf. rewrite (pyindex_in _ _ 0)
        by (rewrite mk_length; destruct (Z.ltb_spec k1 0); lia).
      rewrite nth_mk by (destruct (Z.ltb_spec k1 0); lia). f_equal. rewrite Esf.
      rewrite Z2Nat.id by (destruct (Z.ltb_spec k1 0); lia).
      destruct (Z.ltb_spec k1 0); [|reflexivity].
      unfold filt. rewrite <- (filt_mod n signal template p fs0 ac inorm k1).
      f_equal. rewrite <- (Z_mod_plus_full k1 1 (Z.of_nat n)). rewrite Z.mod_small; lia. }
    rewrite Epi. cbn [bind].
    set (sig' := minus_pulse n signal T a1 k1).
    set (A := scan_amp n sig' template p fs0 ac inorm).
    set (X := scan_chi n sig' template p fs0 ac inorm).
    assert (EX0 : X0 + (a1 ^ 2 * N - 2 * a1 * filt k1 * N) = wchi2 n fs0 p ac sig').
    { subst sig'. unfold T. rewrite (chi2_pulse n signal template p fs0 ac inorm Hfit). fold o.
      change (norm o) with N. change (OFProofs2.filt n signal template p fs0 ac inorm k1) with (filt k1).
      fold X0. ring. }
    rewrite EX0.
    assert (Ea2 : forall j, sf j - a1 * ttd j / N = OFProofs2.filt n sig' template p fs0 ac inorm (Z.of_nat j)).
    { intros j. subst sig'. rewrite filt_residual, Esf, Et. reflexivity. }
    assert (EA : mk n (roll n (Z.of_nat n / 2) (fun j => sf j - a1 * ttd j / N)) = mk n (fun i => A (Z.of_nat i))).
    { apply mk_ext. intros i Hi. apply roll_periodic; [exact Hn| |exact Ea2].
      intros z. apply filt_mod. }
    rewrite EA.
    assert (EX : mk n (roll n (Z.of_nat n / 2) (fun j => wchi2 n fs0 p ac sig' +
        ((sf j - a1 * ttd j / N) ^ 2 * N + 2 * a1 * (sf j - a1 * ttd j / N) * ttd j
         - 2 * (sf j - a1 * ttd j / N) * sf j * N))) = mk n (fun i => X (Z.of_nat i))).
    { apply mk_ext. intros i Hi.
      apply (roll_periodic n (Z.of_nat n / 2) (fun z => wchi2 n fs0 p ac sig' -
         OFProofs2.filt n sig' template p fs0 ac inorm z ^ 2 * N)); [exact Hn| |].
      - intros z. now rewrite filt_mod.
      - intros j. rewrite <- Ea2. field. lra. }
    rewrite EX.
    destruct (direction_mask (mk n (fun i => A (Z.of_nat i))) (direction a)) as [m|e]; [|reflexivity].
    cbn [bind].
    assert (Hb := argmin_chi2_nonneg (mk n (fun i => X (Z.of_nat i))) (nconstrain a) (outside a) m (wcenter a)).
    destruct (argmin_chi2 (mk n (fun i => X (Z.of_nat i))) (nconstrain a) (outside a) m (wcenter a)) as [[b|]|e];
      [|reflexivity|reflexivity].
    cbn [bind]. specialize (Hb b eq_refl). unfold select_best.
    rewrite Z2Nat.id by lia. replace (- (Z.of_nat n / 2) + b)%Z with (b - Z.of_nat n / 2)%Z by lia.
    reflexivity.
  Qed.

  Let X (d : Z) := wip n w (roll n d T) T.
  Let h := (Z.of_nat n / 2)%Z.

  Lemma roll_0 {A} (f : nat -> A) i : (i < n)%nat -> roll n 0 f i = f i.
  Proof. intros Hi. unfold roll. rewrite Z.sub_0_r, Z.mod_small by lia. now rewrite Nat2Z.id. Qed.

  Lemma chi2_two a1 a2 d :
    wchi2 n fs0 p ac (minus_two n signal T a1 0 a2 d) =
    X0 + ((a1 ^ 2 + a2 ^ 2) * N + 2 * a1 * a2 * X d) - (2 * a1 * filt 0 * N + 2 * a2 * filt d * N).
  Proof.
    rewrite (wchi2_ext n fs0 p ac _ (minus_pulse n (minus_pulse n signal T a1 0) T a2 d)) by reflexivity.
    unfold T at 2. rewrite (chi2_pulse n (minus_pulse n signal T a1 0) template p fs0 ac inorm Hfit).
    change (norm (of_init n (minus_pulse n signal T a1 0) template p fs0 ac inorm)) with N.
    rewrite filt_residual.
    unfold T at 1. rewrite (chi2_pulse n signal template p fs0 ac inorm Hfit).
    fold X0. change (norm (of_init n signal template p fs0 ac inorm)) with N.
    change (OFProofs2.filt n signal template p fs0 ac inorm) with filt.
    rewrite (wip_ext n w (roll n d T) (roll n d T) (roll n 0 T) T);
      [|reflexivity|intros; now apply roll_0].
    fold (X d). field. lra.
  Qed.

  Definition st_amp (d : Z) : R * R :=
    if (d mod Z.of_nat n =? 0)%Z then (filt 0 / (2 * N), filt 0 / (2 * N))
    else ((filt 0 * N ^ 2 - filt d * N * X d) / (N ^ 2 - X d ^ 2),
          (filt d * N ^ 2 - filt 0 * N * X d) / (N ^ 2 - X d ^ 2)).
  Definition st_chi (d : Z) : R :=
    wchi2 n fs0 p ac (minus_two n signal T (fst (st_amp d)) 0 (snd (st_amp d)) d).

  Lemma X_mod d : X (d mod Z.of_nat n)%Z = X d.
  Proof. unfold X. apply wip_ext; intros i Hi; [apply roll_mod'|reflexivity]. Qed.
  Lemma st_filt_mod d : filt (d mod Z.of_nat n)%Z = filt d.
  Proof. apply filt_mod. Qed.
  Lemma st_amp_mod d : st_amp (d mod Z.of_nat n)%Z = st_amp d.
  Proof. unfold st_amp. now rewrite X_mod, st_filt_mod, Zmod_mod. Qed.
  Lemma st_chi_mod d : st_chi (d mod Z.of_nat n)%Z = st_chi d.
  Proof. unfold st_chi. rewrite !chi2_two. now rewrite X_mod, st_filt_mod, st_amp_mod. Qed.

  Lemma X_bound d b1 b2 : 0 <= N * b1 ^ 2 + N * b2 ^ 2 + 2 * X d * b1 * b2.
  Proof.
    assert (H : 0 <= wip n w (fun i => b1 * T i + b2 * roll n d T i) (fun i => b1 * T i + b2 * roll n d T i)).
    { apply wip_nonneg. intros k Hk. apply weight_nonneg; auto. apply Hfit. }
    rewrite wip_lin, !wip_lin_r in H.
    assert (S0 : forall z, wip n w (fun i => b1 * T i) z = b1 * wip n w T z).
    { intros z. rewrite (wip_ext n w _ (fun i => 0 * T i + b1 * T i) z z)
        by (intros; try reflexivity; ring).
      rewrite wip_lin. rewrite (wip_ext n w (fun i => 0 * T i) (fun i => T i + (-1) * T i) z z)
        by (intros; try reflexivity; ring). rewrite wip_lin. ring. }
    rewrite (wip_sym n w (roll n d T) (fun i => b1 * T i)) in H.
    rewrite !S0 in H. rewrite (wip_sym n w T (fun i => b1 * T i)), S0 in H.
    rewrite (wip_sym n w T (roll n d T)) in H. fold (X d) in H.
    unfold T in H at 3 4. rewrite (N_roll n signal template p fs0 ac inorm Hfit) in H.
    assert (EN : wip n w T T = N) by (symmetry; apply (norm_wip n signal template p fs0 ac inorm Hfit)).
    rewrite EN in H. change (norm (of_init n signal template p fs0 ac inorm)) with N in H. lra.
  Qed.

  Lemma X_strict d : distinct_delay n ac T d -> X d ^ 2 < N ^ 2.
  Proof.
    intros [H1 H2].
    assert (EN : wip n w T T = N) by (symmetry; apply (norm_wip n signal template p fs0 ac inorm Hfit)).
    assert (ER : wip n w (roll n d T) (roll n d T) = N) by apply (N_roll n signal template p fs0 ac inorm Hfit).
    assert (P : forall e, visible n ac (fun i => T i + e * roll n d T i) -> 0 < N + 2 * e * X d + e ^ 2 * N).
    { intros e He. assert (H := wip_pos n fs0 p ac _ Hn Hf ltac:(apply Hfit) He).
      fold w in H. rewrite wip_lin, !wip_lin_r, EN, ER, (wip_sym n w T (roll n d T)) in H.
      fold (X d) in H. lra. }
    assert (V : forall f g, (forall i, f i = g i) -> visible n ac f -> visible n ac g).
    { intros f g E (k & Hk & Ha & Hne). exists k. split; [exact Hk|]. split; [exact Ha|].
      change (F n g k <> 0%C). rewrite <- (F_ext n f g k) by (intros; apply E). exact Hne. }
    assert (P1 := P (-1) ltac:(eapply V; [|exact H1]; intros; simpl; ring)).
    assert (P2 := P 1 ltac:(eapply V; [|exact H2]; intros; simpl; ring)).
    nra.
  Qed.

  Lemma st_optimal d b1 b2 : (d mod Z.of_nat n <> 0)%Z -> distinct_delay n ac T d ->
    st_chi d <= wchi2 n fs0 p ac (minus_two n signal T b1 0 b2 d).
  Proof.
    intros Hd HX. apply X_strict in HX. unfold st_chi. rewrite !chi2_two. unfold st_amp.
    destruct (Z.eqb_spec (d mod Z.of_nat n) 0); [lia|]. cbn [fst snd].
    set (D := N ^ 2 - X d ^ 2). assert (HD : 0 < D) by (subst D; lra).
    set (a1 := (filt 0 * N ^ 2 - filt d * N * X d) / D).
    set (a2 := (filt d * N ^ 2 - filt 0 * N * X d) / D).
    assert (E1 : a1 * N + a2 * X d = filt 0 * N) by (subst a1 a2 D; field; lra).
    assert (E2 : a1 * X d + a2 * N = filt d * N) by (subst a1 a2 D; field; lra).
    clearbody a1 a2. assert (B := X_bound d (b1 - a1) (b2 - a2)).
    replace (2 * a1 * filt 0 * N) with (2 * a1 * (filt 0 * N)) by ring.
    replace (2 * b1 * filt 0 * N) with (2 * b1 * (filt 0 * N)) by ring.
    replace (2 * a2 * filt d * N) with (2 * a2 * (filt d * N)) by ring.
    replace (2 * b2 * filt d * N) with (2 * b2 * (filt d * N)) by ring.
    rewrite <- E1, <- E2. clear - B. lra.
  Qed.

  Lemma st_unfold nc out wc : snd (pileup_stationary nc out wc o) =
    (do b <- argmin_chi2 (mk n (fun i => st_chi (Z.of_nat i - h))) nc out None wc;
     match b with
     | None => Err IndexError
     | Some b =>
         do a1 <- pyindex (mk n (fun i => fst (st_amp (Z.of_nat i - h)))) b;
         do a2 <- pyindex (mk n (fun i => snd (st_amp (Z.of_nat i - h)))) b;
         do c <- pyindex (mk n (fun i => st_chi (Z.of_nat i - h))) b;
         Ok (a1, a2, IZR (- h + Z.of_nat (Z.to_nat b)) / fs0, c)
     end).
  Proof.
    unfold pileup_stationary, bindM, get_sftd, get_times, get_chi0', cached.
    cbn [freqs signalfilt_td times chi0 snd fst set_freqs set_sftd set_times set_chi0
         of_init o nbins fs].
    set (sf := ifft_td _ _ _).
    assert (Esf : forall j, sf j = filt (Z.of_nat j)) by (apply (sftd_filt n signal template p fs0 ac inorm Hfit)).
    set (c0 := Rmult (fst _) _).
    assert (Ec : c0 = X0) by (apply (chi0_wip n signal template p fs0 ac inorm Hfit)).
    set (ttd := ifft_td _ _ (fun k => _)).
    assert (Et : forall j, ttd j = X (Z.of_nat j))
      by (apply (template_td0_wip n signal template p fs0 ac inorm Hfit)).
    set (N' := norm _). change N' with N.
    clearbody c0 ttd. subst c0.
    assert (EAj : forall j, (j < n)%nat -> stationary_amps N sf ttd j = st_amp (Z.of_nat j)).
    { intros j Hj. unfold stationary_amps, st_amp. rewrite Z.mod_small by lia. rewrite !Esf, !Et.
      destruct (Nat.eqb_spec j 0); destruct (Z.eqb_spec (Z.of_nat j) 0); try lia; reflexivity. }
    assert (EXj : forall j, (j < n)%nat -> stationary_chi N X0 sf ttd j = st_chi (Z.of_nat j)).
    { intros j Hj. unfold stationary_chi, st_chi. rewrite EAj by exact Hj.
      destruct (st_amp (Z.of_nat j)) as [a1 a2]. cbn [fst snd]. rewrite chi2_two, !Esf, !Et. reflexivity. }
    assert (EJ : forall i, (Z.to_nat ((Z.of_nat i - h) mod Z.of_nat n) < n)%nat).
    { intros i. assert (B := Z.mod_pos_bound (Z.of_nat i - h) (Z.of_nat n) ltac:(lia)). lia. }
    assert (EZ : forall i, Z.of_nat (Z.to_nat ((Z.of_nat i - h) mod Z.of_nat n)) = ((Z.of_nat i - h) mod Z.of_nat n)%Z).
    { intros i. assert (B := Z.mod_pos_bound (Z.of_nat i - h) (Z.of_nat n) ltac:(lia)). lia. }
    rewrite (mk_ext n (roll n (Z.of_nat n / 2) (fun j => fst (stationary_amps N sf ttd j)))
               (fun i => fst (st_amp (Z.of_nat i - h))))
      by (intros i Hi; unfold roll; fold h; rewrite EAj by apply EJ; rewrite EZ, st_amp_mod; reflexivity).
    rewrite (mk_ext n (roll n (Z.of_nat n / 2) (fun j => snd (stationary_amps N sf ttd j)))
               (fun i => snd (st_amp (Z.of_nat i - h))))
      by (intros i Hi; unfold roll; fold h; rewrite EAj by apply EJ; rewrite EZ, st_amp_mod; reflexivity).
    rewrite (mk_ext n (roll n (Z.of_nat n / 2) (stationary_chi N X0 sf ttd))
               (fun i => st_chi (Z.of_nat i - h)))
      by (intros i Hi; unfold roll; fold h; rewrite EXj by apply EJ; rewrite EZ, st_chi_mod; reflexivity).
    reflexivity.
  Qed.

  Lemma stationary_fresh nc out wc : valid_center (Z.of_nat n) wc -> (forall k, nc = Some k -> (0 < k)%Z) ->
    let win := allowed (Z.of_nat n) nc out (fun _ => True) wc in
    (snd (pileup_stationary nc out wc o) = Err IndexError /\ forall j, ~ win j) \/
    (exists j, first_minimum (fun j => st_chi (j - h)) win j /\
       snd (pileup_stationary nc out wc o) =
       Ok (fst (st_amp (j - h)), snd (st_amp (j - h)), IZR (j - h) / fs0, st_chi (j - h))).
  Proof.
    intros Hc Hk win. rewrite st_unfold.
    assert (R := argmin_chi2_result (mk n (fun i => st_chi (Z.of_nat i - h))) nc out None wc).
    rewrite mk_length in R. unfold search_result in R.
    specialize (R ltac:(discriminate) Hc Hk).
    destruct (argmin_chi2 _ nc out None wc) as [[j|]|e]; [right| |destruct R].
    - exists j. destruct R as [R1 R2].
      assert (Hj : (0 <= j < Z.of_nat n)%Z) by (destruct R1; assumption).
      split.
      + split; [exact R1|]. intros i Hi. destruct (R2 i Hi) as [G1 G2].
        assert (Hir : (0 <= i < Z.of_nat n)%Z) by (destruct Hi; assumption).
        rewrite !nth_mk in G1, G2 by lia. rewrite !Z2Nat.id in G1, G2 by lia. split; auto.
      + cbn [bind]. rewrite !(pyindex_in _ _ 0) by (rewrite mk_length; lia). cbn [bind].
        rewrite !nth_mk by lia. rewrite Z2Nat.id by lia.
        replace (- h + j)%Z with (j - h)%Z by lia. reflexivity.
    - left. split; [reflexivity|exact R].
  Qed.
End Pileup.
