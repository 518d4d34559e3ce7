(** * Optimum filters: low-frequency chi-square, parabola, time resolution *)
From Coq Require Import Reals Lra.
From Coquelicot Require Import Coquelicot.
From Verif Require Import Base UtilsModel Dft WindowModel WindowSpec WindowProofs OFModel OFSpec OFProofs1 OFProofs2 OFProofs6.
From Coq Require Import Reals Lra.
Local Open Scope R_scope.

(** ** Parabola *)
Lemma parabola_spec vals b delta vm v0 vp :
  pyindex vals (b - 1) = Ok vm -> pyindex vals b = Ok v0 -> pyindex vals (b + 1) = Ok vp ->
  0 < delta -> v0 <= vm -> v0 <= vp -> v0 < vm \/ v0 < vp ->
  exists t c, interpolate_parabola vals b delta None = Ok (t, c) /\
    Rabs t <= delta / 2 /\ c <= v0.
Proof.
  intros E1 E2 E3 Hd H1 H2 H3. unfold interpolate_parabola. rewrite E3, E2, E1. cbn [bind].
  set (sf := 1 / (2 * delta ^ 2)). assert (Hsf : 0 < sf).
  { unfold sf. apply Rdiv_lt_0_compat; [lra|]. assert (0 < delta ^ 2) by (apply pow_lt; lra). lra. }
  set (D := vp - 2 * v0 + vm). assert (HD : 0 < D) by (unfold D; lra).
  do 2 eexists. split; [reflexivity|].
  assert (Et : - (sf * delta * (vp - vm)) / (2 * (sf * D)) = delta / 2 * ((vm - vp) / D)).
  { field. split; lra. }
  split.
  - rewrite Et, Rabs_mult, (Rabs_pos_eq (delta / 2)) by lra.
    rewrite <- (Rmult_1_r (delta / 2)) at 2. apply Rmult_le_compat_l; [lra|].
    unfold Rdiv. rewrite Rabs_mult, (Rabs_pos_eq (/ D)) by (left; now apply Rinv_0_lt_compat).
    apply (Rmult_le_reg_r D); [exact HD|]. rewrite Rmult_assoc, Rinv_l, Rmult_1_r, Rmult_1_l by lra.
    apply Rabs_le. unfold D. lra.
  - replace (sf * 2 * delta ^ 2 * v0) with v0 by (unfold sf; field; lra).
    set (bb := sf * delta * (vp - vm)). set (aa := sf * D).
    assert (Ha : 0 < aa) by (unfold aa; now apply Rmult_lt_0_compat).
    replace (aa * (- bb / (2 * aa)) ^ 2 + bb * (- bb / (2 * aa)) + v0) with (v0 - bb ^ 2 / (4 * aa)) by (field; lra).
    assert (0 <= bb ^ 2 / (4 * aa)); [|lra]. apply Rmult_le_pos; [apply pow2_ge_0|].
    left. apply Rinv_0_lt_compat. lra.
Qed.

Lemma parabola_exact vals b delta al be ga :
  pyindex vals (b - 1) = Ok (al * (- delta) ^ 2 + be * (- delta) + ga) ->
  pyindex vals b = Ok ga -> pyindex vals (b + 1) = Ok (al * delta ^ 2 + be * delta + ga) ->
  0 < delta -> al <> 0 ->
  let t := - be / (2 * al) in
  interpolate_parabola vals b delta None = Ok (t, al * t ^ 2 + be * t + ga) /\
  forall t', interpolate_parabola vals b delta (Some t') = Ok (t', al * t' ^ 2 + be * t' + ga).
Proof.
  intros E1 E2 E3 Hd Ha t.
  assert (K : forall ti, interpolate_parabola vals b delta ti =
     let u := match ti with None => t | Some u => u end in Ok (u, al * u ^ 2 + be * u + ga)).
  { intros ti. unfold interpolate_parabola. rewrite E3, E2, E1. cbn [bind].
    replace (1 / (2 * delta ^ 2) * (al * delta ^ 2 + be * delta + ga - 2 * ga + (al * (- delta) ^ 2 + be * - delta + ga)))
      with al by (field; lra).
    replace (1 / (2 * delta ^ 2) * delta * (al * delta ^ 2 + be * delta + ga - (al * (- delta) ^ 2 + be * - delta + ga)))
      with be by (field; lra).
    replace (1 / (2 * delta ^ 2) * 2 * delta ^ 2 * ga) with ga by (field; lra).
    destruct ti; reflexivity. }
  split; [exact (K None)|]. intros t'. exact (K (Some t')).
Qed.

Lemma pyindex_out {A} (l : list A) i : (Z.of_nat (length l) <= i)%Z -> pyindex l i = Err IndexError.
Proof.
  intros H. unfold pyindex. destruct (Z.ltb_spec i 0); [lia|].
  destruct (Z.ltb_spec i 0); [reflexivity|].
  rewrite (proj2 (nth_error_None l (Z.to_nat i))) by lia. reflexivity.
Qed.

Lemma parabola_last vals delta t :
  interpolate_parabola vals (Z.of_nat (length vals) - 1) delta t = Err IndexError.
Proof.
  unfold interpolate_parabola. rewrite pyindex_out by lia. reflexivity.
Qed.

(** ** Low-frequency chi-square *)
Section Low.
  Variables (n : nat) (signal template p : nat -> R) (fs0 : R) (ac inorm : bool).
  Hypothesis Hfit : fit_problem n template p fs0 ac inorm.
  Let T := used_template n fs0 template inorm.
  Let o := of_init n signal template p fs0 ac inorm.
  Let Hn : (0 < n)%nat. Proof. apply Hfit. Qed.
  Let Hf : 0 < fs0. Proof. apply Hfit. Qed.
  Let Hf0 : fs0 <> 0. Proof. lra. Qed.
  Let Hp : forall k, (k < n)%nat -> 0 < p k. Proof. apply Hfit. Qed.
  Let HnR : 0 < INR n. Proof. apply lt_0_INR. lia. Qed.

  Definition low amp t0 fc := lowfreq_sum n (df o) (v o) (s o) (psd o) (fftfreq n fs0) amp t0 fc.

  Lemma low_eq amp t0 fc : snd (m_chi2_lowfreq amp t0 fc o) = Ok (low amp t0 fc).
  Proof. reflexivity. Qed.

  Lemma df_pos : 0 < df o.
  Proof. change (df o) with (fs0 / INR n). now apply Rdiv_lt_0_compat. Qed.

  Lemma low_term_nonneg k z : (k < n)%nat -> 0 <= rdivp (df o * cn2 z) (psd o k).
  Proof.
    intros Hk. change (psd o k) with (coupled_psd ac p k). rewrite rdivp_coupled.
    assert (D := df_pos). assert (Z0 := cn2_nonneg z).
    destruct (_ && _)%bool; [lra|].
    apply Rmult_le_pos; [left; apply Rinv_0_lt_compat; auto|]. apply Rmult_le_pos; lra.
  Qed.

  Lemma low_nonneg amp t0 fc : 0 <= low amp t0 fc.
  Proof.
    apply rsum_nonneg. intros k Hk. destruct (Rleb _ _); [now apply low_term_nonneg|lra].
  Qed.

  Lemma low_mono amp t0 fc fc' : fc <= fc' -> low amp t0 fc <= low amp t0 fc'.
  Proof.
    intros H. apply rsum_le. intros k Hk.
    unfold Rleb. destruct (Rle_dec _ fc), (Rle_dec _ fc'); try lra.
    - now apply low_term_nonneg.
  Qed.

  Lemma low_residual amp d k : (k < n)%nat ->
    (v o k - RtoC amp * cis (-2 * PI * (IZR d / fs0) * fftfreq n fs0 k) * s o k)%C
    = (RtoC (/ fs0) * F n (minus_pulse n signal T amp d) k)%C.
  Proof.
    intros Hk. subst o. rewrite s_F, v_F by exact Hfit. fold T.
    replace (-2 * PI * (IZR d / fs0) * fftfreq n fs0 k) with (2 * PI * (IZR (- d) / fs0) * fftfreq n fs0 k)
      by (rewrite opp_IZR; field; exact Hf0).
    rewrite cis_tw by auto.
    rewrite (F_ext n (minus_pulse n signal T amp d) (fun i => signal i + (- amp) * roll n d T i))
      by (intros; unfold minus_pulse; ring).
    rewrite F_lin, F_roll, RtoC_opp, Z.mul_opp_l by exact Hn. ring.
  Qed.

  (** the terms of the sum are the bins of the residual's chi-square *)
  Lemma low_sum amp d fc : low amp (IZR d / fs0) fc =
    rsum n (fun k => if Rleb (Rabs (fftfreq n fs0 k)) fc
      then bin_weight n fs0 p ac k * cn2 (F n (minus_pulse n signal T amp d) k) else 0).
  Proof.
    apply rsum_ext. intros k Hk. destruct (Rleb _ _); [|reflexivity].
    rewrite low_residual by exact Hk. change (psd o k) with (coupled_psd ac p k).
    rewrite rdivp_coupled, cn2_scal.
    assert (p k <> 0) by (specialize (Hp k Hk); lra).
    rewrite <- (weight_split n fs0 p ac k Hn Hf0 H). change (df o) with (fs0 / INR n). ring.
  Qed.

  Lemma fftfreq_nyquist k : (k < n)%nat -> Rabs (fftfreq n fs0 k) <= fs0 / 2.
  Proof.
    intros Hk. unfold fftfreq. set (m := freqnum n k).
    assert (- Z.of_nat n <= 2 * m <= Z.of_nat n)%Z as [M1 M2].
    { subst m. unfold freqnum. destruct (Z.ltb_spec (2 * Z.of_nat k) (Z.of_nat n)); lia. }
    apply IZR_le in M1, M2. rewrite mult_IZR in M1, M2. rewrite opp_IZR in M1. rewrite <- INR_IZR_INZ in M1, M2.
    unfold Rdiv. rewrite !Rabs_mult, (Rabs_pos_eq fs0), (Rabs_pos_eq (/ INR n)) by (try lra; left; now apply Rinv_0_lt_compat).
    apply (Rmult_le_reg_r (INR n)); [exact HnR|]. rewrite Rmult_assoc, Rinv_l, Rmult_1_r by lra.
    replace (fs0 * / 2 * INR n) with (INR n / 2 * fs0) by field.
    assert (Rabs (IZR m) <= INR n / 2) by (apply Rabs_le; lra).
    apply Rmult_le_compat_r; lra.
  Qed.

  Lemma low_total amp d fc : fs0 / 2 <= fc ->
    low amp (IZR d / fs0) fc = wchi2 n fs0 p ac (minus_pulse n signal T amp d).
  Proof.
    intros H. rewrite low_sum. apply rsum_ext. intros k Hk. unfold Rleb.
    assert (K := fftfreq_nyquist k Hk). destruct (Rle_dec _ fc); [reflexivity|lra].
  Qed.

  Lemma low_exact A d fc : (forall i, (i < n)%nat -> signal i = A * roll n d T i) ->
    low A (IZR d / fs0) fc = 0.
  Proof.
    intros H. rewrite low_sum. rewrite (rsum_ext n _ (fun _ => 0)); [apply rsum_zero; reflexivity|].
    intros k Hk. destruct (Rleb _ _); [|reflexivity].
    rewrite (F_ext n _ (fun i => 0 * 0)) by (intros; unfold minus_pulse; rewrite H by assumption; ring).
    rewrite F_scale, cn2_scal. ring.
  Qed.
End Low.

(** ** Time resolution: curvature of the noise-free chi-square *)
Lemma is_derive_rsum n (f g : nat -> R -> R) x :
  (forall k, (k < n)%nat -> is_derive (f k) x (g k x)) ->
  is_derive (fun t => rsum n (fun k => f k t)) x (rsum n (fun k => g k x)).
Proof.
  induction n as [|n IH]; intros H.
  - exact (is_derive_const 0 x).
  - cbn [rsum]. exact (is_derive_plus _ _ _ _ _ (IH (fun k Hk => H k (Nat.lt_lt_succ_r _ _ Hk))) (H n (Nat.lt_succ_diag_r n))).
Qed.

Lemma is_derive_cosk c x : is_derive (fun t => 2 - 2 * cos (c * t)) x (2 * c * sin (c * x)).
Proof. auto_derive; [exact I|]. ring. Qed.
Lemma is_derive_sink c x : is_derive (fun t => 2 * c * sin (c * t)) x (2 * c ^ 2 * cos (c * x)).
Proof. auto_derive; [exact I|]. ring. Qed.

Section TimeRes.
  Variables (n : nat) (signal template p : nat -> R) (fs0 : R) (ac inorm : bool).
  Hypothesis Hfit : fit_problem n template p fs0 ac inorm.
  Let T := used_template n fs0 template inorm.
  Let o := of_init n signal template p fs0 ac inorm.
  Let Hn : (0 < n)%nat. Proof. apply Hfit. Qed.
  Let Hf : 0 < fs0. Proof. apply Hfit. Qed.
  Let Hf0 : fs0 <> 0. Proof. lra. Qed.
  Let Hp : forall k, (k < n)%nat -> 0 < p k. Proof. apply Hfit. Qed.
  Variable A : R.
  Hypothesis HA : A <> 0.
  Hypothesis Hsig : forall i, (i < n)%nat -> signal i = A * T i.

  Let wt k := rdivp (df o * (A ^ 2 * cn2 (s o k))) (psd o k).
  Let om k := 2 * PI * fftfreq n fs0 k.
  Definition low_deriv (t : R) : R := rsum n (fun k => wt k * (2 * om k * sin (om k * t))).
  Definition low_curv (t : R) : R := rsum n (fun k => wt k * (2 * om k ^ 2 * cos (om k * t))).

  Lemma low_noisefree t fc : fs0 / 2 <= fc ->
    low n signal template p fs0 ac inorm A t fc = rsum n (fun k => wt k * (2 - 2 * cos (om k * t))).
  Proof.
    intros Hfc. unfold low, lowfreq_sum. apply rsum_ext. intros k Hk. unfold Rleb.
    assert (Hny := fftfreq_nyquist n template p fs0 ac inorm Hfit k Hk).
    destruct (Rle_dec _ fc); [|lra]. fold o.
    assert (Ev : v o k = (RtoC A * s o k)%C).
    { subst o. rewrite s_F, v_F by exact Hfit. fold T. rewrite (F_ext n signal (fun i => A * T i)) by exact Hsig.
      rewrite F_scale. ring. }
    rewrite Ev.
    replace (RtoC A * s o k - RtoC A * cis (-2 * PI * t * fftfreq n fs0 k) * s o k)%C
      with (RtoC A * ((RtoC 1 - cis (- (om k * t))) * s o k))%C
      by (replace (-2 * PI * t * fftfreq n fs0 k) with (- (om k * t)) by (unfold om; ring); ring).
    rewrite cn2_scal, cn2_mult.
    replace (cn2 (RtoC 1 - cis (- (om k * t)))%C) with (2 - 2 * cos (om k * t)).
    2:{ unfold cn2, cis. simpl. rewrite cos_neg, sin_neg. assert (E := sin2_cos2 (om k * t)).
        unfold Rsqr in E. nra. }
    unfold wt. change (psd o k) with (coupled_psd ac p k). rewrite !rdivp_coupled. ring.
  Qed.

  Lemma low_is_derive t fc : fs0 / 2 <= fc ->
    is_derive (fun t => low n signal template p fs0 ac inorm A t fc) t (low_deriv t).
  Proof.
    intros Hfc. apply (is_derive_ext (fun t => rsum n (fun k => wt k * (2 - 2 * cos (om k * t))))).
    - intros u. symmetry. now apply low_noisefree.
    - apply (is_derive_rsum n (fun k t => wt k * (2 - 2 * cos (om k * t))) (fun k t => wt k * (2 * om k * sin (om k * t)))).
      intros k _. apply is_derive_scal. apply is_derive_cosk.
  Qed.

  Lemma low_is_derive2 t : is_derive low_deriv t (low_curv t).
  Proof.
    apply (is_derive_rsum n (fun k t => wt k * (2 * om k * sin (om k * t))) (fun k t => wt k * (2 * om k ^ 2 * cos (om k * t)))).
    intros k _. apply is_derive_scal. apply is_derive_sink.
  Qed.

  Lemma low_deriv_0 : low_deriv 0 = 0.
  Proof.
    unfold low_deriv. rewrite (rsum_ext n _ (fun _ => 0)); [apply rsum_zero; reflexivity|].
    intros k _. rewrite Rmult_0_r, sin_0. ring.
  Qed.

  Definition curv_sum : R :=
    A ^ 2 * rsum n (fun k => rdivp ((2 * PI * fftfreq n fs0 k) ^ 2 * cn2 (s o k)) (psd o k)) * df o.

  Lemma low_curv_0 : low_curv 0 = 2 * curv_sum.
  Proof.
    unfold low_curv, curv_sum.
    rewrite (Rmult_comm (A ^ 2)), Rmult_assoc, (Rmult_comm 2), Rmult_assoc, <- rsum_scal_r.
    apply rsum_ext. intros k _. rewrite Rmult_0_r, cos_0. unfold wt, om.
    change (psd o k) with (coupled_psd ac p k). rewrite !rdivp_coupled. ring.
  Qed.

  Lemma timeres_eq : snd (time_resolution A o) = Ok (1 / sqrt curv_sum).
  Proof. reflexivity. Qed.

  Hypothesis Hvis : visible n true template.

  Lemma curv_sum_pos : 0 < curv_sum.
  Proof.
    unfold curv_sum. assert (D : 0 < df o) by (apply (df_pos n signal template p fs0 ac inorm Hfit)).
    assert (A2 : 0 < A ^ 2) by nra.
    apply Rmult_lt_0_compat; [|exact D]. apply Rmult_lt_0_compat; [exact A2|].
    destruct Hvis as (k & Hk & Hk0 & Hne). cbn [andb] in Hk0. apply Nat.eqb_neq in Hk0.
    assert (Hterm : forall j, (j < n)%nat -> 0 <= rdivp ((2 * PI * fftfreq n fs0 j) ^ 2 * cn2 (s o j)) (psd o j)).
    { intros j Hj. change (psd o j) with (coupled_psd ac p j). rewrite rdivp_coupled.
      assert (0 <= (2 * PI * fftfreq n fs0 j) ^ 2 * cn2 (s o j)) by (apply Rmult_le_pos; [apply pow2_ge_0|apply cn2_nonneg]).
      destruct (_ && _)%bool; [lra|]. apply Rmult_le_pos; [|assumption]. left. apply Rinv_0_lt_compat. auto. }
    eapply Rlt_le_trans; [|apply (rsum_ge_term n _ k Hk Hterm)].
    change (psd o k) with (coupled_psd ac p k). rewrite rdivp_coupled.
    replace (ac && (k =? 0)%nat)%bool with false by (destruct ac; [symmetry; now apply Nat.eqb_neq|reflexivity]).
    apply Rmult_lt_0_compat; [apply Rinv_0_lt_compat; auto|]. apply Rmult_lt_0_compat.
    - assert (fftfreq n fs0 k <> 0).
      { unfold fftfreq. assert (INR n <> 0) by (apply INR_neq0; lia).
        assert (IZR (freqnum n k) <> 0).
        { apply not_0_IZR. unfold freqnum. destruct (Z.ltb_spec (2 * Z.of_nat k) (Z.of_nat n)); lia. }
        unfold Rdiv. repeat apply Rmult_integral_contrapositive_currified; auto. now apply Rinv_neq_0_compat. }
      assert (HPI := PI_RGT_0). assert (0 < (2 * PI) ^ 2) by (apply pow_lt; lra).
      assert (0 < fftfreq n fs0 k ^ 2) by nra. rewrite Rpow_mult_distr. now apply Rmult_lt_0_compat.
    - apply cn2_pos. subst o. rewrite s_F by exact Hfit. apply Cmult_neq_0; [apply RtoC_neq, Rinv_neq_0_compat; exact Hf0|].
      unfold used_template. destruct inorm eqn:Ei; [|exact Hne].
      rewrite F_scale. apply Cmult_neq_0; [|exact Hne]. apply RtoC_neq.
      assert (rsum n template <> 0) by (apply Hfit; reflexivity).
      unfold Rdiv. apply Rmult_integral_contrapositive_currified; [lra|]. now apply Rinv_neq_0_compat.
  Qed.

  Lemma timeres_curv : exists sg, snd (time_resolution A o) = Ok sg /\ 0 < sg /\ low_curv 0 = 2 / sg ^ 2.
  Proof.
    exists (1 / sqrt curv_sum). split; [exact timeres_eq|]. assert (P := curv_sum_pos).
    assert (Q := sqrt_lt_R0 _ P). split; [apply Rdiv_lt_0_compat; lra|]. rewrite low_curv_0.
    replace (2 / (1 / sqrt curv_sum) ^ 2) with (2 * (sqrt curv_sum * sqrt curv_sum)) by (field; lra).
    rewrite sqrt_sqrt by lra. reflexivity.
  Qed.
End TimeRes.

(** ** Interpolation at the last bin *)
Section Interp.
  Variables (n : nat) (signal template p : nat -> R) (fs0 : R) (ac inorm : bool).
  Hypothesis Hfit : fit_problem n template p fs0 ac inorm.
  Let Hn : (0 < n)%nat. Proof. apply Hfit. Qed.

  Lemma last_bin_error :
    snd (ofamp_withdelay (mkArgs (Some 1%Z) false 0 (Z.of_nat n - 1 - Z.of_nat n / 2) true)
          (of_init n signal template p fs0 ac inorm)) = Err IndexError.
  Proof.
    rewrite (withdelay_unfold n signal template p fs0 ac inorm Hfit). cbn [nconstrain outside direction wcenter interp_t0].
    set (wc := (Z.of_nat n - 1 - Z.of_nat n / 2)%Z).
    assert (Hc : valid_center (Z.of_nat n) wc) by (unfold valid_center, wc; lia).
    assert (Hv : valid_args n (Some 1%Z) 0 wc).
    { split; [lia|]. split; [exact Hc|]. intros k [= <-]. lia. }
    assert (G := search_spec n (fun i => scan_amp n signal template p fs0 ac inorm (Z.of_nat i))
                   (fun i => scan_chi n signal template p fs0 ac inorm (Z.of_nat i)) (Some 1%Z) false 0 wc Hv).
    cbn zeta in G. destruct G as [[_ G]|(j & -> & [Hj _])].
    - exfalso. apply (G (Z.of_nat n / 2 + wc)%Z).
      destruct (proj2 (window_one n template p fs0 ac inorm Hfit wc _ Hc) eq_refl) as (K1 & K2 & _).
      split; [exact K1|]. split; [exact K2|]. now left.
    - assert (Ej : j = (Z.of_nat n / 2 + wc)%Z).
      { destruct Hj as (K1 & K2 & _). apply (window_one n template p fs0 ac inorm Hfit wc j Hc). exact (conj K1 (conj K2 I)). }
      cbn [bind select_best]. unfold interpolate_of.
      replace j with (Z.of_nat (length (mk n (fun i => scan_chi n signal template p fs0 ac inorm (Z.of_nat i)))) - 1)%Z
        by (rewrite mk_length, Ej; unfold wc; lia).
      rewrite parabola_last. reflexivity.
  Qed.
End Interp.
