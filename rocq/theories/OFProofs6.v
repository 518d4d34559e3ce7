(** * Optimum filters: consequences for single-pulse fits *)
From Verif Require Import Base UtilsModel Dft WindowModel WindowSpec WindowProofs OFModel OFSpec OFProofs1 OFProofs2.
Local Open Scope R_scope.

Lemma first_minimum_unique f P i j : first_minimum f P i -> first_minimum f P j -> i = j.
Proof.
  intros [Pi Hi] [Pj Hj].
  destruct (Z.lt_trichotomy i j) as [H|[H|H]]; [|exact H|].
  - destruct (Hj i Pi) as [_ K]. destruct (Hi j Pj) as [K' _]. specialize (K H). lra.
  - destruct (Hi j Pj) as [_ K]. destruct (Hj i Pi) as [K' _]. specialize (K H). lra.
Qed.

Lemma wip_scal_r n w x a y : wip n w x (fun i => a * y i) = a * wip n w x y.
Proof.
  unfold wip. rewrite <- rsum_scal_l. apply rsum_ext. intros k _. rewrite F_scale.
  generalize (F n x k) (F n y k). intros X Y. simpl. ring.
Qed.

Section Fits.
  Variables (n : nat) (signal template p : nat -> R) (fs0 : R) (ac inorm : bool).
  Hypothesis Hfit : fit_problem n template p fs0 ac inorm.
  Let T := used_template n fs0 template inorm.
  Let w := bin_weight n fs0 p ac.
  Let o := of_init n signal template p fs0 ac inorm.
  Let N := norm o.
  Let filt := filt n signal template p fs0 ac inorm.
  Let X0 := wchi2 n fs0 p ac signal.
  Let Hn : (0 < n)%nat. Proof. apply Hfit. Qed.
  Let Hf : 0 < fs0. Proof. apply Hfit. Qed.
  Let Hf0 : fs0 <> 0. Proof. lra. Qed.
  Let HN : 0 < N. Proof. apply (norm_pos n signal template p fs0 ac inorm Hfit). Qed.
  Let Hchi a d : wchi2 n fs0 p ac (minus_pulse n signal T a d) = (X0 - filt d ^ 2 * N) + (a - filt d) ^ 2 * N.
  Proof. apply chi2_pulse_min. exact Hfit. Qed.

  Lemma filt_optimal d : optimal_amp n fs0 p ac signal T d (filt d).
  Proof.
    intros b Hb. rewrite !Hchi.
    assert (0 < (b - filt d) ^ 2) by (assert (b - filt d <> 0) by lra; nra).
    assert (0 < (b - filt d) ^ 2 * N) by now apply Rmult_lt_0_compat.
    replace (filt d - filt d) with 0 by ring. nra.
  Qed.

  Lemma chi_at_filt d : wchi2 n fs0 p ac (minus_pulse n signal T (filt d) d) = X0 - filt d ^ 2 * N.
  Proof. rewrite Hchi. ring. Qed.

  Lemma nodelay_spec d : exists a,
    snd (ofamp_nodelay d o) = Ok (a, wchi2 n fs0 p ac (minus_pulse n signal T a d)) /\
    optimal_amp n fs0 p ac signal T d a.
  Proof.
    exists (filt d). split; [|apply filt_optimal]. rewrite chi_at_filt. now apply nodelay_fresh.
  Qed.

  Lemma withdelay_spec a : interp_t0 a = false ->
    valid_args n (nconstrain a) (direction a) (wcenter a) ->
    scan_outcome n fs0 p ac signal T (nconstrain a) (outside a) (direction a) (wcenter a)
      (snd (ofamp_withdelay a o)).
  Proof.
    intros Hi Hv. exists filt. split; [exact filt_optimal|]. cbn zeta.
    destruct (withdelay_fresh n signal template p fs0 ac inorm Hfit a Hi Hv) as [[E Hc]|(j & Hj & E)].
    - left. split; [exact Hc|exact E].
    - right. exists j. split.
      + destruct Hj as [H1 H2]. split; [exact H1|]. intros i Hi'. rewrite !chi_at_filt. exact (H2 i Hi').
      + rewrite chi_at_filt. exact E.
  Qed.

  (** The unconstrained scan is a global minimum. *)
  Lemma scan_global out : exists a j,
    (0 <= j < Z.of_nat n)%Z /\
    snd (ofamp_withdelay (mkArgs None out 0 0 false) o) =
      Ok (a, IZR (delay n j) / fs0, wchi2 n fs0 p ac (minus_pulse n signal T a (delay n j))) /\
    forall a' d', wchi2 n fs0 p ac (minus_pulse n signal T a (delay n j))
                  <= wchi2 n fs0 p ac (minus_pulse n signal T a' d').
  Proof.
    assert (Hv : valid_args n None 0 0).
    { split; [lia|]. split; [|discriminate]. unfold valid_center.
      assert (0 <= Z.of_nat n / 2)%Z by (apply Z.div_pos; lia).
      assert (Z.of_nat n / 2 < Z.of_nat n)%Z by (apply Z.div_lt; lia). lia. }
    destruct (withdelay_fresh n signal template p fs0 ac inorm Hfit (mkArgs None out 0 0 false) eq_refl Hv)
      as [[E Hc]|(j & Hj & E)]; cbn [nconstrain outside direction wcenter] in *.
    - exfalso. apply (Hc 0%Z). split; [lia|]. split; [exact I|]. now left.
    - destruct Hj as [(Hj & _) Hmin]. exists (filt (delay n j)), j. split; [exact Hj|].
      split; [rewrite chi_at_filt; exact E|]. intros a' d'. rewrite chi_at_filt.
      set (i := ((d' + Z.of_nat n / 2) mod Z.of_nat n)%Z).
      assert (Hir : (0 <= i < Z.of_nat n)%Z) by (apply Z.mod_pos_bound; lia).
      assert (Ei : filt (delay n i) = filt d').
      { unfold filt. rewrite <- (filt_mod n signal template p fs0 ac inorm (delay n i)),
          <- (filt_mod n signal template p fs0 ac inorm d'). f_equal. unfold delay, i.
        rewrite Zminus_mod_idemp_l. f_equal. lia. }
      destruct (Hmin i) as [K _]. { split; [lia|]. split; [exact I|]. now left. }
      rewrite Hchi.
      apply Rle_trans with (X0 - filt d' ^ 2 * N).
      + rewrite <- Ei. exact K.
      + assert (0 <= (a' - filt d') ^ 2 * N) by (apply Rmult_le_pos; [apply pow2_ge_0|lra]). lra.
  Qed.

  (** A window of one bin: the delay scan is the fit without delay. *)
  Lemma window_one wc j : valid_center (Z.of_nat n) wc ->
    allowed (Z.of_nat n) (Some 1%Z) false (fun _ => True) wc j <-> j = (Z.of_nat n / 2 + wc)%Z.
  Proof.
    unfold valid_center, allowed, in_window. intros H. rewrite Z.min_l by lia.
    change (1 / 2)%Z with 0%Z. split; [intros (A & B & _); lia|]. intros ->. repeat split; lia.
  Qed.

  Lemma scan_single wc : valid_center (Z.of_nat n) wc -> exists a c,
    snd (ofamp_nodelay wc o) = Ok (a, c) /\
    snd (ofamp_withdelay (mkArgs (Some 1%Z) false 0 wc false) o) = Ok (a, IZR wc / fs0, c).
  Proof.
    intros Hc. exists (filt wc), (X0 - filt wc ^ 2 * N). split; [now apply nodelay_fresh|].
    assert (Hv : valid_args n (Some 1%Z) 0 wc).
    { split; [lia|]. split; [exact Hc|]. intros k [= <-]. lia. }
    destruct (withdelay_fresh n signal template p fs0 ac inorm Hfit (mkArgs (Some 1%Z) false 0 wc false) eq_refl Hv)
      as [[E Hn']|(j & [Hj _] & E)]; cbn [nconstrain outside direction wcenter] in *.
    - exfalso. apply (Hn' (Z.of_nat n / 2 + wc)%Z). destruct (proj2 (window_one wc _ Hc) eq_refl) as (A & B & _).
      split; [exact A|]. split; [exact B|]. now left.
    - assert (Ej : j = (Z.of_nat n / 2 + wc)%Z).
      { destruct Hj as (A & B & _). apply (window_one wc j Hc). split; [exact A|]. split; [exact B|exact I]. }
      unfold o; rewrite E. unfold scan_chi, scan_amp. rewrite Ej.
      replace (Z.of_nat n / 2 + wc - Z.of_nat n / 2)%Z with wc by lia. reflexivity.
  Qed.

  (** Bounds *)
  Lemma chi_bounds d : 0 <= X0 - filt d ^ 2 * N <= X0.
  Proof.
    split.
    - rewrite <- chi_at_filt. apply wchi2_nonneg; [exact Hn|exact Hf|apply Hfit].
    - assert (0 <= filt d ^ 2 * N) by (apply Rmult_le_pos; [apply pow2_ge_0|lra]). lra.
  Qed.

  Lemma withdelay_bounds a amp t c : interp_t0 a = false -> snd (ofamp_withdelay a o) = Ok (amp, t, c) ->
    0 <= c <= X0.
  Proof.
    intros Hi H.
    assert (Hv : valid_args n (nconstrain a) (direction a) (wcenter a) \/ ~ valid_args n (nconstrain a) (direction a) (wcenter a)).
    { unfold valid_args, valid_center. 
      assert ((direction a = -1 \/ direction a = 0 \/ direction a = 1)%Z \/ ~ (direction a = -1 \/ direction a = 0 \/ direction a = 1)%Z) by lia.
      assert ((0 <= Z.of_nat n / 2 + wcenter a < Z.of_nat n)%Z \/ ~ (0 <= Z.of_nat n / 2 + wcenter a < Z.of_nat n)%Z) by lia.
      destruct (nconstrain a) as [k|].
      - destruct (Z_lt_le_dec 0 k).
        + assert (forall k0, Some k = Some k0 -> (0 < k0)%Z) by (intros k0 [= <-]; exact l). tauto.
        + right. intros (_ & _ & K). specialize (K k eq_refl). lia.
      - assert (forall k, None = Some k -> (0 < k)%Z) by discriminate. tauto. }
    destruct Hv as [Hv|Hv].
    - destruct (withdelay_fresh n signal template p fs0 ac inorm Hfit a Hi Hv) as [[E _]|(j & _ & E)];
        unfold o in H; rewrite E in H; injection H as <- <- <-.
      + split; [|apply Rle_refl]. apply wchi2_nonneg; [exact Hn|exact Hf|apply Hfit].
      + apply chi_bounds.
    - unfold o in H; rewrite (withdelay_errors n signal template p fs0 ac inorm Hfit a Hv) in H. discriminate.
  Qed.

  (** Resolution: one sigma away the chi-square has grown by 1. *)
  Lemma resolution d a c s : snd (ofamp_nodelay d o) = Ok (a, c) -> s = energy_resolution o \/ s = - energy_resolution o ->
    wchi2 n fs0 p ac (minus_pulse n signal T (a + s) d) = c + 1.
  Proof.
    intros H Hs. unfold o in H. rewrite nodelay_fresh in H by exact Hfit. injection H as <- <-. fold filt.
    rewrite Hchi. replace (filt d + s - filt d) with s by ring.
    assert (E : s ^ 2 * N = 1).
    { assert (s ^ 2 = energy_resolution o ^ 2) as -> by (destruct Hs as [-> | ->]; ring).
      unfold energy_resolution. fold N. assert (Q := sqrt_lt_R0 N HN).
      replace N with (sqrt N * sqrt N) at 2 by (apply sqrt_sqrt; lra). field. lra. }
    rewrite E. reflexivity.
  Qed.

  (** ** Exact pulses *)
  Variables (A : R) (d : Z).
  Hypothesis Hpulse : forall i, (i < n)%nat -> signal i = A * roll n d T i.

  Lemma pulse_filt : filt d = A.
  Proof.
    unfold filt, OFProofs2.filt. fold T w o N.
    rewrite (wip_ext n w _ (roll n d T) signal (fun i => A * roll n d T i)); [|reflexivity|exact Hpulse].
    rewrite wip_scal_r.
    assert (E := N_roll n signal template p fs0 ac inorm Hfit d).
    change (wip n w (roll n d T) (roll n d T) = N) in E. rewrite E. field. lra.
  Qed.

  Lemma pulse_chi : X0 - filt d ^ 2 * N = 0.
  Proof.
    rewrite <- chi_at_filt. rewrite pulse_filt, wchi2_wip.
    rewrite (wip_ext n _ _ (fun _ => 0) _ (fun _ => 0)).
    - unfold wip. rewrite (rsum_ext n _ (fun _ => 0)); [apply rsum_zero; reflexivity|]. intros k _.
      replace (F n (fun _ : nat => 0) k) with (RtoC 0); [simpl; ring|]. symmetry.
      unfold F. rewrite (dft_ext n _ (fun j => (RtoC 0 * RtoC 0)%C)) by (intros; ceq). rewrite dft_scal. ring.
    - intros i Hi. unfold minus_pulse. rewrite Hpulse by exact Hi. ring.
    - intros i Hi. unfold minus_pulse. rewrite Hpulse by exact Hi. ring.
  Qed.

  Lemma pulse_nodelay : snd (ofamp_nodelay d o) = Ok (A, 0).
  Proof. unfold o. rewrite nodelay_fresh by exact Hfit. fold filt X0 o N. now rewrite pulse_chi, pulse_filt. Qed.

  Lemma pulse_scan a : interp_t0 a = false ->
    valid_args n (nconstrain a) (direction a) (wcenter a) ->
    (exists j, delay n j = d /\ allowed (Z.of_nat n) (nconstrain a) (outside a) (fun _ => direction_ok (direction a) A) (wcenter a) j) ->
    exists amp t, snd (ofamp_withdelay a o) = Ok (amp, t, 0) /\ (amp = A \/ amp = - A) /\
      (direction_ok (direction a) amp).
  Proof.
    intros Hi Hv (j & Hj & Hall).
    destruct (withdelay_fresh n signal template p fs0 ac inorm Hfit a Hi Hv) as [[E Hc]|(i & [Hi1 Hi2] & E)].
    - exfalso. apply (Hc j). destruct Hall as (H1 & H2 & H3). split; [exact H1|]. split; [exact H2|].
      unfold scan_amp. fold (delay n j). rewrite Hj. fold filt. rewrite pulse_filt. exact H3.
    - exists (filt (delay n i)), (IZR (delay n i) / fs0).
      assert (EX : X0 = A ^ 2 * N) by (generalize pulse_chi; rewrite pulse_filt; lra).
      assert (Ec : X0 - filt (delay n i) ^ 2 * N = 0).
      { destruct (Hi2 j) as [K _].
        - destruct Hall as (H1 & H2 & H3). split; [exact H1|]. split; [exact H2|].
          unfold scan_amp. fold (delay n j). rewrite Hj. fold filt. rewrite pulse_filt. exact H3.
        - unfold scan_chi, scan_amp in K. fold (delay n i) (delay n j) filt o N X0 in K.
          change (X0 - filt (delay n i) ^ 2 * N <= X0 - filt (delay n j) ^ 2 * N) in K.
          rewrite Hj, pulse_chi in K. generalize (chi_bounds (delay n i)). lra. }
      split; [|split].
      + unfold o; rewrite E. unfold scan_chi, scan_amp. fold (delay n i).
        change (OFProofs2.filt n signal template p fs0 ac inorm (delay n i)) with (filt (delay n i)).
        change (Ok (filt (delay n i), IZR (delay n i) / fs0, X0 - filt (delay n i) ^ 2 * N) = Ok (filt (delay n i), IZR (delay n i) / fs0, 0)).
        now rewrite Ec.
      + assert (K : (filt (delay n i) - A) * (filt (delay n i) + A) = 0).
        { apply (Rmult_eq_reg_r N); [|lra]. rewrite Rmult_0_l. rewrite EX in Ec. lra. }
        apply Rmult_integral in K. destruct K; [left|right]; lra.
      + destruct Hi1 as (_ & _ & K). exact K.
  Qed.
End Fits.

(** ** Linearity *)
Section Linear.
  Variables (n : nat) (template p : nat -> R) (fs0 : R) (ac inorm : bool).
  Hypothesis Hfit : fit_problem n template p fs0 ac inorm.
  Let fl x := filt n x template p fs0 ac inorm.
  Let N x := norm (of_init n x template p fs0 ac inorm).

  Lemma filt_lin x y c d : fl (fun i => x i + c * y i) d = fl x d + c * fl y d.
  Proof.
    unfold fl, filt. rewrite wip_lin_r.
    change (norm (of_init n (fun i => x i + c * y i) template p fs0 ac inorm)) with (N x).
    change (norm (of_init n y template p fs0 ac inorm)) with (N x).
    unfold Rdiv. fold (N x). ring.
  Qed.

  Lemma filt_ext x y d : (forall i, (i < n)%nat -> x i = y i) -> fl x d = fl y d.
  Proof. intros H. unfold fl, filt. f_equal. now apply wip_ext. Qed.

  Lemma wchi2_scal x c : wchi2 n fs0 p ac (fun i => c * x i) = c ^ 2 * wchi2 n fs0 p ac x.
  Proof.
    unfold wchi2. rewrite <- rsum_scal_l. apply rsum_ext. intros k _.
    fold (F n (fun i => c * x i) k) (F n x k). rewrite F_scale, cn2_scal. ring.
  Qed.

  Lemma filt_scal x c d : fl (fun i => c * x i) d = c * fl x d.
  Proof.
    rewrite (filt_ext _ (fun i => x i + (c - 1) * x i)) by (intros; ring). rewrite filt_lin. ring.
  Qed.

  Lemma nodelay_linear x y c d ax cx ay cy :
    snd (ofamp_nodelay d (of_init n x template p fs0 ac inorm)) = Ok (ax, cx) ->
    snd (ofamp_nodelay d (of_init n y template p fs0 ac inorm)) = Ok (ay, cy) ->
    exists c', snd (ofamp_nodelay d (of_init n (fun i => x i + c * y i) template p fs0 ac inorm)) = Ok (ax + c * ay, c').
  Proof.
    rewrite !nodelay_fresh by exact Hfit. intros [= <- <-] [= <- <-]. eexists. f_equal. f_equal. apply filt_lin.
  Qed.

  Lemma nodelay_scal x c d ax cx :
    snd (ofamp_nodelay d (of_init n x template p fs0 ac inorm)) = Ok (ax, cx) ->
    snd (ofamp_nodelay d (of_init n (fun i => c * x i) template p fs0 ac inorm)) = Ok (c * ax, c ^ 2 * cx).
  Proof.
    rewrite !nodelay_fresh by exact Hfit. intros H.
    assert (H1 := f_equal (fun r => match r with Ok u => fst u | _ => 0 end) H). cbn [fst] in H1.
    assert (H2 := f_equal (fun r => match r with Ok u => snd u | _ => 0 end) H). cbn [snd] in H2.
    rewrite <- H1, <- H2, wchi2_scal.
    change (filt n (fun i => c * x i) template p fs0 ac inorm d) with (fl (fun i => c * x i) d).
    rewrite filt_scal. change (filt n x template p fs0 ac inorm d) with (fl x d). f_equal. f_equal.
    change (norm (of_init n (fun i => c * x i) template p fs0 ac inorm)) with (N x).
    change (norm (of_init n x template p fs0 ac inorm)) with (N x). generalize (N x). intros M. ring.
  Qed.

  Lemma withdelay_scal x c a : interp_t0 a = false ->
    valid_args n (nconstrain a) (direction a) (wcenter a) ->
    0 < c \/ (c <> 0 /\ direction a = 0%Z) ->
    exists ax tx cx,
    snd (ofamp_withdelay a (of_init n x template p fs0 ac inorm)) = Ok (ax, tx, cx) /\
    snd (ofamp_withdelay a (of_init n (fun i => c * x i) template p fs0 ac inorm)) = Ok (c * ax, tx, c ^ 2 * cx).
  Proof.
    intros Hi Hv Hc.
    assert (Hc0 : 0 < c ^ 2) by (assert (c <> 0) by (destruct Hc as [|[? _]]; lra); nra).
    assert (EA : forall j, scan_amp n (fun i => c * x i) template p fs0 ac inorm j = c * scan_amp n x template p fs0 ac inorm j)
      by (intros j; apply filt_scal).
    assert (EX : forall j, scan_chi n (fun i => c * x i) template p fs0 ac inorm j = c ^ 2 * scan_chi n x template p fs0 ac inorm j).
    { intros j. unfold scan_chi. rewrite EA, wchi2_scal.
      change (norm (of_init n (fun i => c * x i) template p fs0 ac inorm)) with (N x). fold (N x). ring. }
    assert (Ecand : forall j,
      candidate n (nconstrain a) (outside a) (direction a) (wcenter a) (scan_amp n (fun i => c * x i) template p fs0 ac inorm) j
      <-> candidate n (nconstrain a) (outside a) (direction a) (wcenter a) (scan_amp n x template p fs0 ac inorm) j).
    { intros j. apply allowed_ext. intros i _. rewrite EA. unfold direction_ok.
      destruct Hc as [Hc|[_ ->]]; [|split; intros; left; reflexivity].
      split; (intros [E|[[E K]|[E K]]]; [left|right; left|right; right]; auto; split; auto; nra). }
    destruct (withdelay_fresh n x template p fs0 ac inorm Hfit a Hi Hv) as [[E1 H1]|(j & H1 & E1)];
    destruct (withdelay_fresh n (fun i => c * x i) template p fs0 ac inorm Hfit a Hi Hv) as [[E2 H2]|(j' & H2 & E2)].
    - do 3 eexists. split; [exact E1|]. rewrite E2, wchi2_scal. f_equal. f_equal. f_equal. ring.
    - exfalso. apply (H1 j'). apply Ecand. apply H2.
    - exfalso. apply (H2 j). apply Ecand. apply H1.
    - assert (j' = j) as ->.
      { eapply first_minimum_unique; [|exact H1].
        destruct H2 as [K1 K2]. split; [now apply Ecand|]. intros i Hi'. apply Ecand in Hi'.
        destruct (K2 i Hi') as [K3 K4]. rewrite !EX in K3, K4. split.
        - now apply Rmult_le_reg_l in K3.
        - intros Hlt. specialize (K4 Hlt). now apply Rmult_lt_reg_l in K4. }
      do 3 eexists. split; [exact E1|]. rewrite E2, EA, EX. reflexivity.
  Qed.
End Linear.
