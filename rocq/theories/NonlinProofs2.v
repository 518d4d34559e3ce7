(** * Frequency-domain pulse shapes; residuals and chi2 *)
From Coq Require Import Reals ZArith List Bool Lia Lra.
From Verif Require Import Base ListLemmas Dft UtilsModel UtilsSpec UtilsProofs1 WindowModel CutModel OFModel NonlinModel NonlinSpec NonlinProofs1.
From Coquelicot Require Import Complex RInt Lim_seq Rbar Continuity Hierarchy Derive.
Import ListNotations.
Local Open Scope R_scope.

Lemma one_plus_nz x : (1 + RtoC x * Ci)%C <> 0%C.
Proof.
  intros E. apply (f_equal fst) in E. unfold Cplus, Cmult, RtoC, Ci in E. simpl in E. lra.
Qed.

Lemma pole_diff c tr tf w :
  (RtoC (c * (tf - tr)) / (1 + RtoC (w * tf) * Ci) / (1 + RtoC (w * tr) * Ci))%C
  = (RtoC c * pole tf w - RtoC c * pole tr w)%C.
Proof.
  unfold pole. rewrite !RtoC_mult, !RtoC_minus.
  assert (H1 := one_plus_nz (w * tf)). assert (H2 := one_plus_nz (w * tr)).
  rewrite !RtoC_mult in H1, H2. field. split; assumption.
Qed.

Lemma fourier_two c tr tf w : 0 < tr -> 0 < tf ->
  fourier (fun t => c * (exp (- t / tf) - exp (- t / tr))) w (RtoC c * pole tf w - RtoC c * pole tr w)%C.
Proof.
  intros Hr Hf.
  replace (RtoC c * pole tf w - RtoC c * pole tr w)%C with (RtoC c * pole tf w + RtoC (- c) * pole tr w)%C.
  2: { rewrite RtoC_opp. ring. }
  eapply fourier_ext; [|apply fourier_lin; [apply (fourier_pole tf); exact Hf|apply (fourier_pole tr); exact Hr]].
  intros t. simpl. ring.
Qed.

Lemma improper_unique f l m : improper f l -> improper f m -> l = m.
Proof.
  intros (F & F1 & F2) (G & G1 & G2).
  assert (E : forall T, F T = G T).
  { intros T. rewrite <- (is_RInt_unique _ _ _ _ (F1 T)). apply (is_RInt_unique _ _ _ _ (G1 T)). }
  assert (U := is_lim_unique _ _ _ F2).
  assert (V := is_lim_unique _ _ _ (is_lim_ext _ _ _ _ (fun t => eq_sym (E t)) G2)).
  rewrite U in V. now injection V.
Qed.
Lemma fourier_unique f w y z : fourier f w y -> fourier f w z -> y = z.
Proof.
  intros (A1 & A2) (B1 & B2). rewrite (surjective_pairing y), (surjective_pairing z).
  f_equal; eapply improper_unique; eassumption.
Qed.

Lemma shape_at_inj n fs t0 k y z : 0 < fs -> (0 < n)%nat -> shape_at n fs t0 k y = shape_at n fs t0 k z -> y = z.
Proof.
  intros Hf Hn E. unfold shape_at in E.
  assert (S : 0 < sqrt (fs / INR n)) by (apply sqrt_lt_R0, Rdiv_lt_0_compat; [exact Hf|now apply lt_0_INR]).
  set (c := cis _) in E. set (s := sqrt _) in *.
  assert (N1 : RtoC s <> 0%C) by (intros X; apply RtoC_inj in X; lra).
  assert (N2 : c <> 0%C).
  { intros X. unfold c, cis in X. assert (P := sin2_cos2 (- (2 * PI * fftfreq n fs k * t0))).
    apply (f_equal (fun z : C => (fst z, snd z))) in X. cbn [fst snd] in X. injection X as X1 X2. rewrite X1, X2 in P.
    unfold Rsqr in P. lra. }
  apply (f_equal (fun v => (v / RtoC s / c)%C)) in E.
  replace (y * c * RtoC s / RtoC s / c)%C with y in E by (field; now split).
  replace (z * c * RtoC s / RtoC s / c)%C with z in E by (field; now split).
  exact E.
Qed.

Lemma scaled_twopole n fs A tr tf t0 : 0 < tr -> 0 < tf -> tr <> tf ->
  exists c out f, twopoletime n fs true A tr tf t0 = Ok (Some out) /\ twopole n fs true A tr tf t0 = Some f /\
    has_peak (fun t => c * (exp (- t / tf) - exp (- t / tr))) A /\
    is_shift_of (mk n (fun k => c * (exp (- (INR k / fs) / tf) - exp (- (INR k / fs) / tr)))) (int_trunc (t0 * fs)) 0 out /\
    (tr < tf -> forall k, exists z, fourier (fun t => c * (exp (- t / tf) - exp (- t / tr))) (2 * PI * fftfreq n fs k) z /\
                                    f k = shape_at n fs t0 k z) /\
    (tf < tr -> forall k, exists z, fourier (fun t => c * (exp (- t / tf) - exp (- t / tr))) (2 * PI * fftfreq n fs k) z /\
                                    f k = shape_at n fs t0 k (- z)%C).
Proof.
  intros Hr Hf N.
  destruct (twopoletime_ok n fs A tr tf t0 Hr Hf N) as (c0 & out & E & _ & _).
  assert (N' : / tf <> / tr).
  { intros X. apply N. apply (f_equal Rinv) in X. rewrite !Rinv_inv in X. now symmetry. }
  assert (Hr' := Rinv_0_lt_compat _ Hr). assert (Hf' := Rinv_0_lt_compat _ Hf).
  destruct (ediff_peak (/ tf) (/ tr) A Hf' Hr' N') as [(u & U1 & U2) _].
  exists (A / ediff (/ tf) (/ tr) (tpeak (/ tf) (/ tr))). exists out.
  unfold twopole. rewrite (scaled_amp_ok A tr tf Hr Hf N).
  unfold twopoletime in E |- *. rewrite (scaled_amp_ok A tr tf Hr Hf N) in E |- *.
  set (c := A / ediff (/ tf) (/ tr) (tpeak (/ tf) (/ tr))) in *.
  eexists. split; [exact E|]. split; [reflexivity|]. split; [|split; [|split]].
  - exists u. split; [|exact U2]. intros t. rewrite <- U1. unfold ediff. now rewrite !tau_exp.
  - destruct (shift_correct (map (fun t => c * (exp (- t / tf) - exp (- t / tr))) (nl_time n fs)) (int_trunc (t0 * fs)) 0)
      as (out' & E' & S). rewrite E' in E. simpl in E.
    assert (out' = out) by (now injection E). subst out'. unfold nl_time, mk in S. rewrite map_map in S. exact S.
  - intros L k. eexists. split; [apply fourier_two; assumption|].
    rewrite Rabs_left by lra. unfold shape_at, delay_phase, sqrt_df. fold (omega n fs k).
    f_equal. f_equal. rewrite <- pole_diff. do 2 f_equal. f_equal. f_equal. ring.
  - intros L k. eexists. split; [apply fourier_two; assumption|].
    rewrite Rabs_right by lra. unfold shape_at, delay_phase, sqrt_df. fold (omega n fs k).
    f_equal. f_equal. rewrite <- pole_diff.
    replace (c * (tr - tf)) with (- (c * (tf - tr))) by ring. rewrite RtoC_opp. unfold Cdiv. ring.
Qed.

(** The value of the wrong sign really differs. *)
Lemma scaled_twopole_wrong n fs A tr tf t0 : 0 < tf -> tf < tr -> A <> 0 -> 0 < fs -> (0 < n)%nat ->
  exists c out f, twopoletime n fs true A tr tf t0 = Ok (Some out) /\ twopole n fs true A tr tf t0 = Some f /\
    has_peak (fun t => c * (exp (- t / tf) - exp (- t / tr))) A /\
    is_shift_of (mk n (fun k => c * (exp (- (INR k / fs) / tf) - exp (- (INR k / fs) / tr)))) (int_trunc (t0 * fs)) 0 out /\
    forall k z, fourier (fun t => c * (exp (- t / tf) - exp (- t / tr))) (2 * PI * fftfreq n fs k) z ->
                f k = shape_at n fs t0 k (- z)%C /\ f k <> shape_at n fs t0 k z.
Proof.
  intros Hf L HA Hfs Hn.
  destruct (scaled_twopole n fs A tr tf t0 ltac:(lra) Hf ltac:(lra)) as (c & out & f & E1 & E2 & P & S & _ & W).
  exists c, out, f. repeat (split; [assumption|]). intros k z Z.
  destruct (W L k) as (z' & Z' & Ek). assert (z' = z) by (eapply fourier_unique; eassumption). subst z'.
  split; [exact Ek|]. rewrite Ek. intros X. apply shape_at_inj in X; [|assumption|assumption].
  assert (Nz : z <> 0%C).
  { assert (F := fourier_two c tr tf (2 * PI * fftfreq n fs k) ltac:(lra) Hf).
    rewrite (fourier_unique _ _ _ _ Z F), <- pole_diff. intros Y.
    assert (Cn : c <> 0).
    { destruct P as (u & U1 & _ & t & _ & Ut). specialize (U1 t). rewrite Ut in U1. intros ->. lra. }
    assert (H1 := one_plus_nz (2 * PI * fftfreq n fs k * tf)). assert (H2 := one_plus_nz (2 * PI * fftfreq n fs k * tr)).
    apply (f_equal (fun v => (v * (1 + RtoC (2 * PI * fftfreq n fs k * tr) * Ci) * (1 + RtoC (2 * PI * fftfreq n fs k * tf) * Ci))%C)) in Y.
    revert Y H1 H2. generalize (1 + RtoC (2 * PI * fftfreq n fs k * tr) * Ci)%C, (1 + RtoC (2 * PI * fftfreq n fs k * tf) * Ci)%C.
    intros p q Y Hq Hp. replace (RtoC (c * (tf - tr)) / q / p * p * q)%C with (RtoC (c * (tf - tr))) in Y by (field; now split).
    rewrite !Cmult_0_l in Y. apply RtoC_inj in Y. apply Rmult_integral in Y. destruct Y; [contradiction|lra]. }
  apply Nz. destruct z as [x y]. unfold Copp in X. simpl in X.
  assert (X1 := f_equal fst X). assert (X2 := f_equal snd X). simpl in X1, X2. unfold RtoC. f_equal; lra.
Qed.

(** ** Unscaled shapes *)
Lemma fourpole_fourier n fs A B D tr t1 t2 t3 t0 : 0 < tr -> 0 < t1 -> 0 < t2 -> 0 < t3 ->
  let p t := A * exp (- t / t1) + B * exp (- t / t2) + D * exp (- t / t3) - (A + B + D) * exp (- t / tr) in
  (exists out, fourpoletime n fs A B D tr t1 t2 t3 t0 = Ok out /\
               is_shift_of (mk n (fun k => p (INR k / fs))) (int_trunc (t0 * fs)) 0 out) /\
  p 0 = 0 /\
  forall k, exists z, fourier p (2 * PI * fftfreq n fs k) z /\
                      fourpole n fs A B D tr t1 t2 t3 t0 k = shape_at n fs t0 k z.
Proof.
  intros Hr H1 H2 H3 p. split; [|split].
  - unfold fourpoletime. destruct (shift_correct (map p (nl_time n fs)) (int_trunc (t0 * fs)) 0) as (out & E & S).
    exists out. split; [exact E|]. unfold nl_time, mk in S. rewrite map_map in S. exact S.
  - unfold p. assert (Z : forall x, - 0 / x = 0) by (intros x; unfold Rdiv; ring). rewrite !Z, exp_0. ring.
  - intros k. eexists. split.
    + eapply fourier_ext;
        [|exact (fourier_lin _ _ _ _ _ 1 1
           (fourier_lin _ _ _ _ _ A B (fourier_pole t1 _ H1) (fourier_pole t2 _ H2))
           (fourier_lin _ _ _ _ _ D (- (A + B + D)) (fourier_pole t3 _ H3) (fourier_pole tr _ Hr)))].
      intros t. unfold p. simpl. ring.
    + unfold fourpole, shape_at, delay_phase, sqrt_df. fold (omega n fs k). f_equal. f_equal.
      rewrite RtoC_opp. ring.
Qed.
Lemma threepole_fourier n fs A B tr t1 t2 t0 : 0 < tr -> 0 < t1 -> 0 < t2 ->
  let p t := A * exp (- t / t1) + B * exp (- t / t2) - (A + B) * exp (- t / tr) in
  (exists out, threepoletime n fs A B tr t1 t2 t0 = Ok out /\
               is_shift_of (mk n (fun k => p (INR k / fs))) (int_trunc (t0 * fs)) 0 out) /\
  p 0 = 0 /\
  forall k, exists z, fourier p (2 * PI * fftfreq n fs k) z /\
                      threepole n fs A B tr t1 t2 t0 k = shape_at n fs t0 k z.
Proof.
  intros Hr H1 H2 p. split; [|split].
  - unfold threepoletime. destruct (shift_correct (map p (nl_time n fs)) (int_trunc (t0 * fs)) 0) as (out & E & S).
    exists out. split; [exact E|]. unfold nl_time, mk in S. rewrite map_map in S. exact S.
  - unfold p. assert (Z : forall x, - 0 / x = 0) by (intros x; unfold Rdiv; ring). rewrite !Z, exp_0. ring.
  - intros k. eexists. split.
    + eapply fourier_ext;
        [|exact (fourier_lin _ _ _ _ _ 1 (- (A + B))
           (fourier_lin _ _ _ _ _ A B (fourier_pole t1 _ H1) (fourier_pole t2 _ H2))
           (fourier_pole tr _ Hr))].
      intros t. unfold p. simpl. ring.
    + unfold threepole, shape_at, delay_phase, sqrt_df. fold (omega n fs k). f_equal. f_equal.
      rewrite RtoC_opp. ring.
Qed.
Lemma twopole_fourier n fs A tr tf t0 : 0 < tr -> 0 < tf ->
  let p t := A * exp (- t / tf) - A * exp (- t / tr) in
  (exists out, twopoletime n fs false A tr tf t0 = Ok (Some out) /\
               is_shift_of (mk n (fun k => p (INR k / fs))) (int_trunc (t0 * fs)) 0 out) /\
  p 0 = 0 /\
  exists f, twopole n fs false A tr tf t0 = Some f /\
  forall k, exists z, fourier p (2 * PI * fftfreq n fs k) z /\ f k = shape_at n fs t0 k z.
Proof.
  intros Hr Hf p. split; [|split].
  - unfold twopoletime. destruct (shift_correct (map p (nl_time n fs)) (int_trunc (t0 * fs)) 0) as (out & E & S).
    exists out. fold p. rewrite E. split; [reflexivity|]. unfold nl_time, mk in S. rewrite map_map in S. exact S.
  - unfold p. assert (Z : forall x, - 0 / x = 0) by (intros x; unfold Rdiv; ring). rewrite !Z, exp_0. ring.
  - unfold twopole. eexists. split; [reflexivity|]. intros k. eexists. split.
    + eapply fourier_ext; [|apply (fourier_two A tr tf _ Hr Hf)]. intros t. unfold p. simpl. ring.
    + unfold shape_at, delay_phase, sqrt_df. fold (omega n fs k). reflexivity.
Qed.
Lemma muon_fourier n fs A tau : 0 < tau ->
  forall k, exists z, fourier (fun t => A * exp (- t / tau)) (2 * PI * fftfreq n fs k) z /\
                      muontailfcn n fs A tau k = shape_at n fs 0 k z.
Proof.
  intros H k. eexists. split.
  - eapply fourier_ext; [|exact (fourier_lin _ _ _ _ _ A 0 (fourier_pole tau _ H) (fourier_pole tau _ H))].
    intros t. simpl. ring.
  - unfold muontailfcn, shape_at, sqrt_df. fold (omega n fs k). rewrite Rmult_0_r.
    replace (cis (- 0)) with (RtoC 1). 2: { unfold cis, RtoC. rewrite Ropp_0, cos_0, sin_0. reflexivity. }
    f_equal. unfold pole. rewrite RtoC_mult. unfold Cdiv. ring.
Qed.

(** ** Nesting *)
Lemma fourpole_three n fs A B tr t1 t2 t3 t0 k :
  fourpole n fs A B 0 tr t1 t2 t3 t0 k = threepole n fs A B tr t1 t2 t0 k.
Proof. unfold fourpole, threepole. rewrite Rplus_0_r. ring. Qed.
Lemma threepole_two n fs A tr t1 t2 t0 k f : twopole n fs false A tr t1 t0 = Some f ->
  threepole n fs A 0 tr t1 t2 t0 k = f k.
Proof. intros E. injection E as <-. unfold threepole. rewrite Rplus_0_r. ring. Qed.

(** ** Hermitian symmetry *)
Lemma fftfreq_neg n fs k : (0 < k < n)%nat -> (2 * k <> n)%nat -> fftfreq n fs (n - k) = - fftfreq n fs k.
Proof.
  intros Hk N. unfold fftfreq, freqnum.
  replace (Z.of_nat (n - k)) with (Z.of_nat n - Z.of_nat k)%Z by lia.
  destruct (Z.ltb_spec (2 * (Z.of_nat n - Z.of_nat k)) (Z.of_nat n)), (Z.ltb_spec (2 * Z.of_nat k) (Z.of_nat n)); try lia.
  - replace (Z.of_nat n - Z.of_nat k)%Z with (- (Z.of_nat k - Z.of_nat n))%Z by lia. rewrite opp_IZR. unfold Rdiv. ring.
  - replace (Z.of_nat n - Z.of_nat k - Z.of_nat n)%Z with (- Z.of_nat k)%Z by lia. rewrite opp_IZR. unfold Rdiv. ring.
Qed.
