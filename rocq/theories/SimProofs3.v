(** * Noise sources, equipartition, SQUID noise and the energy resolution formula *)
From Coq Require Import Reals.
From Verif Require Import Base ListLemmas Dft UtilsModel DidvModel SimModel SimSpec SimProofs1 SimProofs2.
From Coquelicot Require Import Coquelicot.
Local Open Scope R_scope.

(** ** Trapezoid rule as a sum *)
Lemma trapz_rsum y : forall x, length y = length x ->
  trapz y x = rsum (length x - 1) (fun k => (nth (S k) x 0 - nth k x 0) * (nth k y 0 + nth (S k) y 0) / 2).
Proof.
  induction y as [|y0 y IH]; intros [|x0 x] L; try discriminate; [reflexivity|].
  destruct y as [|y1 y], x as [|x1 x]; try discriminate; [reflexivity|].
  rewrite trapz_cons, IH by (cbn in *; lia). cbn [length]. rewrite !Nat.sub_succ, !Nat.sub_0_r.
  rewrite rsum_S_first. reflexivity.
Qed.

Lemma eres_formula freqs tau Sp eff e : length Sp = length freqs -> (2 <= length freqs)%nat -> increasing freqs ->
  (forall s, In s Sp -> 0 < s) -> eff <> 0 -> energy_res_estimate freqs tau Sp eff = Ok e ->
  0 < e /\ (e * elementary_charge) ^ 2 *
    rsum (length freqs - 1) (fun k => (nth (S k) freqs 0 - nth k freqs 0) *
      (energy_information eff tau (nth k freqs 0) (nth k Sp 0) +
       energy_information eff tau (nth (S k) freqs 0) (nth (S k) Sp 0)) / 2) = 1.
Proof.
  intros L L2 Hi Hs He E. assert (P := eint_pos freqs tau Sp eff L L2 Hi Hs He). rewrite (eres_ok freqs tau Sp eff L) in E.
  fold (eint freqs tau Sp eff) in E. assert (Ee : e = sqrt (1 / eint freqs tau Sp eff) / const_e) by congruence.
  assert (Ke := const_e_pos). split. { rewrite Ee. apply Rdiv_lt_0_compat; [apply sqrt_lt_R0; apply Rdiv_lt_0_compat; lra|exact Ke]. }
  match goal with |- _ * ?s = 1 => assert (Es : s = eint freqs tau Sp eff) end.
  { unfold eint. rewrite trapz_rsum by (rewrite !map_length, combine_length, map_length, L; lia). rewrite map_length.
    apply rsum_ext. intros k Hk.
    assert (W : forall j, (j < length freqs)%nat -> nth j (map omega_of freqs) 0 = 2 * PI * nth j freqs 0).
    { intros j Hj. rewrite (nth_indep _ 0 (omega_of 0)) by now rewrite map_length. rewrite map_nth. reflexivity. }
    assert (V : forall j, (j < length freqs)%nat ->
      nth j (map (fun p => eres_integrand eff tau (fst p) (snd p)) (combine (map omega_of freqs) Sp)) 0 =
      energy_information eff tau (nth j freqs 0) (nth j Sp 0) / (2 * PI)).
    { intros j Hj. rewrite (nth_indep _ 0 (eres_integrand eff tau (fst (0, 0)) (snd (0, 0)))) by (rewrite map_length, combine_length, map_length; lia).
      rewrite (map_nth (fun p => eres_integrand eff tau (fst p) (snd p))). rewrite combine_nth by now rewrite map_length.
      cbn [fst snd]. rewrite W by assumption. rewrite integrand_eq. unfold energy_information.
      assert (nth j Sp 0 > 0) by (apply Hs, nth_In; lia). assert (0 < PI) by apply PI_RGT_0.
      assert (K := pow2_ge_0 (2 * PI * nth j freqs 0 * tau)). field. repeat split; lra. }
    rewrite !W, !V by lia. assert (0 < PI) by apply PI_RGT_0. field. lra. }
  rewrite Es, Ee. replace (sqrt (1 / eint freqs tau Sp eff) / const_e * elementary_charge) with (sqrt (1 / eint freqs tau Sp eff))
    by (change elementary_charge with const_e; field; lra).
  rewrite pow2_sqrt by (left; apply Rdiv_lt_0_compat; lra). field. lra.
Qed.

(** ** Thermal factor *)
Lemma bernoulli w p : 0 < w -> 1 <= p -> 1 + p * (w - 1) <= Rpower w p.
Proof.
  intros Hw Hp. assert (C := exp_chord (p * ln w) (/ p)).
  assert (I : 0 < / p <= 1). { split; [apply Rinv_0_lt_compat; lra|]. rewrite <- Rinv_1. apply Rinv_le_contravar; lra. }
  specialize (C ltac:(lra)). replace (/ p * (p * ln w)) with (ln w) in C by (field; lra). rewrite exp_ln in C by assumption.
  fold (Rpower w p) in C. apply (Rmult_le_compat_l p) in C; [|lra].
  replace (p * (/ p * Rpower w p + (1 - / p))) with (Rpower w p + p - 1) in C by (field; lra). lra.
Qed.

Lemma ballistic_value tb tc n : 0 < tb <= tc -> 0 < n -> f_tfn tb tc n true = Ok ((Rpower (tb / tc) (n + 1) + 1) / 2).
Proof.
  intros H Hn. unfold f_tfn. rewrite fdiv_ok by lra. cbn [bind]. unfold fpow.
  assert (0 < tb / tc) by (apply Rdiv_lt_0_compat; lra). destruct (Rltb_spec 0 (tb / tc)); [reflexivity|lra].
Qed.
Lemma ballistic_equilibrium tc n : 0 < tc -> 0 < n -> f_tfn tc tc n true = Ok 1.
Proof.
  intros H Hn. rewrite ballistic_value by lra. f_equal. unfold Rdiv at 2. rewrite Rinv_r by lra.
  unfold Rpower. rewrite ln_1, Rmult_0_r, exp_0. field.
Qed.
Lemma ballistic_cold tc n : 0 < tc -> 0 < n -> f_tfn 0 tc n true = Ok (1 / 2).
Proof.
  intros H Hn. unfold f_tfn. rewrite fdiv_ok by lra. cbn [bind]. unfold fpow, Rdiv at 1 2 3. rewrite Rmult_0_l.
  destruct (Rltb_spec 0 0); [lra|]. destruct (Reqb_spec (n + 1) 0); [lra|]. destruct (Rltb_spec 0 (n + 1)); [|lra].
  cbn [bind]. f_equal. field.
Qed.
Lemma diffusive_value tb tc n : 0 < tb < tc -> 0 < n ->
  f_tfn tb tc n false = Ok (n / (2 * n + 1) * ((1 - Rpower (tb / tc) (2 * n + 1)) / (1 - Rpower (tb / tc) n))).
Proof.
  intros H Hn. unfold f_tfn. rewrite (fdiv_ok n) by lra. cbn [bind]. rewrite (fdiv_ok tb) by lra. cbn [bind]. unfold fpow.
  assert (H0 : 0 < tb / tc) by (apply Rdiv_lt_0_compat; lra).
  assert (H1 : tb / tc < 1) by (apply Rmult_lt_reg_r with tc; [lra|]; unfold Rdiv; rewrite Rmult_assoc, Rinv_l; lra).
  destruct (Rltb_spec 0 (tb / tc)); [|lra]. cbn [bind]. assert (K := Rpower_lt1 (tb / tc) n ltac:(lra) ltac:(lra)).
  rewrite fdiv_ok by lra. f_equal. field. split; lra.
Qed.
Lemma diffusive_cold tc n : 0 < tc -> 0 < n -> f_tfn 0 tc n false = Ok (n / (2 * n + 1)).
Proof.
  intros H Hn. unfold f_tfn. rewrite (fdiv_ok n) by lra. cbn [bind]. rewrite (fdiv_ok 0) by lra. cbn [bind].
  replace (0 / tc) with 0 by (unfold Rdiv; now rewrite Rmult_0_l). unfold fpow.
  destruct (Rltb_spec 0 0); [lra|]. destruct (Reqb_spec (2 * n + 1) 0); [lra|]. destruct (Rltb_spec 0 (2 * n + 1)); [|lra].
  cbn [bind]. destruct (Reqb_spec n 0); [lra|]. destruct (Rltb_spec 0 n); [|lra]. cbn [bind]. rewrite fdiv_ok by lra. f_equal. field. lra.
Qed.
Lemma diffusive_lower tb tc n v : 0 < tb < tc -> 0 < n -> f_tfn tb tc n false = Ok v -> Rpower (tb / tc) (n + 1) <= v.
Proof.
  intros H Hn E. rewrite diffusive_value in E by assumption.
  assert (Ev : v = n / (2 * n + 1) * ((1 - Rpower (tb / tc) (2 * n + 1)) / (1 - Rpower (tb / tc) n))) by congruence.
  assert (H0 : 0 < tb / tc) by (apply Rdiv_lt_0_compat; lra).
  assert (H1 : tb / tc < 1) by (apply Rmult_lt_reg_r with tc; [lra|]; unfold Rdiv; rewrite Rmult_assoc, Rinv_l; lra).
  set (r := tb / tc) in *. assert (K := Rpower_lt1 r n ltac:(lra) ltac:(lra)). set (s := Rpower r n) in *.
  set (p := (2 * n + 1) / n). assert (Hp : 1 <= p). { unfold p. apply Rmult_le_reg_r with n; [lra|]. unfold Rdiv. rewrite Rmult_assoc, Rinv_l; lra. }
  assert (B := bernoulli (/ s) p ltac:(apply Rinv_0_lt_compat; lra) Hp).
  assert (Es : Rpower s p = Rpower r (2 * n + 1)). { unfold s. rewrite Rpower_mult. f_equal. unfold p. field. lra. }
  assert (Ei : Rpower (/ s) p = / Rpower s p).
  { rewrite <- (Rpower_Ropp s p). unfold Rpower. rewrite ln_Rinv by lra. f_equal. ring. }
  assert (Ej : Rpower r (2 * n + 1) = Rpower r (n + 1) * s). { unfold s. rewrite <- Rpower_plus. f_equal. ring. }
  assert (Pq : 0 < Rpower r (n + 1)) by apply exp_pos. set (q := Rpower r (n + 1)) in *.
  rewrite Ei, Es, Ej in B. apply (Rmult_le_compat_l (q * s)) in B; [|nra].
  replace (q * s * / (q * s)) with 1 in B by (field; lra).
  replace (q * s * (1 + p * (/ s - 1))) with (q * s + p * q * (1 - s)) in B by (field; lra).
  rewrite Ev, Ej. apply Rmult_le_reg_r with (p * (1 - s)); [nra|].
  replace (n / (2 * n + 1) * ((1 - q * s) / (1 - s)) * (p * (1 - s))) with (1 - q * s) by (unfold p; field; lra). lra.
Qed.

(** ** SQUID noise *)
Lemma squid_value t f : 0 < t_squidpole t -> 0 < f -> s_isquid t f = (t_squiddc t * (1 + Rpower (t_squidpole t / f) (t_squidn t))) ^ 2.
Proof.
  intros Hp Hf. unfold s_isquid. assert (0 < t_squidpole t / f) by (apply Rdiv_lt_0_compat; assumption).
  destruct (Rltb_spec 0 (t_squidpole t / f)); [reflexivity|lra].
Qed.
Lemma squid_at_pole t : 0 < t_squidpole t -> s_isquid t (t_squidpole t) = 4 * t_squiddc t ^ 2.
Proof.
  intros Hp. rewrite squid_value by assumption. unfold Rdiv. rewrite Rinv_r by lra. unfold Rpower. rewrite ln_1, Rmult_0_r, exp_0. ring.
Qed.
Lemma squid_decreasing t f g : 0 < t_squidpole t -> 0 < t_squidn t -> t_squiddc t <> 0 -> 0 < f < g -> s_isquid t g < s_isquid t f.
Proof.
  intros Hp Hn Hd Hf. rewrite !squid_value by lra.
  assert (Q : 0 < t_squidpole t / g < t_squidpole t / f).
  { split; [apply Rdiv_lt_0_compat; lra|]. apply Rmult_lt_compat_l; [lra|]. apply Rinv_lt_contravar; [nra|lra]. }
  assert (W : Rpower (t_squidpole t / g) (t_squidn t) < Rpower (t_squidpole t / f) (t_squidn t)).
  { unfold Rpower. apply exp_increasing. apply Rmult_lt_compat_l; [lra|]. now apply ln_increasing. }
  assert (P : 0 < Rpower (t_squidpole t / g) (t_squidn t)) by apply exp_pos.
  rewrite !Rpow_mult_distr. apply Rmult_lt_compat_l; [assert (K := pow2_gt_0 _ Hd); lra|].
  nra.
Qed.
Lemma squid_floor t f : 0 < t_squidpole t -> t_squiddc t <> 0 -> 0 < f -> t_squiddc t ^ 2 < s_isquid t f.
Proof.
  intros Hp Hd Hf. rewrite squid_value by assumption. assert (P : 0 < Rpower (t_squidpole t / f) (t_squidn t)) by apply exp_pos.
  rewrite Rpow_mult_distr. assert (K := pow2_gt_0 _ Hd). nra.
Qed.
Lemma squid_limit t eps : 0 < t_squidpole t -> 0 < t_squidn t -> 0 < eps -> exists f0, 0 < f0 /\ forall f, f0 < f -> s_isquid t f < t_squiddc t ^ 2 + eps.
Proof.
  intros Hp Hn He. set (d := t_squiddc t ^ 2). assert (Hd : 0 <= d) by apply pow2_ge_0.
  set (del := Rmin 1 (eps / (3 * d + 1))).
  assert (D0 : 0 < del). { unfold del. apply Rmin_glb_lt; [lra|]. apply Rdiv_lt_0_compat; lra. }
  assert (D1 : del <= 1) by apply Rmin_l. assert (D2 : del * (3 * d + 1) <= eps).
  { apply Rle_trans with (eps / (3 * d + 1) * (3 * d + 1)); [apply Rmult_le_compat_r; [lra|apply Rmin_r]|]. right. field. lra. }
  exists (t_squidpole t * Rpower (/ del) (/ t_squidn t)). split; [apply Rmult_lt_0_compat; [lra|apply exp_pos]|].
  intros f Hf. assert (F0 : 0 < f). { eapply Rlt_trans; [|exact Hf]. apply Rmult_lt_0_compat; [lra|apply exp_pos]. }
  rewrite squid_value by assumption.
  assert (W : Rpower (t_squidpole t / f) (t_squidn t) < del).
  { assert (Q : t_squidpole t / f < Rpower del (/ t_squidn t)).
    { apply Rmult_lt_reg_r with f; [assumption|]. unfold Rdiv. rewrite Rmult_assoc, Rinv_l by lra. rewrite Rmult_1_r.
      replace (t_squidpole t) with (Rpower del (/ t_squidn t) * (t_squidpole t * Rpower (/ del) (/ t_squidn t))) at 1.
      - apply Rmult_lt_compat_l; [apply exp_pos|exact Hf].
      - unfold Rpower. rewrite ln_Rinv by assumption. rewrite (Rmult_comm (t_squidpole t)), <- Rmult_assoc, <- exp_plus.
        replace (/ t_squidn t * ln del + / t_squidn t * - ln del) with 0 by ring. rewrite exp_0. ring. }
    assert (Q0 : 0 < t_squidpole t / f) by (apply Rdiv_lt_0_compat; lra).
    replace del with (Rpower (Rpower del (/ t_squidn t)) (t_squidn t)).
    - unfold Rpower at 1 2. apply exp_increasing. apply Rmult_lt_compat_l; [lra|]. now apply ln_increasing.
    - rewrite Rpower_mult, Rinv_l by lra. now apply Rpower_1. }
  assert (P : 0 < Rpower (t_squidpole t / f) (t_squidn t)) by apply exp_pos. set (p := Rpower (t_squidpole t / f) (t_squidn t)) in *.
  rewrite Rpow_mult_distr. fold d. assert (p * p < del) by nra.
  assert (d * (2 * p + p * p) <= d * (3 * del)) by (apply Rmult_le_compat_l; lra). nra.
Qed.

(** ** Equipartition *)
Lemma lorentz_power A r L : 0 < r -> 0 < L -> total_power (fun f => A / (r ^ 2 + (2 * PI * f * L) ^ 2)) (A / (4 * L * r)).
Proof.
  intros Hr HL eps He. assert (Pp := PI_RGT_0). set (k := A / (2 * PI * L * r)).
  assert (HI : forall F, is_RInt (fun f => A / (r ^ 2 + (2 * PI * f * L) ^ 2)) 0 F (k * atan (2 * PI * F * L / r))).
  { intros F. replace (k * atan (2 * PI * F * L / r)) with (minus (k * atan (2 * PI * F * L / r)) (k * atan (2 * PI * 0 * L / r))).
    2:{ unfold minus, plus, opp. cbn. replace (2 * PI * 0 * L / r) with 0 by (unfold Rdiv; ring). rewrite atan_0. ring. }
    apply (is_RInt_derive (fun f => k * atan (2 * PI * f * L / r))).
    - intros x _. assert (K := pow2_ge_0 (2 * PI * x * L)). assert (K' := pow_lt r 2 Hr).
      auto_derive; [exact I|]. unfold k. rewrite ?Rsqr_pow2. assert (K2 := pow2_ge_0 (2 * PI * x * L / r)).
      replace (1 + (2 * PI * x * L * / r) ^ 2) with ((r ^ 2 + (2 * PI * x * L) ^ 2) / r ^ 2) by (field; lra).
      field. repeat split; try lra.
    - intros x _. apply (ex_derive_continuous (fun f => A / (r ^ 2 + (2 * PI * f * L) ^ 2))).
      auto_derive. assert (K := pow2_ge_0 (2 * PI * x * L)). assert (K' := pow_lt r 2 Hr). lra. }
  set (del := Rmin (PI / 4) (eps / (2 * (Rabs k + 1)))). assert (Ka := Rabs_pos k).
  assert (D0 : 0 < del). { unfold del. apply Rmin_glb_lt; [lra|]. apply Rdiv_lt_0_compat; lra. }
  assert (D1 : del <= PI / 4) by apply Rmin_l. assert (D2 : Rabs k * del < eps).
  { apply Rle_lt_trans with ((Rabs k + 1) * (eps / (2 * (Rabs k + 1)))).
    - apply Rmult_le_compat; [lra|lra|lra|apply Rmin_r].
    - replace ((Rabs k + 1) * (eps / (2 * (Rabs k + 1)))) with (eps / 2) by (field; lra). lra. }
  exists (tan (PI / 2 - del) * r / (2 * PI * L)). intros F HF. exists (k * atan (2 * PI * F * L / r)). split; [apply HI|].
  assert (T : PI / 2 - del < atan (2 * PI * F * L / r)).
  { rewrite <- (atan_tan (PI / 2 - del)) by lra. apply atan_increasing.
    apply Rmult_lt_reg_r with (r / (2 * PI * L)); [apply Rdiv_lt_0_compat; nra|].
    replace (2 * PI * F * L / r * (r / (2 * PI * L))) with F by (field; lra).
    replace (tan (PI / 2 - del) * (r / (2 * PI * L))) with (tan (PI / 2 - del) * r / (2 * PI * L)) by (unfold Rdiv; ring). exact HF. }
  assert (B := atan_bound (2 * PI * F * L / r)). set (a := atan (2 * PI * F * L / r)) in *.
  replace (k * a - A / (4 * L * r)) with (k * (a - PI / 2)) by (unfold k; field; repeat split; lra).
  rewrite Rabs_mult. apply Rle_lt_trans with (Rabs k * del); [|exact D2]. apply Rmult_le_compat_l; [lra|].
  rewrite Rabs_left by lra. lra.
Qed.

Lemma total_power_ext s s' P : (forall f, s f = s' f) -> total_power s' P -> total_power s P.
Proof.
  intros H K eps He. destruct (K eps He) as [F0 K']. exists F0. intros F HF. destruct (K' F HF) as [v [E B]]. exists v. split; [|exact B].
  eapply is_RInt_ext; [|exact E]. intros x _. now rewrite H.
Qed.

Lemma admittance_rl r w : r <> 0 -> Cmod (1 / (RtoC r + Ci * RtoC w))%C ^ 2 = 1 / (r ^ 2 + w ^ 2).
Proof.
  intros Hr. assert (N : r ^ 2 + w ^ 2 <> 0). { assert (K := pow2_ge_0 w). assert (K' := pow2_gt_0 r Hr). lra. }
  assert (E : (RtoC r + Ci * RtoC w)%C = (r, w)). { unfold Ci, RtoC, Cplus, Cmult. cbn [fst snd]. f_equal; ring. }
  rewrite E. assert (Nz : (r, w) <> RtoC 0). { intros Z. apply (f_equal fst) in Z. cbn in Z. lra. }
  rewrite Cmod_div by exact Nz. rewrite Cmod_1. unfold Cmod. cbn [fst snd]. unfold Rdiv. rewrite !Rmult_1_l, pow_inv.
  rewrite pow2_sqrt; [reflexivity|]. assert (K := pow2_ge_0 w). assert (K' := pow2_ge_0 r). lra.
Qed.
Lemma dIdVsc_mod t f : t_rload t <> 0 -> Cmod (dIdVsc t f) ^ 2 = 1 / (t_rload t ^ 2 + (2 * PI * f * t_inductance t) ^ 2).
Proof.
  intros H. unfold dIdVsc, jomega. rewrite <- (admittance_rl _ _ H). do 4 f_equal. rewrite !RtoC_mult. ring.
Qed.
Lemma dIdVnormal_mod t f : t_rload t + t_r0 t <> 0 ->
  Cmod (dIdVnormal t f) ^ 2 = 1 / ((t_rload t + t_r0 t) ^ 2 + (2 * PI * f * t_inductance t) ^ 2).
Proof.
  intros H. unfold dIdVnormal, jomega. rewrite <- (admittance_rl _ _ H). do 4 f_equal. rewrite !RtoC_mult. ring.
Qed.

Lemma equipartition_sc t : 0 < t_rload t -> 0 < t_inductance t ->
  total_power (s_iloadsc t) (boltzmann * t_tload t / t_inductance t).
Proof.
  intros Hr HL. apply total_power_ext with (fun f => s_vload t / (t_rload t ^ 2 + (2 * PI * f * t_inductance t) ^ 2)).
  - intros f. unfold s_iloadsc. rewrite dIdVsc_mod by lra. unfold Rdiv. ring.
  - replace (boltzmann * t_tload t / t_inductance t) with (s_vload t / (4 * t_inductance t * t_rload t)).
    + now apply lorentz_power.
    + unfold s_vload. change const_k with boltzmann. field. lra.
Qed.
Lemma equipartition_normal t : 0 < t_rload t + t_r0 t -> 0 < t_inductance t ->
  total_power (fun f => s_iloadnormal t f + s_itesnormal t f)
    (boltzmann * ((t_tload t * t_rload t + t_tc t * t_r0 t) / (t_rload t + t_r0 t)) / t_inductance t).
Proof.
  intros Hr HL. apply total_power_ext with (fun f => (s_vload t + s_vtesnormal t) / ((t_rload t + t_r0 t) ^ 2 + (2 * PI * f * t_inductance t) ^ 2)).
  - intros f. unfold s_iloadnormal, s_itesnormal. rewrite dIdVnormal_mod by lra. unfold Rdiv. ring.
  - match goal with |- total_power _ ?p => replace p with ((s_vload t + s_vtesnormal t) / (4 * t_inductance t * (t_rload t + t_r0 t))) end.
    + now apply lorentz_power.
    + unfold s_vload, s_vtesnormal. change const_k with boltzmann. field. lra.
Qed.
