(** * Proofs: dIdV against the didv module, limits, the thermal factor, energy resolution, loadfromdidv *)
From Coq Require Import Reals Lra Psatz.
From Verif Require Import Base ListLemmas Dft UtilsModel DidvModel DidvSpec DidvProps SimModel SimSpec SimProofs1.
From Coquelicot Require Import Coquelicot.
Local Open Scope R_scope.

Lemma dIdV_admittance t f rsh rp : rsh + rp = t_rload t -> t_loopgain t <> 1 -> rsh + rp + t_r0 t * (1 + t_beta t) <> 0 ->
  exists y, dIdV t f = Ok y /\
  complexadmittance f (mkArgs (Some rsh) (Some rp) (Some (t_r0 t)) (Some (t_beta t)) (Some (t_loopgain t)) (Some (t_inductance t))
    (Some (t_tau0 t)) None None) = Ok y.
Proof.
  intros Hr Hl HA. exists (1 / Zt t f)%C. split; [now apply dIdV_ok|].
  unfold complexadmittance. rewrite (C45_twopole f rsh rp (t_r0 t) (t_beta t) (t_loopgain t) (t_inductance t) (t_tau0 t) None None);
    [|exact Hl|exact HA|left; reflexivity]. cbn [bind]. f_equal. f_equal.
  rewrite (Zt_C t f Hl), <- Hr. unfold doc_twopole, iomega, thermal, jomega. rewrite RtoC_plus, RtoC_minus.
  assert (N1 : (1 - RtoC (t_loopgain t))%C <> 0%C). { intros E. apply (f_equal fst) in E. cbn in E. lra. }
  assert (N2 := thermal_nz t f Hl). unfold thermal, jomega in N2. rewrite RtoC_minus in N2.
  set (th := (1 + Ci * RtoC (2 * PI * f) * RtoC (t_tau0 t) / (1 - RtoC (t_loopgain t)))%C) in *. clearbody th.
  field. split; assumption.
Qed.

Lemma dIdV_sc t f y : t_r0 t = 0 -> dIdV t f = Ok y -> y = dIdVsc t f.
Proof.
  intros H E. apply dIdV_inv in E. destruct E as [Hl ->]. unfold dIdVsc. f_equal. rewrite (Zt_C t f Hl), H.
  unfold jomega. assert (N2 := thermal_nz t f Hl).
  assert (N1 : (1 - RtoC (t_loopgain t))%C <> 0%C). { intros E. apply (f_equal fst) in E. cbn in E. lra. }
  field. split; assumption.
Qed.

Lemma dIdV_normal t f y : t_loopgain t = 0 -> t_beta t = 0 -> dIdV t f = Ok y -> y = dIdVnormal t f.
Proof.
  intros H H' E. apply dIdV_inv in E. destruct E as [Hl ->]. unfold dIdVnormal. f_equal. rewrite (Zt_C t f Hl), H, H'.
  unfold jomega. assert (N2 := thermal_nz t f Hl). rewrite RtoC_plus. field.
  split; first [assumption | intros E; apply (f_equal fst) in E; cbn in E; lra].
Qed.

(** Convexity of exp *)
Lemma exp_chord u s : 0 <= s <= 1 -> exp (s * u) <= s * exp u + (1 - s).
Proof.
  intros Hs. assert (T : forall v, exp (s * u) * (1 + (v - s * u)) <= exp v).
  { intros v. replace v with (s * u + (v - s * u)) at 2 by ring. rewrite exp_plus.
    apply Rmult_le_compat_l; [left; apply exp_pos|]. destruct (Req_dec (v - s * u) 0) as [->|N]; [rewrite exp_0; lra|].
    left. now apply exp_ineq1. }
  assert (T1 := T u). assert (T0 := T 0). rewrite exp_0 in T0. nra.
Qed.

Lemma Rpower_lt1 r y : 0 < r < 1 -> 0 < y -> 0 < Rpower r y < 1.
Proof.
  intros Hr Hy. split; [apply exp_pos|]. unfold Rpower. rewrite <- exp_0. apply exp_increasing.
  assert (ln r < 0) by (rewrite <- ln_1; apply ln_increasing; lra). nra.
Qed.

Lemma ballistic_range tb tc n : 0 <= tb <= tc -> 0 < tc -> 0 < n -> exists v, f_tfn tb tc n true = Ok v /\ / 2 <= v <= 1.
Proof.
  intros Hb Hc Hn. unfold f_tfn. rewrite fdiv_ok by lra. cbn [bind]. unfold fpow.
  assert (H0 : 0 <= tb / tc) by (apply Rdiv_le_0_compat; lra).
  assert (H1 : tb / tc <= 1) by (apply Rmult_le_reg_r with tc; [lra|]; unfold Rdiv; rewrite Rmult_assoc, Rinv_l; lra).
  destruct (Rltb_spec 0 (tb / tc)) as [P|P]; cbn [bind].
  - eexists. split; [reflexivity|]. destruct (Req_dec (tb / tc) 1) as [->|N].
    + unfold Rpower. rewrite ln_1, Rmult_0_r, exp_0. lra.
    + assert (K := Rpower_lt1 (tb / tc) (n + 1) ltac:(lra) ltac:(lra)). lra.
  - destruct (Rltb_spec (tb / tc) 0); [lra|]. destruct (Reqb_spec (n + 1) 0); [lra|].
    destruct (Rltb_spec 0 (n + 1)); [|lra]. cbn [bind]. eexists. split; [reflexivity|lra].
Qed.

Lemma diffusive_range tb tc n : 0 <= tb < tc -> 0 < n -> exists v, f_tfn tb tc n false = Ok v /\ 0 < v <= 1.
Proof.
  intros Hb Hn. unfold f_tfn. rewrite fdiv_ok by lra. cbn [bind]. rewrite fdiv_ok by lra. cbn [bind].
  assert (H0 : 0 <= tb / tc) by (apply Rdiv_le_0_compat; lra).
  assert (H1 : tb / tc < 1) by (apply Rmult_lt_reg_r with tc; [lra|]; unfold Rdiv; rewrite Rmult_assoc, Rinv_l; lra).
  unfold fpow. destruct (Rltb_spec 0 (tb / tc)) as [P|P]; cbn [bind].
  - set (r := tb / tc) in *. assert (K1 := Rpower_lt1 r (2 * n + 1) ltac:(lra) ltac:(lra)).
    assert (K2 := Rpower_lt1 r n ltac:(lra) ltac:(lra)). rewrite fdiv_ok by lra. eexists. split; [reflexivity|].
    assert (C0 := exp_chord ((2 * n + 1) * ln r) (n / (2 * n + 1))).
    assert (S : 0 <= n / (2 * n + 1) <= 1).
    { split; [apply Rdiv_le_0_compat; lra|]. apply Rmult_le_reg_r with (2 * n + 1); [lra|]. unfold Rdiv. rewrite Rmult_assoc, Rinv_l; lra. }
    assert (S' : 0 < n / (2 * n + 1)) by (apply Rdiv_lt_0_compat; lra).
    specialize (C0 S). replace (n / (2 * n + 1) * ((2 * n + 1) * ln r)) with (n * ln r) in C0 by (field; lra).
    change (exp (n * ln r)) with (Rpower r n) in C0. change (exp ((2 * n + 1) * ln r)) with (Rpower r (2 * n + 1)) in C0.
    set (a := n / (2 * n + 1)) in *. set (p := Rpower r (2 * n + 1)) in *. set (q := Rpower r n) in *.
    replace (a * (p - 1) / (q - 1)) with (a * (1 - p) / (1 - q)) by (field; lra). split.
    + apply Rdiv_lt_0_compat; [|lra]. apply Rmult_lt_0_compat; lra.
    + apply Rmult_le_reg_r with (1 - q); [lra|]. unfold Rdiv. rewrite Rmult_assoc, Rinv_l by lra. lra.
  - destruct (Rltb_spec (tb / tc) 0); [lra|]. destruct (Reqb_spec (2 * n + 1) 0); [lra|].
    destruct (Rltb_spec 0 (2 * n + 1)); [|lra]. cbn [bind]. destruct (Reqb_spec n 0); [lra|].
    destruct (Rltb_spec 0 n); [|lra]. cbn [bind]. rewrite fdiv_ok by lra. eexists. split; [reflexivity|].
    replace (n / (2 * n + 1) * (0 - 1) / (0 - 1)) with (n / (2 * n + 1)) by (field; lra). split; [apply Rdiv_lt_0_compat; lra|].
    apply Rmult_le_reg_r with (2 * n + 1); [lra|]. unfold Rdiv. rewrite Rmult_assoc, Rinv_l; lra.
Qed.

(** ** trapz *)

Lemma trapz_scale c y x : trapz (map (Rmult c) y) x = c * trapz y x.
Proof.
  revert x. induction y as [|y0 ys IH]; intros x; [simpl; ring|].
  destruct ys as [|y1 ys]; [destruct x as [|? [|]]; simpl; ring|].
  destruct x as [|x0 [|x1 xs]]; [simpl; ring|simpl; ring|].
  change (trapz (map (Rmult c) (y0 :: y1 :: ys)) (x0 :: x1 :: xs)) with
    ((x1 - x0) * (c * y0 + c * y1) / 2 + trapz (map (Rmult c) (y1 :: ys)) (x1 :: xs)).
  rewrite IH. change (trapz (y0 :: y1 :: ys) (x0 :: x1 :: xs)) with ((x1 - x0) * (y0 + y1) / 2 + trapz (y1 :: ys) (x1 :: xs)).
  field.
Qed.

Lemma trapz_cons y0 y1 ys x0 x1 xs : trapz (y0 :: y1 :: ys) (x0 :: x1 :: xs) = (x1 - x0) * (y0 + y1) / 2 + trapz (y1 :: ys) (x1 :: xs).
Proof. reflexivity. Qed.

(** Splitting at a common point *)
Lemma trapz_app ya y0 yb xa x0 xb : length ya = length xa ->
  trapz (ya ++ y0 :: yb) (xa ++ x0 :: xb) = trapz (ya ++ y0 :: nil) (xa ++ x0 :: nil) + trapz (y0 :: yb) (x0 :: xb).
Proof.
  revert xa. induction ya as [|a ya IH]; intros [|b xa] L; try discriminate.
  - cbn [app]. simpl (trapz (y0 :: nil) (x0 :: nil)). ring.
  - cbn [app]. injection L as L. specialize (IH xa L).
    destruct ya as [|a' ya], xa as [|b' xa]; try discriminate; cbn [app] in *.
    + rewrite trapz_cons. rewrite trapz_cons. simpl (trapz (y0 :: nil) (x0 :: nil)). ring.
    + rewrite trapz_cons, (trapz_cons a a'), IH. ring.
Qed.

(** Reversal with negation *)
Lemma trapz_mirror ys xs y0 x0 : length ys = length xs ->
  trapz (rev ys ++ y0 :: nil) (rev (map Ropp xs) ++ - x0 :: nil) = trapz (y0 :: ys) (x0 :: xs).
Proof.
  revert xs y0 x0. induction ys as [|y1 ys IH]; intros [|x1 xs] y0 x0 L; try discriminate.
  - reflexivity.
  - injection L as L. cbn [rev map]. rewrite <- !app_assoc. cbn [app].
    rewrite trapz_app by (rewrite !rev_length, map_length; exact L). rewrite IH by exact L.
    rewrite !trapz_cons. simpl (trapz (y0 :: nil) (- x0 :: nil)). field.
Qed.

(** [res > 0], scaling *)
Lemma eres_ok freqs tau Sp eff : length Sp = length freqs ->
  energy_res_estimate freqs tau Sp eff =
    Ok (sqrt (1 / trapz (map (fun p => eres_integrand eff tau (fst p) (snd p)) (combine (map omega_of freqs) Sp)) (map omega_of freqs)) / const_e).
Proof. intros H. unfold energy_res_estimate. rewrite H, Nat.eqb_refl. reflexivity. Qed.

Lemma pole_mod eff tau w : Cmod (single_pole eff tau w) ^ 2 = eff ^ 2 / (1 + (w * tau) ^ 2).
Proof.
  unfold single_pole. assert (N : (1 + RtoC (w * tau) * Ci)%C <> 0%C).
  { intros E. apply (f_equal fst) in E. cbn in E. lra. }
  rewrite Cmod_div by exact N. rewrite Cmod_R. unfold Cmod at 1.
  replace (fst (1 + RtoC (w * tau) * Ci)%C) with 1 by (cbn; ring).
  replace (snd (1 + RtoC (w * tau) * Ci)%C) with (w * tau) by (cbn; ring).
  unfold Rdiv. rewrite Rpow_mult_distr, pow2_abs. rewrite pow_inv. rewrite pow2_sqrt.
  - f_equal. f_equal. ring.
  - assert (K := pow2_ge_0 (w * tau)). nra.
Qed.

Lemma integrand_eq eff tau w S : eres_integrand eff tau w S = 2 * (eff ^ 2 / (1 + (w * tau) ^ 2)) / (PI * S).
Proof. unfold eres_integrand. now rewrite pole_mod. Qed.

Lemma integrand_pos eff tau w S : eff <> 0 -> 0 < S -> 0 < eres_integrand eff tau w S.
Proof.
  intros H H'. rewrite integrand_eq. assert (K := PI_RGT_0). assert (0 < eff ^ 2) by (apply pow2_gt_0; exact H).
  assert (0 <= (w * tau) ^ 2) by apply pow2_ge_0.
  apply Rdiv_lt_0_compat; [|now apply Rmult_lt_0_compat]. apply Rmult_lt_0_compat; [lra|]. apply Rdiv_lt_0_compat; lra.
Qed.

Lemma trapz_pos y x : length y = length x -> (2 <= length x)%nat -> increasing x -> (forall v, In v y -> 0 < v) -> 0 < trapz y x.
Proof.
  revert x. induction y as [|y0 ys IH]; intros x L L2 Hi Hy; [destruct x; simpl in *; lia|].
  destruct x as [|x0 [|x1 xs]]; try (simpl in L2; lia). destruct ys as [|y1 ys]; [discriminate|].
  rewrite trapz_cons. destruct Hi as [Hi Hi']. injection L as L.
  assert (0 < y0) by (apply Hy; left; reflexivity). assert (0 < y1) by (apply Hy; right; left; reflexivity).
  assert (0 < (x1 - x0) * (y0 + y1) / 2). { apply Rdiv_lt_0_compat; [|lra]. apply Rmult_lt_0_compat; lra. }
  destruct xs as [|x2 xs].
  - destruct ys; [|discriminate]. simpl. lra.
  - assert (0 < trapz (y1 :: ys) (x1 :: x2 :: xs)); [|lra]. apply IH; [simpl; simpl in L; lia|simpl; lia|exact Hi'|].
    intros v Hv. apply Hy. right. exact Hv.
Qed.

Lemma increasing_omega l : increasing l -> increasing (map omega_of l).
Proof.
  induction l as [|a [|b l] IH]; intros H; try exact I. destruct H as [H H']. split; [|exact (IH H')].
  unfold omega_of. assert (K := PI_RGT_0). nra.
Qed.

Lemma map2_in {A B} (g : A * B -> R) (P : B -> Prop) l m : (forall b, In b m -> P b) ->
  forall v, In v (map g (combine l m)) -> exists a b, P b /\ v = g (a, b).
Proof.
  intros H v Hv. apply in_map_iff in Hv. destruct Hv as [[a b] [<- Hab]]. exists a, b. split; [|reflexivity].
  apply H. eapply in_combine_r; eauto.
Qed.

Definition eint (freqs : list R) (tau : R) (Sp : list R) (eff : R) : R :=
  trapz (map (fun p => eres_integrand eff tau (fst p) (snd p)) (combine (map omega_of freqs) Sp)) (map omega_of freqs).

Lemma eint_pos freqs tau Sp eff : length Sp = length freqs -> (2 <= length freqs)%nat -> increasing freqs ->
  (forall s, In s Sp -> 0 < s) -> eff <> 0 -> 0 < eint freqs tau Sp eff.
Proof.
  intros L L2 Hi Hs He. unfold eint. apply trapz_pos.
  - rewrite !map_length, combine_length, map_length. lia.
  - now rewrite map_length.
  - now apply increasing_omega.
  - intros v Hv. apply (map2_in _ (fun s => 0 < s)) in Hv; [|exact Hs]. destruct Hv as [a [b [Hb ->]]]. now apply integrand_pos.
Qed.

Lemma eint_scale_psd freqs tau Sp eff c : c <> 0 -> (forall s, In s Sp -> s <> 0) -> eint freqs tau (map (Rmult c) Sp) eff = / c * eint freqs tau Sp eff.
Proof.
  intros Hc Hs. unfold eint. rewrite <- trapz_scale. f_equal. rewrite map_map.
  generalize (map omega_of freqs). induction Sp as [|s Sp IH]; intros [|w ws]; try reflexivity. cbn [map combine fst snd].
  rewrite IH by (intros s' Hs'; apply Hs; now right). f_equal. unfold eres_integrand. assert (K := PI_neq0).
  assert (s <> 0) by (apply Hs; now left). field. repeat split; assumption.
Qed.

Lemma eint_scale_eff freqs tau Sp eff c : eint freqs tau Sp (c * eff) = c ^ 2 * eint freqs tau Sp eff.
Proof.
  unfold eint. rewrite <- trapz_scale, map_map. f_equal. apply map_ext. intros [w s]. cbn [fst snd]. rewrite !integrand_eq.
  unfold Rdiv. ring.
Qed.

Lemma eint_mirror fs tau s0 Ss eff : length Ss = length fs ->
  eint (mirror_freqs fs) tau (mirror_vals s0 Ss) eff = 2 * eint (0 :: fs) tau (s0 :: Ss) eff.
Proof.
  intros L. unfold eint, mirror_freqs, mirror_vals. set (g := fun p => eres_integrand eff tau (fst p) (snd p)).
  rewrite !map_app, map_rev, map_map. cbn [map].
  assert (CA : forall (a b c d : list R) (x y : R), length a = length b -> combine (a ++ x :: c) (b ++ y :: d) = combine a b ++ (x, y) :: combine c d).
  { induction a as [|? a IH]; intros [|? b] ? ? ? ? E; try discriminate; [reflexivity|]. cbn. f_equal. apply IH. now injection E. }
  rewrite CA by (rewrite !rev_length, map_length; now symmetry). rewrite map_app. cbn [map].
  assert (CR : map g (combine (rev (map (fun x => omega_of (- x)) fs)) (rev Ss)) = rev (map g (combine (map omega_of fs) Ss))).
  { clear CA. revert Ss L. induction fs as [|f fs IH]; intros [|s Ss] L; try discriminate; [reflexivity|].
    injection L as L. cbn [map rev combine].
    assert (CB : forall (a b : list R) (x y : R), length a = length b -> combine (a ++ x :: nil) (b ++ y :: nil) = combine a b ++ (x, y) :: nil).
    { induction a as [|? a IH']; intros [|? b] ? ? E; try discriminate; [reflexivity|]. cbn. f_equal. apply IH'. now injection E. }
    rewrite CB by (rewrite !rev_length, map_length; now symmetry).
    rewrite !map_app. rewrite IH by exact L. cbn [map]. f_equal. f_equal. unfold g. cbn [fst snd]. rewrite !integrand_eq. unfold omega_of.
    do 4 f_equal. ring. }
  rewrite CR.
  replace (rev (map (fun x => omega_of (- x)) fs)) with (rev (map Ropp (map omega_of fs)))
    by (rewrite map_map; f_equal; apply map_ext; intros; unfold omega_of; ring).
  rewrite trapz_app by (rewrite !rev_length, !map_length, combine_length, map_length; lia).
  replace (omega_of 0) with (- omega_of 0) at 2 by (unfold omega_of; ring).
  rewrite trapz_mirror by (rewrite !map_length, combine_length, map_length; lia). cbn [combine map]. unfold g. cbn [fst snd].
  ring.
Qed.

(** Comparison *)
Lemma trapz_mono y y' x : length y = length y' -> increasing x -> (forall i, nth i y 0 <= nth i y' 0) -> trapz y x <= trapz y' x.
Proof.
  revert y' x. induction y as [|a y IH]; intros [|a' y'] x L Hi H; try discriminate; [apply Rle_refl|].
  injection L as L. destruct y as [|b y], y' as [|b' y']; try discriminate; [destruct x as [|? [|]]; apply Rle_refl|].
  destruct x as [|x0 [|x1 xs]]; [apply Rle_refl|apply Rle_refl|]. destruct Hi as [Hi Hi'].
  rewrite !trapz_cons. assert (H0 := H 0%nat). assert (H1 := H 1%nat). cbn [nth] in H0, H1.
  assert (trapz (b :: y) (x1 :: xs) <= trapz (b' :: y') (x1 :: xs)).
  { apply IH; [exact L|exact Hi'|]. intros i. exact (H (S i)). }
  nra.
Qed.

Lemma eint_tau freqs tau tau' Sp eff : Rabs tau <= Rabs tau' -> length Sp = length freqs -> increasing freqs -> (forall s, In s Sp -> 0 < s) ->
  eint freqs tau' Sp eff <= eint freqs tau Sp eff.
Proof.
  intros Ht L Hi Hs. unfold eint. apply trapz_mono.
  - rewrite !map_length. reflexivity.
  - now apply increasing_omega.
  - clear Hi. revert freqs L. induction Sp as [|s Sp IH]; intros [|f fs] L [|i]; try discriminate; try (simpl; lra).
    + cbn [map combine nth fst snd]. rewrite !integrand_eq. assert (K := PI_RGT_0). assert (0 < s) by (apply Hs; now left).
      unfold Rdiv. apply Rmult_le_compat_r; [left; apply Rinv_0_lt_compat; now apply Rmult_lt_0_compat|].
      apply Rmult_le_compat_l; [lra|]. apply Rmult_le_compat_l; [apply pow2_ge_0|].
      assert (0 <= (omega_of f * tau) ^ 2) by apply pow2_ge_0.
      apply Rinv_le_contravar; [lra|]. rewrite !Rpow_mult_distr. apply Rplus_le_compat_l. apply Rmult_le_compat_l; [apply pow2_ge_0|].
      rewrite <- (pow2_abs tau), <- (pow2_abs tau'). apply pow_incr. split; [apply Rabs_pos|exact Ht].
    + cbn [map combine nth]. apply IH; [intros; apply Hs; now right|]. now injection L.
Qed.

(** Value of the resolution *)
Lemma eres_scale I c e : 0 < I -> 0 < c -> sqrt (1 / (c * I)) / e = / sqrt c * (sqrt (1 / I) / e).
Proof.
  intros HI Hc. unfold Rdiv. rewrite !Rmult_1_l, Rinv_mult_distr by lra. rewrite sqrt_mult; [|left; now apply Rinv_0_lt_compat|left; now apply Rinv_0_lt_compat].
  rewrite inv_sqrt by lra. ring.
Qed.
