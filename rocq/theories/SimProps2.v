(** * Properties of qetpy/sim: noise sources, equipartition, SQUID noise, energy resolution *)
From Coq Require Import Reals.
From Verif Require Import Base ListLemmas Dft UtilsModel DidvModel SimModel SimSpec SimProofs1 SimProofs2 SimProofs3 SimProps.
From Coquelicot Require Import Hierarchy RInt Complex.
Local Open Scope R_scope.

(** ** C83: energy resolution *)

(** The resolution in eV: its inverse square is the trapezoid sum of the energy information. *)
Theorem C83_formula : forall freqs tau Sp eff e, length Sp = length freqs -> (2 <= length freqs)%nat -> increasing freqs ->
  (forall s, In s Sp -> 0 < s) -> eff <> 0 -> energy_res_estimate freqs tau Sp eff = Ok e ->
  0 < e /\ (e * elementary_charge) ^ 2 *
    rsum (length freqs - 1) (fun k => (nth (S k) freqs 0 - nth k freqs 0) *
      (energy_information eff tau (nth k freqs 0) (nth k Sp 0) +
       energy_information eff tau (nth (S k) freqs 0) (nth (S k) Sp 0)) / 2) = 1.
Proof. exact eres_formula. Qed.
Print Assumptions C83_formula.

(** ** C135: the noise sources *)

(** Johnson noise of the load and of the sensor and the fluctuation noise of its thermal link, seen
    through the responses to voltage and power. *)
Theorem C135_sources : forall t f,
  (forall y, dIdV t f = Ok y -> s_iload t f = Ok (johnson (t_tload t) (t_rload t) * Cmod y ^ 2)) /\
  (forall y p, dIdV t f = Ok y -> dIdP t f = Ok p ->
   s_ites t f = Ok (johnson (t_tc t) (t_r0 t) * (1 + t_beta t) ^ 2 * Cmod (y - RtoC (t_i0 t) * p)%C ^ 2)) /\
  (forall p, dIdP t f = Ok p -> s_itfn t f = Ok (fluctuation (t_tc t) (t_G t) * t_ftfn t * Cmod p ^ 2)) /\
  s_iloadnormal t f = johnson (t_tload t) (t_rload t) * Cmod (dIdVnormal t f) ^ 2 /\
  s_itesnormal t f = johnson (t_tc t) (t_r0 t) * Cmod (dIdVnormal t f) ^ 2 /\
  s_iloadsc t f = johnson (t_tload t) (t_rload t) * Cmod (dIdVsc t f) ^ 2.
Proof.
  intros t f. split; [|split; [|split; [|split; [|split]]]]; try reflexivity.
  - intros y E. unfold s_iload. now rewrite E.
  - intros y p E E'. unfold s_ites. rewrite E, E'. reflexivity.
  - intros p E. unfold s_itfn. rewrite E. reflexivity.
Qed.
Print Assumptions C135_sources.

(** The current noise of the load in the superconducting state integrates to kT/L over all
    frequencies: k T of energy L I^2.  In the normal state T is the mean of both temperatures
    weighted by the resistances. *)
Theorem C135_equipartition : forall t, 0 < t_inductance t ->
  (0 < t_rload t -> total_power (s_iloadsc t) (boltzmann * t_tload t / t_inductance t)) /\
  (0 < t_rload t + t_r0 t ->
   total_power (fun f => s_iloadnormal t f + s_itesnormal t f)
     (boltzmann * ((t_tload t * t_rload t + t_tc t * t_r0 t) / (t_rload t + t_r0 t)) / t_inductance t)).
Proof. intros t HL. split; intros Hr; [now apply equipartition_sc|now apply equipartition_normal]. Qed.
Print Assumptions C135_equipartition.

(** The thermal factor: its formulas, its values at the ends, and that the diffusive one lies
    between (Tb/Tc)^(n+1) and 1, so that it also tends to 1 in equilibrium. *)
Theorem C135_thermal_factor : forall tb tc n, 0 < tc -> 0 < n ->
  (0 < tb <= tc -> f_tfn tb tc n true = Ok ((Rpower (tb / tc) (n + 1) + 1) / 2)) /\
  f_tfn tc tc n true = Ok 1 /\ f_tfn 0 tc n true = Ok (1 / 2) /\
  (0 < tb < tc -> exists v, f_tfn tb tc n false = Ok v /\
     v = n / (2 * n + 1) * ((1 - Rpower (tb / tc) (2 * n + 1)) / (1 - Rpower (tb / tc) n)) /\
     Rpower (tb / tc) (n + 1) <= v <= 1) /\
  f_tfn 0 tc n false = Ok (n / (2 * n + 1)).
Proof.
  intros tb tc n Hc Hn. split; [intros H; now apply ballistic_value|]. split; [now apply ballistic_equilibrium|].
  split; [now apply ballistic_cold|]. split; [|now apply diffusive_cold].
  intros H. assert (E := diffusive_value tb tc n H Hn). eexists. split; [exact E|]. split; [reflexivity|].
  split; [exact (diffusive_lower tb tc n _ H Hn E)|]. destruct (diffusive_range tb tc n ltac:(lra) Hn) as [v [E' B]].
  rewrite E in E'. injection E' as <-. lra.
Qed.
Print Assumptions C135_thermal_factor.

Example C135_ex : let t := mkTes 1 1 1 0 2 1 1 2 1 1 1 1 (/ 2) 5 true 1 1 1 1 in
  0 < t_inductance t /\ 0 < t_rload t /\ 0 < t_rload t + t_r0 t /\ (exists y, dIdV t 1 = Ok y) /\ exists p, dIdP t 1 = Ok p.
Proof.
  cbn zeta. split; [cbn; lra|]. split; [cbn; lra|]. split; [cbn; lra|]. split; eexists; [apply dIdV_ok; cbn; lra|apply dIdP_ok; cbn; lra].
Qed.

(** ** C136: SQUID noise *)

(** A white floor [squiddc]^2 that rises towards low frequencies; four times the floor at the pole. *)
Theorem C136_squid : forall t, 0 < t_squidpole t -> 0 < t_squidn t -> t_squiddc t <> 0 ->
  s_isquid t (t_squidpole t) = 4 * t_squiddc t ^ 2 /\
  (forall f, 0 < f -> s_isquid t f = (t_squiddc t * (1 + Rpower (t_squidpole t / f) (t_squidn t))) ^ 2 /\ t_squiddc t ^ 2 < s_isquid t f) /\
  (forall f g, 0 < f < g -> s_isquid t g < s_isquid t f) /\
  (forall eps, 0 < eps -> exists f0, 0 < f0 /\ forall f, f0 < f -> s_isquid t f < t_squiddc t ^ 2 + eps).
Proof.
  intros t Hp Hn Hd. split; [now apply squid_at_pole|]. split.
  - intros f Hf. split; [now apply squid_value|now apply squid_floor].
  - split; [intros f g Hf; now apply squid_decreasing|]. intros eps He. now apply squid_limit.
Qed.
Print Assumptions C136_squid.

Example C136_ex : let t := mkTes 1 1 1 0 2 1 1 2 1 1 1 1 (/ 2) 5 true 1 1 1 1 in
  0 < t_squidpole t /\ 0 < t_squidn t /\ t_squiddc t <> 0.
Proof. cbn. repeat split; lra. Qed.
