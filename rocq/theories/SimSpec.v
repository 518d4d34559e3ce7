(** * Specifications for qetpy/sim, independent of the model *)
From Coq Require Import Reals.
From Verif Require Import Base.
From Coquelicot Require Import Hierarchy RInt Complex.
Local Open Scope R_scope.

(** The linearised equations of a transition-edge sensor (Irwin and Hilton) for small oscillations
    at angular frequency [w]: current [dI], temperature [dT], applied voltage [dV], applied power
    [dP]; the heat capacity is [tau0 G], and [l G / i0] is the voltage per kelvin. *)
Definition tes_linear (RL R0 beta l L tau0 G i0 w : R) (dI dT dV dP : C) : Prop :=
  (dV = dI * (RtoC RL + RtoC R0 * (1 + RtoC beta) + Ci * RtoC w * RtoC L) + RtoC l * RtoC G / RtoC i0 * dT /\
   Ci * RtoC w * (RtoC tau0 * RtoC G) * dT = dP + RtoC i0 * RtoC R0 * (2 + RtoC beta) * dI - (1 - RtoC l) * RtoC G * dT)%C.

(** A frequency grid mirrored at zero: 0, f1, f2, ... becomes ..., -f2, -f1, 0, f1, f2, ... *)
Definition mirror_freqs (fs : list R) : list R := rev (map Ropp fs) ++ 0 :: fs.
(** A symmetric function on that grid *)
Definition mirror_vals (s0 : R) (ss : list R) : list R := rev ss ++ s0 :: ss.

(** Strictly increasing *)
Fixpoint increasing (l : list R) : Prop :=
  match l with a :: ((b :: _) as r) => a < b /\ increasing r | _ => True end.

(** Boltzmann's constant in J/K and the elementary charge in C (exact SI values). *)
Definition boltzmann : R := 1380649 / 10 ^ 29.
Definition elementary_charge : R := 1602176634 / 10 ^ 28.
(** Johnson-Nyquist noise: one-sided voltage density of a resistor. *)
Definition johnson (T r : R) : R := 4 * boltzmann * T * r.
(** Thermal fluctuation noise of a conductance in equilibrium: one-sided power density. *)
Definition fluctuation (T G : R) : R := 4 * boltzmann * T ^ 2 * G.

(** Information per unit frequency on the energy of a pulse with collection time [tau] and efficiency
    [eff] in the one-sided power noise [S]: four times the squared pulse spectrum over the noise. *)
Definition energy_information (eff tau f S : R) : R := 4 * (eff ^ 2 / (1 + (2 * PI * f * tau) ^ 2)) / S.

(** The integral of a one-sided density over all frequencies is [P]. *)
Definition total_power (s : R -> R) (P : R) : Prop :=
  forall eps, 0 < eps -> exists F0, forall F, F0 < F -> exists v, is_RInt s 0 F v /\ Rabs (v - P) < eps.
