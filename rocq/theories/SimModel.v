(** * Model of qetpy/sim/_sim.py

    Every method of TESnoise is elementwise in the frequencies, so the model gives the value at one
    frequency.  Parameters are Python floats: a division of two of them by zero raises
    ZeroDivisionError.  Divisions by an array are numpy divisions (inf/nan at zero, no exception);
    the theorems exclude these zeros by hypotheses. *)
From Coq Require Import Reals.
From Coquelicot Require Import Complex.
From Verif Require Import Base Dft UtilsModel DidvModel.
Local Open Scope R_scope.

(** ** energy_res_estimate *)

(** [np.trapz(y, x=x)]; numpy. *)
Fixpoint trapz (y x : list R) : R :=
  match y, x with
  | y0 :: ((y1 :: _) as ys), x0 :: ((x1 :: _) as xs) => (x1 - x0) * (y0 + y1) / 2 + trapz ys xs
  | _, _ => 0
  end.

(** [omega = 2*np.pi*freqs]; qetpy/sim/_sim.py:36. *)
Definition omega_of (f : R) : R := 2 * PI * f.
(** qetpy/sim/_sim.py:37. *)
Definition single_pole (eff tau w : R) : C := (RtoC eff / (1 + RtoC (w * tau) * Ci))%C.
(** qetpy/sim/_sim.py:38. *)
Definition eres_integrand (eff tau w S : R) : R := 2 * Cmod (single_pole eff tau w) ^ 2 / (PI * S).
(** The elementary charge, scipy.constants.e. *)
Definition const_e : R := 1602176634 / 10 ^ 28.
(** qetpy/sim/_sim.py:12-41, for frequencies and PSD of equal length (otherwise ValueError). *)
Definition energy_res_estimate (freqs : list R) (tau : R) (Sp : list R) (eff : R) : res R :=
  if negb (length Sp =? length freqs)%nat then Err ValueError else
  let omega := map omega_of freqs in
  let integrand := map (fun p => eres_integrand eff tau (fst p) (snd p)) (combine omega Sp) in
  Ok (sqrt (1 / trapz integrand omega) / const_e).

(** ** TESnoise *)

(** scipy.constants.k. *)
Definition const_k : R := 1380649 / 10 ^ 29.

(** Division of Python floats. *)
Definition fdiv (a b : R) : res R := if Reqb b 0 then Err ZeroDivisionError else Ok (a / b).

(** [a**b] of Python floats for [a >= 0].  A negative base (negative temperature) gives a complex
    number; this is not modelled and represented by TypeError. *)
Definition fpow (a b : R) : res R :=
  if Rltb 0 a then Ok (Rpower a b)
  else if Rltb a 0 then Err TypeError
  else if Reqb b 0 then Ok 1 else if Rltb 0 b then Ok 0 else Err ZeroDivisionError.

(** qetpy/sim/_sim.py:280-306. *)
Record tes : Type := mkTes {
  t_rload : R; t_r0 : R; t_rshunt : R; t_beta : R; t_loopgain : R; t_inductance : R; t_tau0 : R;
  t_qetbias : R; t_i0 : R; t_tc : R; t_tload : R; t_G : R; t_tbath : R; t_n : R; t_lgcb : bool;
  t_squiddc : R; t_squidpole : R; t_squidn : R; t_ftfn : R }.

(** qetpy/sim/_sim.py:303-306. *)
Definition f_tfn (tbath tc n : R) (lgcb : bool) : res R :=
  if lgcb then
    do q <- fdiv tbath tc; do p <- fpow q (n + 1); Ok ((p + 1) / 2)
  else
    do a <- fdiv n (2 * n + 1);
    do q <- fdiv tbath tc; do p <- fpow q (2 * n + 1);
    do p' <- fpow q n;
    fdiv (a * (p - 1)) (p' - 1).

(** qetpy/sim/_sim.py:226-306.  The frequencies are arguments of the methods here. *)
Definition tes_init (rload r0 rshunt beta loopgain inductance tau0 G qetbias tc tload tbath n : R) (lgcb : bool)
    (squiddc squidpole squidn : R) : res tes :=
  do i0 <- fdiv (qetbias * rshunt) (r0 + rload);
  do ft <- f_tfn tbath tc n lgcb;
  Ok (mkTes rload r0 rshunt beta loopgain inductance tau0 qetbias i0 tc tload G tbath n lgcb squiddc squidpole squidn ft).

(** [1.0j*omega] with [omega = 2.0*np.pi*freqs]; qetpy/sim/_sim.py:327-328, 350-352, 634-635, 742-743. *)
Definition jomega (f : R) : C := (Ci * RtoC (2 * PI * f))%C.

Section Methods.
Variable t : tes.

(** qetpy/sim/_sim.py:328.  The float division [r0*loopgain/(1.0-loopgain)] comes first. *)
Definition dVdI (f : R) : res C :=
  do q <- fdiv (t_r0 t * t_loopgain t) (1 - t_loopgain t);
  Ok (RtoC (t_rload t + t_r0 t * (1 + t_beta t)) + jomega f * RtoC (t_inductance t)
      + RtoC (q * (2 + t_beta t)) / (1 + jomega f * RtoC (t_tau0 t) / RtoC (1 - t_loopgain t)))%C.
(** qetpy/sim/_sim.py:308-329. *)
Definition dIdV (f : R) : res C := do z <- dVdI f; Ok (1 / z)%C.

(** qetpy/sim/_sim.py:331-352. *)
Definition dIdP (f : R) : res C :=
  do a <- fdiv 1 (t_i0 t);
  do il <- fdiv 1 (t_loopgain t);
  do b <- fdiv a (1 - il);
  do y <- dIdV f;
  Ok (RtoC b / (1 + jomega f * RtoC (t_tau0 t) / RtoC (1 - t_loopgain t)) * y)%C.

(** qetpy/sim/_sim.py:354-374. *)
Definition s_vload : R := 4 * const_k * t_tload t * t_rload t.
(** qetpy/sim/_sim.py:376-396. *)
Definition s_iload (f : R) : res R := do y <- dIdV f; Ok (s_vload * Cmod y ^ 2).
(** qetpy/sim/_sim.py:398-417. *)
Definition s_pload (f : R) : res R := do s <- s_iload f; do p <- dIdP f; Ok (s / Cmod p ^ 2).
(** qetpy/sim/_sim.py:419-438. *)
Definition s_vtes : R := 4 * const_k * t_tc t * t_r0 t * (1 + t_beta t) ^ 2.
(** qetpy/sim/_sim.py:440-460. *)
Definition s_ites (f : R) : res R :=
  do y <- dIdV f; do p <- dIdP f; Ok (s_vtes * Cmod (y - RtoC (t_i0 t) * p)%C ^ 2).
(** qetpy/sim/_sim.py:462-481. *)
Definition s_ptes (f : R) : res R := do s <- s_ites f; do p <- dIdP f; Ok (s / Cmod p ^ 2).
(** qetpy/sim/_sim.py:483-502. *)
Definition s_ptfn : R := 4 * const_k * t_tc t ^ 2 * t_G t * t_ftfn t.
(** qetpy/sim/_sim.py:504-523. *)
Definition s_itfn (f : R) : res R := do p <- dIdP f; Ok (s_ptfn * Cmod p ^ 2).
(** qetpy/sim/_sim.py:525-545, for [squidpole/freqs >= 0] and [squidn >= 0] (other bases give nan). *)
Definition s_isquid (f : R) : R :=
  let q := t_squidpole t / f in
  let p := if Rltb 0 q then Rpower q (t_squidn t) else if Reqb (t_squidn t) 0 then 1 else 0 in
  (t_squiddc t * (1 + p)) ^ 2.
(** qetpy/sim/_sim.py:547-568. *)
Definition s_psquid (f : R) : res R := do p <- dIdP f; Ok (s_isquid f / Cmod p ^ 2).
(** qetpy/sim/_sim.py:570-590. *)
Definition s_itot (f : R) : res R :=
  do a <- s_iload f; do b <- s_ites f; do c <- s_itfn f; Ok (a + b + c + s_isquid f).
(** qetpy/sim/_sim.py:592-612. *)
Definition s_ptot (f : R) : res R := do s <- s_itot f; do p <- dIdP f; Ok (s / Cmod p ^ 2).

(** qetpy/sim/_sim.py:614-635. *)
Definition dIdVnormal (f : R) : C := (1 / (RtoC (t_rload t + t_r0 t) + jomega f * RtoC (t_inductance t)))%C.
(** qetpy/sim/_sim.py:637-656. *)
Definition s_iloadnormal (f : R) : R := s_vload * Cmod (dIdVnormal f) ^ 2.
(** qetpy/sim/_sim.py:658-677. *)
Definition s_vtesnormal : R := 4 * const_k * t_tc t * t_r0 t.
(** qetpy/sim/_sim.py:679-698. *)
Definition s_itesnormal (f : R) : R := s_vtesnormal * Cmod (dIdVnormal f) ^ 2.
(** qetpy/sim/_sim.py:700-720. *)
Definition s_itotnormal (f : R) : R := s_iloadnormal f + s_itesnormal f + s_isquid f.
(** qetpy/sim/_sim.py:722-743. *)
Definition dIdVsc (f : R) : C := (1 / (RtoC (t_rload t) + jomega f * RtoC (t_inductance t)))%C.
(** qetpy/sim/_sim.py:745-764. *)
Definition s_iloadsc (f : R) : R := s_vload * Cmod (dIdVsc f) ^ 2.
(** qetpy/sim/_sim.py:766-786. *)
Definition s_itotsc (f : R) : R := s_iloadsc f + s_isquid f.
End Methods.

(** ** loadfromdidv *)

(** A Python string: its text, and whether it is the interned object of that text.  A literal in
    the caller's source is interned; a string computed at run time is not. *)
Inductive ntype := NTransition | NSuperconducting | NNormal | NOther.
Record pystr : Type := mkStr { text : ntype; interned : bool }.
Definition ntype_eqb (a b : ntype) : bool :=
  match a, b with
  | NTransition, NTransition | NSuperconducting, NSuperconducting | NNormal, NNormal => true
  | _, _ => false
  end.
(** [s is "..."]; qetpy/sim/_sim.py:100, 115, 131. *)
Definition is_lit (s : pystr) (t : ntype) : bool := ntype_eqb (text s) t && interned s.

(** The fit results of a DIDV object (both dictionaries) or of a DIDVPriors object (only
    'params'); qetpy/core/didv/_didv.py:556-652, qetpy/core/didv/_didv_priors.py:395-475. *)
Inductive didvobj := ObjDidv (o : didv) | ObjPriors (r1 r2 r3 : option (list R)).

(** [fitresult[key]] of the given number of poles; a missing fit gives the empty dictionary, so
    KeyError; qetpy/sim/_sim.py:101-106, 132-137. *)
Definition didv_dict (obj : didvobj) (poles : nat) : res tesargs :=
  match obj with
  | ObjDidv o => match fitresult poles o with Some r => Ok (ss_args (r_ss r)) | None => Err KeyError end
  | ObjPriors r1 r2 r3 =>
      match (match poles with 1%nat => r1 | 2%nat => r2 | _ => r3 end) with
      | Some p => Ok (ss_args p)
      | None => Err KeyError
      end
  end.

(** [didv_dict['key']] *)
Definition key (x : option R) : res R := match x with Some v => Ok v | None => Err KeyError end.

(** qetpy/sim/_sim.py:44-166; the defaults [n = 5.0], [lgcb = True] are those of TESnoise. *)
Definition loadfromdidv (obj : didvobj) (G qetbias tc tload tbath squiddc squidpole squidn : R) (rnormal : option R)
    (noisetype : pystr) : res tes :=
  if is_lit noisetype NSuperconducting then
    do d <- didv_dict obj 1;
    do rsh <- key (a_rsh d); do rp <- key (a_rp d); do L <- key (a_L d);
    tes_init (rsh + rp) 0 rsh 0 0 L 0 0 qetbias tc tload tbath 5 true squiddc squidpole squidn
  else if is_lit noisetype NNormal then Err ValueError
  else if is_lit noisetype NTransition then
    do d <- didv_dict obj 2;
    do rsh <- key (a_rsh d); do rp <- key (a_rp d); do L <- key (a_L d);
    do r0 <- key (a_r0 d); do beta <- key (a_beta d); do l <- key (a_l d); do tau0 <- key (a_tau0 d);
    tes_init (rsh + rp) r0 rsh beta l L tau0 G qetbias tc tload tbath 5 true squiddc squidpole squidn
  else Err ValueError.
