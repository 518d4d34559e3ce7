(** * Model of qetpy/core/didv/_base_didv.py and _didv.py *)
From Coq Require Import Reals.
From Coquelicot Require Import Complex.
From Verif Require Import Base Dft UtilsModel.
Local Open Scope R_scope.

(** ** Parameters passed by keyword *)

(** The keyword arguments of compleximpedance and squarewaveresponse ([None] as in Python);
    qetpy/core/didv/_base_didv.py:75-76, 266-268. *)
Record tesargs : Type := mkArgs {
  a_rsh : option R; a_rp : option R; a_r0 : option R; a_beta : option R; a_l : option R;
  a_L : option R; a_tau0 : option R; a_gratio : option R; a_tau3 : option R }.

(** [x is not None]; qetpy/core/didv/_base_didv.py:35-40. *)
Definition given {A} (x : option A) : bool := match x with Some _ => true | None => false end.

(** qetpy/core/didv/_base_didv.py:18-42. *)
Definition pole_extractor (a : tesargs) : res nat :=
  let one := given (a_rsh a) && given (a_rp a) && given (a_L a) in
  let two := given (a_rsh a) && given (a_rp a) && given (a_r0 a) && given (a_L a) && given (a_l a)
             && given (a_beta a) && given (a_tau0 a) in
  let three := two && given (a_gratio a) && given (a_tau3 a) in
  if three then Ok 3%nat else if two then Ok 2%nat else if one then Ok 1%nat else Err ValueError.

(** The value of an argument known not to be None (the extractor has checked it);
    qetpy/core/didv/_base_didv.py:153-168. *)
Definition val (x : option R) : R := match x with Some v => v | None => 0 end.

(** ** Impedances *)

(** [2.0j*pi*freq]; qetpy/core/didv/_base_didv.py:504, 528, 553-556. *)
Definition jw (f : R) : C := (0, 2 * PI * f).

(** qetpy/core/didv/_base_didv.py:496-505. *)
Definition onepoleimpedance (f A tau2 : R) : C := (RtoC A * (1 + jw f * RtoC tau2))%C.
(** qetpy/core/didv/_base_didv.py:508-517. *)
Definition onepoleadmittance (f A tau2 : R) : C := (1 / onepoleimpedance f A tau2)%C.
(** qetpy/core/didv/_base_didv.py:520-529. *)
Definition twopoleimpedance (f A B tau1 tau2 : R) : C :=
  (RtoC A * (1 + jw f * RtoC tau2) + RtoC B / (1 + jw f * RtoC tau1))%C.
(** qetpy/core/didv/_base_didv.py:532-541. *)
Definition twopoleadmittance (f A B tau1 tau2 : R) : C := (1 / twopoleimpedance f A B tau1 tau2)%C.
(** qetpy/core/didv/_base_didv.py:544-557. *)
Definition threepoleimpedance (f A B C' tau1 tau2 tau3 : R) : C :=
  (RtoC A * (1 + jw f * RtoC tau2)
   + RtoC B / (1 + jw f * RtoC tau1 - RtoC C' / (1 + jw f * RtoC tau3)))%C.
(** qetpy/core/didv/_base_didv.py:560-569. *)
Definition threepoleadmittance (f A B C' tau1 tau2 tau3 : R) : C :=
  (1 / threepoleimpedance f A B C' tau1 tau2 tau3)%C.

(** ** Parameter conversions *)

(** qetpy/core/didv/_base_didv.py:752-813.  Other lengths leave [popt_out] unbound
    (UnboundLocalError, a NameError).  Divisions by zero (inf/nan in numpy) are excluded by
    the theorems' hypotheses. *)
Definition converttotesvalues (popt : list R) (rsh r0 rp : R) : res (list R) :=
  match popt with
  | [A; tau2; dt] => Ok [rsh; A - rsh; A * tau2; dt]
  | [A; B; tau1; tau2; dt] =>
      let rload := rsh + rp in
      let beta := (A - rload) / r0 - 1 in
      let l := B / (A + B + r0 - rload) in
      let L := A * tau2 in
      let tau := tau1 * (A + r0 - rload) / (A + B + r0 - rload) in
      Ok [rsh; rp; r0; beta; l; L; tau; dt]
  | [A; B; C'; tau1; tau2; tau3; dt] =>
      let rload := rsh + rp in
      let beta := (A - rload) / r0 - 1 in
      let l := B / (A + B + r0 - rload) in
      let L := A * tau2 in
      let tau0 := tau1 * (A + r0 - rload) / (A + B + r0 - rload) in
      let gratio := C' * (A + r0 - rload) / (A + B + r0 - rload) in
      Ok [rsh; rp; r0; beta; l; L; tau0; gratio; tau3; dt]
  | _ => Err NameError
  end.

(** qetpy/core/didv/_base_didv.py:816-879. *)
Definition convertfromtesvalues (popt : list R) : res (list R) :=
  match popt with
  | [rsh; rp; L; dt] => Ok [rsh + rp; L / (rsh + rp); dt]
  | [rsh; rp; r0; beta; l; L; tau0; dt] =>
      let A := rsh + rp + r0 * (1 + beta) in
      let B := r0 * l / (1 - l) * (2 + beta) in
      let tau1 := tau0 / (1 - l) in
      let tau2 := L / (rsh + rp + r0 * (1 + beta)) in
      Ok [A; B; tau1; tau2; dt]
  | [rsh; rp; r0; beta; l; L; tau0; gratio; tau3; dt] =>
      let A := rsh + rp + r0 * (1 + beta) in
      let B := r0 * l / (1 - l) * (2 + beta) in
      let C' := gratio / (1 - l) in
      let tau1 := tau0 / (1 - l) in
      let tau2 := L / (rsh + rp + r0 * (1 + beta)) in
      Ok [A; B; C'; tau1; tau2; tau3; dt]
  | _ => Err NameError
  end.

(** ** compleximpedance, complexadmittance *)

(** The tuple of TES values of each model; qetpy/core/didv/_base_didv.py:155, 160, 165. *)
Definition tes_tuple (poles : nat) (a : tesargs) : list R :=
  match poles with
  | 1%nat => [val (a_rsh a); val (a_rp a); val (a_L a); 0]
  | 2%nat => [val (a_rsh a); val (a_rp a); val (a_r0 a); val (a_beta a); val (a_l a); val (a_L a);
              val (a_tau0 a); 0]
  | _ => [val (a_rsh a); val (a_rp a); val (a_r0 a); val (a_beta a); val (a_l a); val (a_L a);
          val (a_tau0 a); val (a_gratio a); val (a_tau3 a); 0]
  end.

(** qetpy/core/didv/_base_didv.py:75-168, at one frequency (the function is elementwise). *)
Definition compleximpedance (f : R) (a : tesargs) : res C :=
  do poles <- pole_extractor a;
  do p <- convertfromtesvalues (tes_tuple poles a);
  match p with
  | [A; tau2; _] => Ok (onepoleimpedance f A tau2)
  | [A; B; tau1; tau2; _] => Ok (twopoleimpedance f A B tau1 tau2)
  | [A; B; C'; tau1; tau2; tau3; _] => Ok (threepoleimpedance f A B C' tau1 tau2 tau3)
  | _ => Err ValueError
  end.

(** qetpy/core/didv/_base_didv.py:172-263. *)
Definition complexadmittance (f : R) (a : tesargs) : res C :=
  do z <- compleximpedance f a; Ok (1 / z)%C.

(** ** Square waves *)

(** [np.mod(x, 2)]; qetpy/core/didv/_base_didv.py:598, 603. *)
Definition mod2 (x : R) : R := x - 2 * IZR (Int_part (x / 2)).
(** [np.abs(np.mod(x, 2)-1) < 1e-8]; qetpy/core/didv/_base_didv.py:598, 603, 609. *)
Definition near_odd (x : R) : bool := Rltb (Rabs (mod2 x - 1)) (1 / 10 ^ 8).
(** [np.exp(-2.0j*pi*x)]; qetpy/core/didv/_base_didv.py:606, 613. *)
Definition expm (x : R) : C := cis (- (2 * PI * x)).

(** The analytic DFT of the square wave at frequency index [k] of [n], frequency [f];
    qetpy/core/didv/_base_didv.py:591-614, 645-668.  [2 * d == 1] is [dutycycle==0.5]. *)
Definition squarewave (n : nat) (sgamp rsh sgfreq duty f : R) (k : nat) : C :=
  let x := f / sgfreq in
  if Req_EM_T duty (1 / 2) then
    if near_odd (Rabs x) then (Ci / RtoC (PI * x) * RtoC (sgamp * rsh * INR n))%C else RtoC 0
  else
    let v := (- Ci / RtoC (2 * PI * x) * RtoC (sgamp * rsh * INR n) * (expm (x * duty) - 1))%C in
    let odd := near_odd (Rabs x) in
    let even := near_odd (Rabs x + 1) && negb (k =? 0)%nat in
    if even then v else if odd then v else RtoC 0.

(** [freq = fftfreq(len(x), d=x[1]-x[0])]; qetpy/core/didv/_base_didv.py:584-585, 640-641. *)
Definition didvfreq (n : nat) (t : nat -> R) (k : nat) : R := fftfreq n (1 / (t 1%nat - t 0%nat)) k.

(** qetpy/core/didv/_base_didv.py:572-624; [len(x) < 2] raises IndexError. *)
Definition convolvedidv (n : nat) (t : nat -> R) (A B C' tau1 tau2 tau3 sgamp rsh sgfreq duty : R) : res (list R) :=
  if (n <? 2)%nat then Err IndexError else
  let freq := didvfreq n t in
  let sftes k := (squarewave n sgamp rsh sgfreq duty (freq k) k
                  * threepoleadmittance (freq k) A B C' tau1 tau2 tau3)%C in
  Ok (mk n (fun j => fst (idft n sftes (Z.of_nat j)))).

(** qetpy/core/didv/_base_didv.py:627-692.  For bin [k]: the admittance ([None]: nan, which is
    what a vanishing FFT of the trace leads to) and the zero flag. *)
Definition deconvolvedidv (n : nat) (t trace : nat -> R) (rsh sgamp sgfreq duty : R) (k : nat) : option C * bool :=
  let freq := didvfreq n t in
  let st := dft n (fun j => RtoC (trace j)) (Z.of_nat k) in
  let sf := if (k =? n / 2)%nat then RtoC 0 else squarewave n sgamp rsh sgfreq duty (freq k) k in
  if Ceq_dec st (RtoC 0) then (None, false) else
  let dvdi := (sf / st)%C in
  let zero := Rltb (Cmod dvdi) (1 / 10 ^ 16) in
  let dvdi := if zero then (1, 1) else dvdi in
  (Some (1 / dvdi)%C, zero).

(** qetpy/core/didv/_base_didv.py:266-374. *)
Definition squarewaveresponse (n : nat) (t : nat -> R) (sgamp sgfreq duty : R) (a : tesargs) : res (list R) :=
  do poles <- pole_extractor a;
  do p <- convertfromtesvalues (tes_tuple poles a);
  match p with
  | [A; tau2; _] => convolvedidv n t A 0 0 0 tau2 0 sgamp (val (a_rsh a)) sgfreq duty
  | [A; B; tau1; tau2; _] => convolvedidv n t A B 0 tau1 tau2 0 sgamp (val (a_rsh a)) sgfreq duty
  | [A; B; C'; tau1; tau2; tau3; _] => convolvedidv n t A B C' tau1 tau2 tau3 sgamp (val (a_rsh a)) sgfreq duty
  | _ => Err ValueError
  end.

(** ** Fall times *)

(** Insertion, part of [np.sort]; qetpy/core/didv/_base_didv.py:934. *)
Fixpoint insert (x : R) (l : list R) : list R :=
  match l with
  | [] => [x]
  | y :: r => if Rleb x y then x :: l else y :: insert x r
  end.
(** [np.sort]; qetpy/core/didv/_base_didv.py:934. *)
Definition npsort (l : list R) : list R := fold_right insert [] l.

(** The equations of qetpy/core/didv/_base_didv.py:901-905. *)
Definition twopoleequations (A B tau1 tau2 : R) (p : R * R) : R * R :=
  let (taup, taum) := p in
  (taup + taum - A / (A + B) * (tau1 + tau2), taup * taum - A / (A + B) * tau1 * tau2).
(** The equations of qetpy/core/didv/_base_didv.py:915-924. *)
Definition threepoleequations (A B C' tau1 tau2 tau3 : R) (p : R * R * R) : R * R * R :=
  match p with
  | (taup, taum, taun) =>
    (taup + taum + taun - (A * tau1 + A * (1 - C') * tau2 + (A + B) * tau3) / (A * (1 - C') + B),
     taup * taum + taup * taun + taum * taun - (tau1 * tau2 + tau1 * tau3 + tau2 * tau3) * A / (A * (1 - C') + B),
     taup * taum * taun - tau1 * tau2 * tau3 * A / (A * (1 - C') + B))
  end.

(** scipy's [fsolve] is an oracle (equations, start) -> point; qetpy/core/didv/_base_didv.py:907, 926. *)
Record fsolver : Type := mkFsolve {
  fsolve2 : (R * R -> R * R) -> R * R -> R * R;
  fsolve3 : (R * R * R -> R * R * R) -> R * R * R -> R * R * R }.

(** qetpy/core/didv/_base_didv.py:882-934. *)
Definition findpolefalltimes (fsolve : fsolver) (params : list R) : list R :=
  npsort match params with
  | [_; tau2; _] => [tau2]
  | [A; B; tau1; tau2; _] =>
      let (taup, taum) := fsolve2 fsolve (twopoleequations A B tau1 tau2) (tau1, tau2) in [taup; taum]
  | [A; B; C'; tau1; tau2; tau3; _] =>
      match fsolve3 fsolve (threepoleequations A B C' tau1 tau2 tau3) (tau1, tau2, tau3) with
      | (taup, taum, taun) => [taup; taum; taun]
      end
  | _ => [0]
  end.

(** ** Start values *)

(** [max(trace)] and [min(trace)]; qetpy/core/didv/_base_didv.py:699, 729. *)
Definition maxl (l : list R) : R := match l with [] => 0 | x :: r => fold_left Rmax r x end.
(** qetpy/core/didv/_base_didv.py:699. *)
Definition minl (l : list R) : R := match l with [] => 0 | x :: r => fold_left Rmin r x end.

(** qetpy/core/didv/_base_didv.py:695-702. *)
Definition squarewaveguessparams (trace : list R) (sgamp rsh : R) : R * R :=
  (sgamp * rsh / (maxl trace - minl trace), 1 / 10 ^ 6).

(** qetpy/core/didv/_base_didv.py:705-750: (A0, B0, tau10, tau20, isloopgainsub1).
    Means of empty arrays and divisions by zero (nan, inf) are excluded by the theorems. *)
Definition guessdidvparams (trace flatpts : list R) (sgamp rsh L0 : R) : R * R * R * R * bool :=
  let dis_mean := lmean trace in
  let flatpts_mean := lmean flatpts in
  let isloopgainsub1 := Rltb flatpts_mean dis_mean in
  let dis0 := 2 * Rabs (flatpts_mean - dis_mean) in
  let didv0 := dis0 / (sgamp * rsh) in
  let dis_flat := maxl trace - flatpts_mean in
  let didvflat := dis_flat / (sgamp * rsh) in
  let A0 := 1 / didvflat in
  let tau20 := L0 / A0 in
  if isloopgainsub1 then
    let B0 := 1 / didv0 - A0 in
    let B0 := if Rltb 0 B0 then - B0 else B0 in
    (A0, B0, - (100 / 10 ^ 6), tau20, true)
  else (A0, - (1) / didv0 - A0, - (100 / 10 ^ 7), tau20, false).

(** ** The fit *)

(** A bound: [None] is an infinity (minus for lower, plus for upper bounds);
    qetpy/core/didv/_didv.py:221-258. *)
Definition bound := option R.
(** scipy: [x0] must lie in the bounds; qetpy/core/didv/_didv.py:306-352. *)
Definition in_bound (lo hi : bound) (x : R) : bool :=
  match lo with Some a => Rleb a x | None => true end && match hi with Some b => Rleb x b | None => true end.

(** The start vector, its mirror, and the two pairs of bounds; qetpy/core/didv/_didv.py:214-258. *)
Definition start1 (poles : nat) (A0 B0 C0 tau10 tau20 tau30 dt : R) : list R :=
  match poles with
  | 1%nat => [A0; tau20; dt]
  | 2%nat => [A0; B0; tau10; tau20; dt]
  | _ => [A0; B0; C0; tau10; tau20; tau30; dt]
  end.
(** qetpy/core/didv/_didv.py:222, 235, 250. *)
Definition start2 (poles : nat) (A0 B0 C0 tau10 tau20 tau30 dt : R) : list R :=
  match poles with
  | 1%nat => [- A0; tau20; dt]
  | 2%nat => [A0; - B0; - tau10; tau20; dt]
  | _ => [A0; - B0; - C0; - tau10; tau20; tau30; dt]
  end.
(** qetpy/core/didv/_didv.py:216-219, 229-232, 244-247. *)
Definition bounds1 (poles : nat) : list (bound * bound) :=
  match poles with
  | 1%nat => [(Some 0, None); (Some 0, None); (None, None)]
  | 2%nat => [(Some 0, None); (None, Some 0); (None, Some 0); (Some 0, None); (None, None)]
  | _ => [(Some 0, None); (None, Some 0); (None, Some 0); (None, Some 0); (Some 0, None); (Some 0, None); (None, None)]
  end.
(** qetpy/core/didv/_didv.py:223-226, 236-239, 251-254. *)
Definition bounds2 (poles : nat) : list (bound * bound) :=
  match poles with
  | 1%nat => [(None, Some 0); (Some 0, None); (None, None)]
  | 2%nat => [(Some 0, None); (Some 0, None); (Some 0, None); (Some 0, None); (None, None)]
  | _ => [(Some 0, None); (Some 0, None); (Some 0, None); (Some 0, None); (Some 0, None); (Some 0, None); (None, None)]
  end.

(** The model admittance inside [_residual]; qetpy/core/didv/_didv.py:268-282. *)
Definition fit_admittance (params : list R) (f : R) : C :=
  match params with
  | [A; tau2; dt] => (onepoleadmittance f A tau2 * expm (f * dt))%C
  | [A; B; tau1; tau2; dt] => (twopoleadmittance f A B tau1 tau2 * expm (f * dt))%C
  | [A; B; C'; tau1; tau2; tau3; dt] => (threepoleadmittance f A B C' tau1 tau2 tau3 * expm (f * dt))%C
  | _ => RtoC 0
  end.

(** The data of a fit: frequency, didv, and error of every used bin; qetpy/core/didv/_didv.py:206, 298. *)
Definition fitdata := list (R * C * C).

(** The residual vector; qetpy/core/didv/_didv.py:260-298 (with [yerr] given, as dofit does). *)
Definition didv_residual (d : fitdata) (params : list R) : list R :=
  flat_map (fun p => match p with (f, y, e) =>
    let diff := (y - fit_admittance params f)%C in
    [fst diff * (1 / fst e); snd diff * (1 / snd e)] end) d.

(** scipy's [least_squares] followed by the covariance [inv(J^T J)]: an oracle
    (residual, start, bounds, scale) -> (x, cov, cost), or the exception of [inv];
    qetpy/core/didv/_didv.py:300-357. *)
Definition cov_t := list (list R).
(** qetpy/core/didv/_didv.py:300-357. *)
Definition fitter := (list R -> list R) -> list R -> list (bound * bound) -> list R -> res (list R * cov_t * R).

(** scipy's argument checks (infeasible start, non-positive scale: ValueError);
    qetpy/core/didv/_didv.py:328-352. *)
Definition least_squares (fit : fitter) (r : list R -> list R) (p0 : list R) (b : list (bound * bound)) (scale : list R)
  : res (list R * cov_t * R) :=
  if forallb (fun s => Rltb 0 s) scale then
    if forallb (fun q => in_bound (fst (snd q)) (snd (snd q)) (fst q)) (combine p0 b)
    then fit r p0 b scale else Err ValueError
  else Err ValueError.

(** No error is zero; a zero error gives an infinite weight and an infinite or undefined residual;
    qetpy/core/didv/_didv.py:290-298. *)
Definition finite_weights (d : fitdata) : bool :=
  forallb (fun p => negb (Reqb (fst (snd p)) 0) && negb (Reqb (snd (snd p)) 0)) d.

(** qetpy/core/didv/_didv.py:205-357 for [isloopgainsub1] not None (as dofit calls it).  scipy
    rejects residuals that are not finite at the start with a ValueError. *)
Definition fitdidv (fit : fitter) (d : fitdata) (A0 B0 C0 tau10 tau20 tau30 dt : R) (poles : nat) (sub1 : bool)
  : res (list R * cov_t * R) :=
  let p0 := start1 poles A0 B0 C0 tau10 tau20 tau30 dt in
  let p02 := start2 poles A0 B0 C0 tau10 tau20 tau30 dt in
  let scale := map Rabs p0 in
  if negb (finite_weights d) then Err ValueError else
  if sub1 then least_squares fit (didv_residual d) p02 (bounds2 poles) scale
  else least_squares fit (didv_residual d) p0 (bounds1 poles) scale.

(** ** The result dictionary *)

(** qetpy/core/didv/_didv.py:556-652. *)
Record fitres : Type := mkRes {
  r_params : list R; r_cov : cov_t; r_errors : list R; r_ss : list R; r_fall : list R; r_cost : R; r_didv0 : R }.

(** [**result['smallsignalparams']]; qetpy/core/didv/_didv.py:652. *)
Definition ss_args (ss : list R) : tesargs :=
  match ss with
  | [rsh; rp; L; _] => mkArgs (Some rsh) (Some rp) None None None (Some L) None None None
  | [rsh; rp; r0; beta; l; L; tau0; _] =>
      mkArgs (Some rsh) (Some rp) (Some r0) (Some beta) (Some l) (Some L) (Some tau0) None None
  | [rsh; rp; r0; beta; l; L; tau0; gratio; tau3; _] =>
      mkArgs (Some rsh) (Some rp) (Some r0) (Some beta) (Some l) (Some L) (Some tau0) (Some gratio) (Some tau3)
  | _ => mkArgs None None None None None None None None None
  end.

(** qetpy/core/didv/_didv.py:549-654. *)
Definition fitresult_of (params : list R) (cov : cov_t) (fall : list R) (cost rsh rp r0 : R) : res fitres :=
  do ss <- converttotesvalues params rsh r0 rp;
  do y <- complexadmittance 0 (ss_args ss);
  Ok (mkRes params cov (mk (length params) (fun i => sqrt (nth i (nth i cov []) 0))) ss fall cost (fst y)).

(** ** The object *)

(** Attributes set by processtraces that are numbers; qetpy/core/didv/_base_didv.py:1016-1043. *)
Record pdata : Type := mkData {
  d_tmean : list R; d_std : list C; d_mean : list C; d_zero : list bool; d_offset : R; d_offset_err : R }.
(** Attributes set by processtraces; [p_data = None] when every trace was cut (all nan);
    qetpy/core/didv/_base_didv.py:958-1043. *)
Record processed : Type := mkProc {
  p_time : list R; p_freq : list R; p_flat : list nat; p_ntraces : nat; p_traces : list (list R); p_data : option pdata }.

(** qetpy/core/didv/_base_didv.py:462-493. *)
Record didv : Type := mkDidv {
  raw : list (list R); dfs : R; dsgfreq : R; dsgamp : R; dr0 : R; drp : R; drsh : R; dtracegain : R; dduty : R;
  dadd180 : bool; ddt0 : R;
  dproc : option processed;
  dres1 : option fitres; dres2 : option fitres; dres3 : option fitres }.

(** [int(x)]; qetpy/core/didv/_base_didv.py:967, 990-995. *)
Definition ztrunc (x : R) : Z := if Rltb x 0 then (- Int_part (- x))%Z else Int_part x.

(** The indices [range(lo, hi)] of the flat part of period [i]; qetpy/core/didv/_base_didv.py:987-996. *)
Definition flat_range (period dt0 fs : R) (i : nat) : list Z :=
  let lo := (ztrunc ((INR i + 25 / 100) * period) + ztrunc (dt0 * fs))%Z in
  let hi := (ztrunc ((INR i + 48 / 100) * period) + ztrunc (dt0 * fs))%Z in
  map (fun k => (lo + Z.of_nat k)%Z) (seq 0 (Z.to_nat (hi - lo))).

(** [np.array(flatindstemp).flatten()] and the selection 0 < index < nbins.  Ranges of different
    lengths do not form an array: an exception (ValueError from numpy 1.24 on, TypeError at the
    comparison before); qetpy/core/didv/_base_didv.py:997-1001. *)
Definition flat_indices (period dt0 fs : R) (nperiods nbins : nat) : res (list nat) :=
  let rs := map (flat_range period dt0 fs) (seq 0 nperiods) in
  let lens := map (@length Z) rs in
  if forallb (fun a => (a =? nth 0 lens 0)%nat) lens then
    Ok (map Z.to_nat (filter (fun z => (0 <? z)%Z && (z <? Z.of_nat nbins)%Z) (concat rs)))
  else Err ValueError.

(** [stdcomplex(x)] of one bin; qetpy/core/didv/_base_didv.py:45-72. *)
Definition stdcomplex (x : list C) : C := (sqrt (lvar (map fst x)), sqrt (lvar (map snd x))).

(** A list of values none of which is nan; qetpy/core/didv/_base_didv.py:1022. *)
Fixpoint all_some {A} (l : list (option A)) : option (list A) :=
  match l with
  | [] => Some []
  | Some a :: r => match all_some r with Some r => Some (a :: r) | None => None end
  | None :: _ => None
  end.
(** The traces and admittances that survive the nan cut; qetpy/core/didv/_base_didv.py:1022-1025. *)
Definition keep_some {A B} (l : list (A * option B)) : list (A * B) :=
  flat_map (fun p => match snd p with Some b => [(fst p, b)] | None => [] end) l.

(** The complex mean; qetpy/core/didv/_base_didv.py:1040. *)
Definition cmean (l : list C) : C := (lmean (map fst l), lmean (map snd l)).

(** Body of processtraces once [dt0] has its value; qetpy/core/didv/_base_didv.py:946-1043.
    Real arithmetic: the rounding of the period count is treated separately (DidvFloat). *)
Definition process (o : didv) (dt0 : R) : res processed :=
  match raw o with
  | [] => Err IndexError
  | r0 :: _ =>
    let dt := 1 / dfs o in
    let nbinsraw := length r0 in
    let period := 1 / dsgfreq o in
    let nperiods := Int_part (INR nbinsraw * dt / period) in
    let indmax := Z.to_nat (ztrunc (IZR nperiods * dfs o / dsgfreq o)) in
    if (nbinsraw <? indmax)%nat then Err IndexError else
    let time := mk indmax (fun j => INR j * dt - dt0) in
    let traces := map (fun r => map (fun v => v / dtracegain o) (firstn indmax r)) (raw o) in
    do flat <- flat_indices (dfs o / dsgfreq o) dt0 (dfs o) (Z.to_nat nperiods) indmax;
    if (indmax <? 2)%nat then Err IndexError else
    let t j := nth j time 0 in
    let decon (tr : list R) :=
      deconvolvedidv indmax t (fun j => nth j tr 0) (drsh o) (dsgamp o) (dsgfreq o) (dduty o) in
    let kept := keep_some (map (fun tr => (tr, all_some (mk indmax (fun k => fst (decon tr k))))) traces) in
    let good := map fst kept in
    let didvs := map snd kept in
    let m := length kept in
    let data :=
      if (m =? 0)%nat then None else
      let tmean := mk indmax (fun k => lmean (map (fun tr => nth k tr 0) good)) in
      let zero := mk indmax (fun k => snd (decon tmean k)) in
      let std := mk indmax (fun k =>
        if nth k zero false then (100000000000000000000, 100000000000000000000)
        else (stdcomplex (map (fun d => nth k d (RtoC 0)) didvs) / RtoC (sqrt (INR m)))%C) in
      let mean := mk indmax (fun k => cmean (map (fun d => nth k d (RtoC 0)) didvs)) in
      let means := map lmean good in
      Some (mkData tmean std mean zero (lmean means) (sqrt (lvar means) / sqrt (INR m))) in
    Ok (mkProc time (mk indmax (didvfreq indmax t)) flat m good data)
  end.

(** [self._dt0] after the add180phase statement; qetpy/core/didv/_base_didv.py:953-954. *)
Definition shifted_dt0 (o : didv) : R := if dadd180 o then ddt0 o + 1 / (2 * dsgfreq o) else ddt0 o.

(** Assignment of attributes; qetpy/core/didv/_base_didv.py:954-1043. *)
Definition set_proc (o : didv) (dt0 : R) (p : option processed) : didv :=
  mkDidv (raw o) (dfs o) (dsgfreq o) (dsgamp o) (dr0 o) (drp o) (drsh o) (dtracegain o) (dduty o) (dadd180 o) dt0 p
    (dres1 o) (dres2 o) (dres3 o).
(** Assignment of a result; qetpy/core/didv/_didv.py:423, 464, 536. *)
Definition set_res (o : didv) (poles : nat) (r : fitres) : didv :=
  mkDidv (raw o) (dfs o) (dsgfreq o) (dsgamp o) (dr0 o) (drp o) (drsh o) (dtracegain o) (dduty o) (dadd180 o) (ddt0 o) (dproc o)
    (if (poles =? 1)%nat then Some r else dres1 o) (if (poles =? 2)%nat then Some r else dres2 o)
    (if (poles =? 3)%nat then Some r else dres3 o).

(** qetpy/core/didv/_base_didv.py:937-1043.  On an exception [dt0] stays shifted (except for the
    missing-trace IndexError, raised before); the half-set attributes of the failed call are not kept. *)
Definition processtraces (o : didv) : didv * res unit :=
  match raw o with
  | [] => (o, Err IndexError)
  | _ =>
    let dt0 := shifted_dt0 o in
    match process o dt0 with
    | Ok p => (set_proc o dt0 (Some p), Ok tt)
    | Err e => (set_proc o dt0 (dproc o), Err e)
    end
  end.

(** The bins of a fit; qetpy/core/didv/_didv.py:401, 411-413 ([fcutoff = None] is infinity). *)
Definition fit_bins (p : processed) (d : pdata) (fcutoff : option R) : fitdata :=
  map (fun q => (fst (fst q), snd (fst q), snd q))
   (filter (fun q => match fcutoff with None => true | Some c => Rltb (Rabs (fst (fst q))) c end)
      (combine (combine (p_freq p) (d_mean d)) (d_std d))).

(** The start values of dofit and the loop-gain flag; qetpy/core/didv/_didv.py:403-409, 435-444, 477-510:
    (A0, B0, C0, tau10, tau20, tau30, dt, sub1).  C0 = tau30 = 0 stand for the unused defaults of the
    1- and 2-pole fits. *)
Definition dofit_start (o : didv) (p : processed) (d : pdata) (poles : nat) : R * R * R * R * R * R * R * bool :=
  let flatpts := map (fun i => nth i (d_tmean d) 0) (p_flat p) in
  let g := guessdidvparams (d_tmean d) flatpts (dsgamp o) (drsh o) (1 / 10 ^ 7) in
  match poles with
  | 1%nat => let (A0, tau20) := squarewaveguessparams (d_tmean d) (dsgamp o) (drsh o) in
             (A0, 0, 0, 0, tau20, 0, ddt0 o, false)
  | 2%nat => match g with (A0, B0, tau10, tau20, sub1) => (A0, B0, 0, tau10, tau20, 0, ddt0 o, sub1) end
  | _ =>
    match g with (gA, gB, gtau1, gtau2, sub1) =>
      match dres2 o with
      | None => (gA, - Rabs gB, - (5 / 100), - Rabs gtau1, gtau2, 1 / 10 ^ 3, ddt0 o, sub1)
      | Some r =>
          (nth 0 (r_params r) 0, - Rabs (nth 1 (r_params r) 0), - (5 / 100), - Rabs (nth 2 (r_params r) 0),
           nth 3 (r_params r) 0, 1 / 10 ^ 3, nth 4 (r_params r) 0, sub1)
      end
    end
  end.

(** The fit proper, after processtraces; qetpy/core/didv/_didv.py:401-546.  All-nan data makes
    scipy raise ValueError. *)
Definition dofit_core (fit : fitter) (fs : fsolver) (poles : nat) (fcutoff : option R) (o : didv) : didv * res unit :=
  if (poles =? 1)%nat || (poles =? 2)%nat || (poles =? 3)%nat then
    match dproc o with
    | None => (o, Err TypeError)
    | Some p =>
      match p_data p with
      | None => (o, Err ValueError)
      | Some d =>
        let s := dofit_start o p d poles in
        match s with (A0, B0, C0, tau10, tau20, tau30, dt, sub1) =>
          match fitdidv fit (fit_bins p d fcutoff) A0 B0 C0 tau10 tau20 tau30 dt poles sub1 with
          | Err e => (o, Err e)
          | Ok (popt, pcov, cost) =>
            match fitresult_of popt pcov (findpolefalltimes fs popt) cost (drsh o) (drp o) (dr0 o) with
            | Err e => (o, Err e)
            | Ok r => (set_res o poles r, Ok tt)
            end
          end
        end
      end
    end
  else (o, Err ValueError).

(** qetpy/core/didv/_didv.py:360-546. *)
Definition dofit (fit : fitter) (fs : fsolver) (poles : nat) (fcutoff : option R) (o : didv) : didv * res unit :=
  match dproc o with
  | Some _ => dofit_core fit fs poles fcutoff o
  | None =>
    match processtraces o with
    | (o', Err e) => (o', Err e)
    | (o', Ok _) => dofit_core fit fs poles fcutoff o'
    end
  end.

(** The dictionary returned by fitresult: [Ok None] is the empty dict; poles outside 1,2,3 return
    Python's None, represented by [Ok None] as well; qetpy/core/didv/_base_didv.py:1046-1095. *)
Definition fitresult (poles : nat) (o : didv) : option fitres :=
  match poles with
  | 1%nat => dres1 o
  | 2%nat => dres2 o
  | 3%nat => dres3 o
  | _ => None
  end.

(** The constructor without resampling; qetpy/core/didv/_base_didv.py:387-493.  [fs mod sgfreq <> 0]
    raises ValueError ([autoresample] is modelled in UtilsModel). *)
Definition didv_init (rawtraces : list (list R)) (fs sgfreq sgamp rsh tracegain r0 rp duty : R) (add180 : bool) (dt0 : R) : res didv :=
  let q := fs / sgfreq in
  if Req_EM_T (IZR (Int_part q)) q then
    Ok (mkDidv rawtraces fs sgfreq sgamp r0 rp rsh tracegain duty add180 dt0 None None None None)
  else Err ValueError.

(** didvinitfromdata: an object with the processed data of another one;
    qetpy/core/didv/_didv.py:15-118. *)
Definition didvinitfromdata (tmean : list R) (didvmean didvstd : list C) (offset offset_err fs sgfreq sgamp rsh r0 rp : R)
    (add180 : bool) (dt0 : R) : res didv :=
  do o <- didv_init [] fs sgfreq sgamp rsh 1 r0 rp (1 / 2) add180 dt0;
  let n := length tmean in
  let dt0 := if add180 then dt0 + 1 / (2 * sgfreq) else dt0 in
  let nperiods := Int_part (INR n * sgfreq / fs) in
  do flat <- flat_indices (fs / sgfreq) dt0 fs (Z.to_nat nperiods) n;
  Ok (set_proc o dt0 (Some (mkProc (mk n (fun j => INR j / fs - dt0)) (mk n (fftfreq n fs)) flat 0 []
       (Some (mkData tmean didvstd didvmean [] offset offset_err))))).

(** The methods that change the object; qetpy/core/didv/_base_didv.py:937, _didv.py:360. *)
Inductive dop : Type := OpProcess | OpFit (poles : nat) (fcutoff : option R).
(** One call; qetpy/core/didv/_base_didv.py:937, _didv.py:360. *)
Definition run_didv (fit : fitter) (fs : fsolver) (op : dop) (o : didv) : didv * res unit :=
  match op with
  | OpProcess => processtraces o
  | OpFit poles fc => dofit fit fs poles fc o
  end.
(** A history; qetpy/core/didv/_base_didv.py:937, _didv.py:360. *)
Definition run_didvs (fit : fitter) (fs : fsolver) (ops : list dop) (o : didv) : didv :=
  fold_left (fun o op => fst (run_didv fit fs op o)) ops o.

(** ** DIDVPriors *)

(** The TES arguments of a parameter vector ([dt] is swallowed by kwargs or unpacked separately);
    qetpy/core/didv/_didv_priors.py:102, 115-117, 130-141, 163-179. *)
Definition priors_args (params : list R) : tesargs := ss_args params.

(** The scaled admittance times the time shift inside [_residual];
    qetpy/core/didv/_didv_priors.py:95-143, 163-179. *)
Definition priors_admittance (params : list R) (f : R) : res C :=
  do y <- complexadmittance f (priors_args params);
  Ok (RtoC (val (a_rsh (priors_args params))) * y * expm (f * last params 0))%C.

(** The residual vector, on data and errors scaled by [rsh]; qetpy/core/didv/_didv_priors.py:156-198, 365-372. *)
Definition priors_residual (rsh : R) (d : fitdata) (params : list R) : res (list R) :=
  fold_right (fun p acc => match p with (f, y, e) =>
    do r <- acc;
    do c <- priors_admittance params f;
    let diff := (y * RtoC rsh - c)%C in
    let e := (e * RtoC rsh)%C in
    Ok (fst diff * (1 / fst e) :: snd diff * (1 / snd e) :: r) end) (Ok []) d.

(** [(priors - params).dot(invpriorscov).dot(priors - params)]; qetpy/core/didv/_didv_priors.py:205-211. *)
Definition priors_form (priors params : list R) (inv : cov_t) : R :=
  let v i := nth i priors 0 - nth i params 0 in
  let n := length params in
  rsum n (fun i => rsum n (fun j => v i * nth j (nth i inv []) 0 * v j)).

(** The minimised function; [None]: the square root of a negative number (nan);
    qetpy/core/didv/_didv_priors.py:201-220. *)
Definition priors_nll (rsh : R) (d : fitdata) (priors : list R) (inv : cov_t) (params : list R) : res (option R) :=
  do r <- priors_residual rsh d params;
  let q := priors_form priors params inv in
  if Rltb q 0 then Ok None
  else Ok (Some (lsum (map (fun x => x ^ 2 / 2) r) + sqrt q ^ 2 / 2)).

(** The object whose fit supplies the start values; qetpy/core/didv/_didv_priors.py:248-262. *)
Definition priors_guess_object (o : didv) (d : pdata) (priors : list R) : res didv :=
  didvinitfromdata (d_tmean d) (d_mean d) (d_std d) (d_offset d) (d_offset_err d) (dfs o) (dsgfreq o) (dsgamp o) (drsh o)
    (if Req_EM_T (nth 2 priors 0) 0 then 1 / 10 else nth 2 priors 0)
    (if Req_EM_T (nth 1 priors 0) 0 then 1 / 100 else nth 1 priors 0)
    (dadd180 o) (ddt0 o).

(** Absolute values of all but the last (dt); qetpy/core/didv/_didv_priors.py:303. *)
Definition priors_guess (ss : list R) : list R := map Rabs (removelast ss) ++ [last ss 0].
(** qetpy/core/didv/_didv_priors.py:361. *)
Definition priors_start (guess priors : list R) : list R :=
  map (fun q => if Req_EM_T (snd q) 0 then fst q else snd q) (combine guess priors).

(** The result dictionary of a fit with priors; qetpy/core/didv/_didv_priors.py:393-475, 378-390. *)
Record priorsres : Type := mkPRes {
  q_params : list R; q_cov : cov_t; q_errors : list R; q_fall : list R; q_cost : R; q_didv0 : R;
  q_priors : list R; q_priorscov : cov_t }.

(** A DIDVPriors object: the attributes of the base class (whose own results stay unused) and the
    three results; qetpy/core/didv/_didv_priors.py:81-92. *)
Record pdidv : Type := mkPDidv {
  pd : didv; pres1 : option priorsres; pres2 : option priorsres; pres3 : option priorsres }.

(** Minuit as an oracle (function, start, limits, steps) -> (values, covariance, minimum);
    qetpy/core/didv/_didv_priors.py:222-238. *)
Definition minuit := (list R -> res (option R)) -> list R -> list (bound * bound) -> list R -> res (list R * cov_t * R).

(** Every parameter but the last is limited to non-negative values;
    qetpy/core/didv/_didv_priors.py:225. *)
Definition priors_limits (n : nat) : list (bound * bound) := repeat (Some 0, None) (n - 1) ++ [(None, None)].

(** qetpy/core/didv/_didv_priors.py:393-475. *)
Definition priors_result (params : list R) (cov : cov_t) (fall : list R) (cost : R) (priors : list R) (priorscov : cov_t)
  : res priorsres :=
  do y <- complexadmittance 0 (ss_args params);
  Ok (mkPRes params cov (mk (length params) (fun i => sqrt (nth i (nth i cov []) 0))) fall cost (fst y) priors priorscov).

(** Assignment of a result; qetpy/core/didv/_didv_priors.py:377-390. *)
Definition set_pres (o : pdidv) (poles : nat) (r : priorsres) : pdidv :=
  mkPDidv (pd o) (if (poles =? 1)%nat then Some r else pres1 o) (if (poles =? 2)%nat then Some r else pres2 o)
    (if (poles =? 3)%nat then Some r else pres3 o).

(** The fit with priors after processtraces; qetpy/core/didv/_didv_priors.py:353-390.  [pinv] is
    numpy's pseudo-inverse.  Fewer than three priors raise IndexError; a number of priors that does
    not fit the model fails inside the minimised function (ValueError). *)
Definition priors_core (fit : fitter) (fs : fsolver) (min : minuit) (pinv : cov_t -> cov_t) (poles : nat)
    (priors : list R) (priorscov : cov_t) (fcutoff : option R) (o : pdidv) : pdidv * res unit :=
  match dproc (pd o) with
  | None => (o, Err TypeError)
  | Some p =>
    if (length priors <? 3)%nat then (o, Err IndexError) else
    match p_data p with
    | None => (o, Err ValueError)
    | Some d =>
      match priors_guess_object (pd o) d priors with
      | Err e => (o, Err e)
      | Ok g =>
        match dofit fit fs poles fcutoff g with
        | (_, Err e) => (o, Err e)
        | (g', Ok _) =>
          match fitresult poles g' with
          | None => (o, Err KeyError)
          | Some r =>
            let guess := priors_guess (r_ss r) in
            if negb (length priors =? length guess)%nat then (o, Err ValueError) else
            let p0 := priors_start guess priors in
            match min (priors_nll (drsh (pd o)) (fit_bins p d fcutoff) priors (pinv priorscov)) p0
                    (priors_limits (length p0)) (map Rabs p0) with
            | Err e => (o, Err e)
            | Ok (params, cov, cost) =>
              match (do q <- convertfromtesvalues params;
                     priors_result params cov (findpolefalltimes fs q) cost priors priorscov) with
              | Err e => (o, Err e)
              | Ok r => (set_pres o poles r, Ok tt)
              end
            end
          end
        end
      end
    end
  end.

(** DIDVPriors.dofit; qetpy/core/didv/_didv_priors.py:306-390. *)
Definition priors_dofit (fit : fitter) (fs : fsolver) (min : minuit) (pinv : cov_t -> cov_t) (poles : nat)
    (priors : list R) (priorscov : cov_t) (fcutoff : option R) (o : pdidv) : pdidv * res unit :=
  match dproc (pd o) with
  | Some _ => priors_core fit fs min pinv poles priors priorscov fcutoff o
  | None =>
    match processtraces (pd o) with
    | (b, Err e) => (mkPDidv b (pres1 o) (pres2 o) (pres3 o), Err e)
    | (b, Ok _) => priors_core fit fs min pinv poles priors priorscov fcutoff (mkPDidv b (pres1 o) (pres2 o) (pres3 o))
    end
  end.

(** fitresult of a DIDVPriors object; qetpy/core/didv/_base_didv.py:1067-1095. *)
Definition priors_fitresult (poles : nat) (o : pdidv) : option priorsres :=
  match poles with
  | 1%nat => pres1 o
  | 2%nat => pres2 o
  | 3%nat => pres3 o
  | _ => None
  end.

(** ** Time offset of the plots *)

(** [min((val, ii) ...)] over the fits that were run: the lexicographic minimum, that is the first
    of the lowest costs; qetpy/core/didv/_plot_didv.py:33-38. *)
Fixpoint min_cost (l : list (option (R * R))) (best : option (R * R)) : option (R * R) :=
  match l with
  | [] => best
  | None :: r => min_cost r best
  | Some (cost, dt) :: r =>
      match best with
      | Some (c, _) => min_cost r (if Rltb cost c then Some (cost, dt) else best)
      | None => min_cost r (Some (cost, dt))
      end
  end.
(** qetpy/core/didv/_plot_didv.py:10-40, on the cost and the time offset of the three results. *)
Definition best_time_offset (results : list (option (R * R))) : R :=
  match min_cost results None with Some (_, dt) => dt | None => 0 end.
(** The costs and time offsets of a DIDV object; qetpy/core/didv/_plot_didv.py:17-30. *)
Definition offsets_of (o : didv) : list (option (R * R)) :=
  map (option_map (fun r => (r_cost r, last (r_params r) 0))) [dres1 o; dres2 o; dres3 o].
