(** * Model of the classes OFnonlin and MuonTailFit of qetpy/core/_fitting.py

    Reals stand for doubles, so rounding is not modelled.  [None] stands for nan or infinity. *)
From Coq Require Import Reals ZArith List Bool Lia Lra.
From Verif Require Import Base Dft UtilsModel WindowModel CutModel OFModel.
From Coquelicot Require Import Complex.
Import ListNotations.
Local Open Scope R_scope.

(** ** Pulse shapes in the frequency domain *)

(** [2*np.pi*self.freqs]; qetpy/core/_fitting.py:1657, 1712, 1817, 1912, 2456. *)
Definition omega (n : nat) (fs : R) (k : nat) : R := 2 * PI * fftfreq n fs k.
(** [np.exp(-1j*omega*t0)]; qetpy/core/_fitting.py:1713, 1818, 1924, 1932. *)
Definition delay_phase (w t0 : R) : C := cis (- (w * t0)).
(** [tau/(1 + omega*tau*1j)]; qetpy/core/_fitting.py:1716, 1821, 1928. *)
Definition pole (tau w : R) : C := (RtoC tau / (1 + RtoC (w * tau) * Ci))%C.
(** [np.sqrt(self.df)], df = fs/len(psd); qetpy/core/_fitting.py:1656, 2426. *)
Definition sqrt_df (n : nat) (fs : R) : R := sqrt (fs / INR n).

(** qetpy/core/_fitting.py:1712-1725. *)
Definition fourpole (n : nat) (fs A B D tau_r tau_f1 tau_f2 tau_f3 t0 : R) (k : nat) : C :=
  let w := omega n fs k in
  ((RtoC A * pole tau_f1 w + RtoC B * pole tau_f2 w + RtoC D * pole tau_f3 w
    - RtoC (A + B + D) * pole tau_r w) * delay_phase w t0 * RtoC (sqrt_df n fs))%C.
(** qetpy/core/_fitting.py:1817-1828. *)
Definition threepole (n : nat) (fs A B tau_r tau_f1 tau_f2 t0 : R) (k : nat) : C :=
  let w := omega n fs k in
  ((RtoC A * pole tau_f1 w + RtoC B * pole tau_f2 w - RtoC (A + B) * pole tau_r w)
   * delay_phase w t0 * RtoC (sqrt_df n fs))%C.

(** [A / (rat**(-tau_r/delta) - rat**(-tau_f/delta))]; qetpy/core/_fitting.py:1915-1917, 1972-1974.
    [None]: equal time constants (nan with numpy numbers), or a ratio of time constants that is not
    positive (simplification: those powers are not modelled). *)
Definition scaled_amp (A tau_r tau_f : R) : option R :=
  let delta := tau_r - tau_f in
  let rat := tau_r / tau_f in
  if Reqb delta 0 then None
  else if Rltb 0 rat then Some (A / (Rpower rat (- tau_r / delta) - Rpower rat (- tau_f / delta)))
  else None.

(** qetpy/core/_fitting.py:1912-1934. *)
Definition twopole (n : nat) (fs : R) (scale_amplitude : bool) (A tau_r tau_f t0 : R) : option (nat -> C) :=
  if scale_amplitude then
    match scaled_amp A tau_r tau_f with
    | Some amp => Some (fun k => let w := omega n fs k in
        (RtoC (amp * Rabs (tau_r - tau_f)) / (1 + RtoC (w * tau_f) * Ci) / (1 + RtoC (w * tau_r) * Ci)
         * delay_phase w t0 * RtoC (sqrt_df n fs))%C)
    | None => None
    end
  else Some (fun k => let w := omega n fs k in
        ((RtoC A * pole tau_f w - RtoC A * pole tau_r w) * delay_phase w t0 * RtoC (sqrt_df n fs))%C).

(** [onepole]: the rise time is the attribute [taurise], initially None, which raises TypeError;
    qetpy/core/_fitting.py:1664, 2010-2011. *)
Definition onepole (n : nat) (fs : R) (scale_amplitude : bool) (taurise : option R) (A tau_f t0 : R)
  : res (option (nat -> C)) :=
  match taurise with
  | Some tau_r => Ok (twopole n fs scale_amplitude A tau_r tau_f t0)
  | None => Err TypeError
  end.

(** ** Pulse shapes in the time domain *)

(** [self.time]; qetpy/core/_fitting.py:1658. *)
Definition nl_time (n : nat) (fs : R) : list R := mk n (fun k => INR k / fs).

(** qetpy/core/_fitting.py:1768-1777. *)
Definition fourpoletime (n : nat) (fs A B D tau_r tau_f1 tau_f2 tau_f3 t0 : R) : res (list R) :=
  shift (map (fun t => A * exp (- t / tau_f1) + B * exp (- t / tau_f2) + D * exp (- t / tau_f3)
                       - (A + B + D) * exp (- t / tau_r)) (nl_time n fs)) (int_trunc (t0 * fs)) 0.
(** qetpy/core/_fitting.py:1869-1876. *)
Definition threepoletime (n : nat) (fs A B tau_r tau_f1 tau_f2 t0 : R) : res (list R) :=
  shift (map (fun t => A * exp (- t / tau_f1) + B * exp (- t / tau_f2) - (A + B) * exp (- t / tau_r))
             (nl_time n fs)) (int_trunc (t0 * fs)) 0.
(** qetpy/core/_fitting.py:1971-1985.  [Ok None]: an array of nan. *)
Definition twopoletime (n : nat) (fs : R) (scale_amplitude : bool) (A tau_r tau_f t0 : R) : res (option (list R)) :=
  if scale_amplitude then
    match scaled_amp A tau_r tau_f with
    | Some amp =>
        do r <- shift (map (fun t => amp * (exp (- t / tau_f) - exp (- t / tau_r))) (nl_time n fs))
                      (int_trunc (t0 * fs)) 0;
        Ok (Some r)
    | None => Ok None
    end
  else
    do r <- shift (map (fun t => A * exp (- t / tau_f) - A * exp (- t / tau_r)) (nl_time n fs))
                  (int_trunc (t0 * fs)) 0;
    Ok (Some r).

(** ** Residuals and chi2 *)

(** [self.psd] of OFnonlin, with the zero-frequency bin overwritten; qetpy/core/_fitting.py:1651-1653. *)
Definition nl_psd (psd : list R) (k : nat) : R := if Nat.eqb k 0 then 10 ^ 40 else nth k psd 0.
(** [np.fft.fft(pulse)/self.norm]; qetpy/core/_fitting.py:1668, 2154, 2435, 2530. *)
Definition nl_data (fs : R) (pulse : list R) (k : nat) : C :=
  let n := length pulse in
  (dft n (fun j => RtoC (nth j pulse 0)) (Z.of_nat k) / RtoC (sqrt (fs * INR n)))%C.
(** [np.sqrt(self.psd/errscale)]; qetpy/core/_fitting.py:2155, 2531. *)
Definition nl_error (psd : nat -> R) (errscale : R) (k : nat) : R := sqrt (psd k / errscale).

(** [z1d]: real and imaginary parts interleaved; qetpy/core/_fitting.py:2048-2052, 2478-2481. *)
Definition z1d (n : nat) (data model : nat -> C) (error : nat -> R) : list R :=
  mk (2 * n) (fun i =>
    let d := (data (Nat.div2 i) - model (Nat.div2 i))%C in
    (if Nat.even i then fst d else snd d) / error (Nat.div2 i)).

(** Model selection by [npolefit] and unpacking of the parameters; qetpy/core/_fitting.py:2030-2047,
    2318-2358.  Every [npolefit] other than 2, 3, 4 is handled by the last branch. *)
Definition nl_model (n : nat) (fs : R) (npole : Z) (scale_amplitude : bool) (taurise : option R)
  (params : list R) : res (option (nat -> C)) :=
  if (npole =? 4)%Z then
    match params with
    | [A; B; D; tau_r; tau_f1; tau_f2; tau_f3; t0] => Ok (Some (fourpole n fs A B D tau_r tau_f1 tau_f2 tau_f3 t0))
    | _ => Err ValueError
    end
  else if (npole =? 3)%Z then
    match params with
    | [A; B; tau_r; tau_f1; tau_f2; t0] => Ok (Some (threepole n fs A B tau_r tau_f1 tau_f2 t0))
    | _ => Err ValueError
    end
  else if (npole =? 2)%Z then
    match params with
    | [A; tau_r; tau_f; t0] => Ok (twopole n fs scale_amplitude A tau_r tau_f t0)
    | _ => Err ValueError
    end
  else
    match params with
    | [A; tau_f; t0] => onepole n fs scale_amplitude taurise A tau_f t0
    | _ => Err ValueError
    end.

(** [residuals]; qetpy/core/_fitting.py:2030-2052.  [Ok None]: an array containing nan. *)
Definition nl_residuals (n : nat) (fs : R) (data : nat -> C) (error : nat -> R) (npole : Z)
  (scale_amplitude : bool) (taurise : option R) (params : list R) : res (option (list R)) :=
  do m <- nl_model n fs npole scale_amplitude taurise params;
  Ok (match m with Some f => Some (z1d n data f error) | None => None end).

(** [calcchi2] of MuonTailFit; qetpy/core/_fitting.py:2499. *)
Definition chi2_sum (n : nat) (data model : nat -> C) (error : nat -> R) : R :=
  rsum n (fun k => cn2 (data k - model k)%C / error k ^ 2).
(** [calcchi2] of OFnonlin; qetpy/core/_fitting.py:2072-2076.  As many bins as parameters: division by
    zero, which gives infinity or nan. *)
Definition nl_calcchi2 (n dof : nat) (data model : nat -> C) (error : nat -> R) : option R :=
  if Nat.eqb n dof then None else Some (chi2_sum n data model error / (INR n - INR dof)).

(** ** scipy.optimize.least_squares *)

Record lsq_result := mkLsq { lsq_x : list R; lsq_jac : nat -> nat -> R; lsq_success : bool }.

(** The minimizer itself: residual function, start, lower and upper bounds ([None] = infinite), scale. *)
Definition lsq_oracle :=
  (list R -> list R) -> list R -> list (option R) -> list (option R) -> list R -> lsq_result.

Definition lb_lt_ub (l u : option R) : bool := match l, u with Some l, Some u => Rltb l u | _, _ => true end.
Definition lb_le (l : option R) (x : R) : bool := match l with Some l => Rleb l x | None => true end.
Definition le_ub (x : R) (u : option R) : bool := match u with Some u => Rleb x u | None => true end.
Definition forall2b {A B} (f : A -> B -> bool) (l : list A) (m : list B) : bool :=
  forallb (fun p => f (fst p) (snd p)) (combine l m).

(** The argument checks of [scipy.optimize.least_squares]: matching shapes, lower bounds below upper
    bounds, start inside the bounds, positive scale, finite residuals at the start.  Each failure
    raises ValueError.  An exception of the residual function passes through.  Scalar bounds, which
    scipy broadcasts, are not modelled.  qetpy/core/_fitting.py:2304-2313, 2541-2550. *)
Definition least_squares (lsq : lsq_oracle) (resid : list R -> res (option (list R)))
  (x0 : list R) (bounds : list (option R) * list (option R)) (x_scale : list R) : res lsq_result :=
  let (lb, ub) := bounds in
  if negb (Nat.eqb (length lb) (length x0) && Nat.eqb (length ub) (length x0)) then Err ValueError
  else if negb (forall2b lb_lt_ub lb ub) then Err ValueError
  else if negb (forall2b lb_le lb x0 && forall2b le_ub x0 ub) then Err ValueError
  else if negb (forallb (fun s => Rltb 0 s) x_scale) then Err ValueError
  else
    do r <- resid x0;
    match r with
    | None => Err ValueError
    | Some _ => Ok (lsq (fun p => match resid p with Ok (Some z) => z | _ => [] end) x0 lb ub x_scale)
    end.

(** ** OFnonlin.fit_falltimes *)

(** Kinds of the fit parameters, in the order of [p0]; qetpy/core/_fitting.py:2260, 2274, 2286, 2295. *)
Inductive pkind := PAmp | PTau | PTime.
Definition nl_kinds (npole : Z) : list pkind :=
  if (npole =? 4)%Z then [PAmp; PAmp; PAmp; PTau; PTau; PTau; PTau; PTime]
  else if (npole =? 3)%Z then [PAmp; PAmp; PTau; PTau; PTau; PTime]
  else if (npole =? 2)%Z then [PAmp; PTau; PTau; PTime]
  else [PAmp; PTau; PTime].
(** [self.dof]; qetpy/core/_fitting.py:2259, 2273, 2285, 2294. *)
Definition nl_dof (npole : Z) : nat :=
  if (npole =? 4)%Z then 8 else if (npole =? 3)%Z then 6 else if (npole =? 2)%Z then 4 else 3.

(** Default bounds of one parameter; qetpy/core/_fitting.py:2263-2270, 2277-2282, 2288-2291, 2297-2300. *)
Definition default_lower (fs : R) (k : pkind) (v : R) : R :=
  match k with PAmp => v / 100 | PTau => v / 10 | PTime => v - 30 / fs end.
Definition default_upper (fs : R) (k : pkind) (v : R) : R :=
  match k with PAmp => v * 100 | PTau => v * 10 | PTime => v + 30 / fs end.
Definition default_bounds (fs : R) (npole : Z) (p0 : list R) : list (option R) * list (option R) :=
  (map (fun kv => Some (default_lower fs (fst kv) (snd kv))) (combine (nl_kinds npole) p0),
   map (fun kv => Some (default_upper fs (fst kv) (snd kv))) (combine (nl_kinds npole) p0)).

(** [np.argmax(l)]; an empty array raises ValueError; qetpy/core/_fitting.py:2217. *)
Definition np_argmax (l : list R) : res nat := match l with [] => Err ValueError | _ => Ok (argmax l) end.

(** [np.max(l)] and [np.min(l)] of a nonempty array; qetpy/core/_fitting.py:2211, 2533. *)
Definition lmaxR (l : list R) : R := match l with [] => 0 | x :: l => lmax x l end.
Definition lminR (l : list R) : R := - lmaxR (map Ropp l).

(** The start values found without [guess]; qetpy/core/_fitting.py:2205-2255.  [Ok None]: the mean of
    an empty slice is nan, and so are start values ([argmin] of an array of nan still needs a nonempty
    array).  20e-6, 0.37 and the other constants are taken as exact decimals. *)
Definition nl_guess (fs : R) (npole : Z) (template : option (list R)) (pulse : list R) : res (option (list R)) :=
  let ampscale := match template with
                  | Some _ => lmaxR pulse - lminR pulse
                  | None => 1
                  end in
  let tg := match template with Some t => t | None => pulse end in
  if Nat.eqb (length pulse) 0 then Err ValueError else
  do maxind <- np_argmax tg;
  let mi := Z.of_nat maxind in
  let ampguess := match npmean (pyslice tg (mi - 7) (mi + 7)) with
                  | Some m => Some (m * ampscale)
                  | None => None
                  end in
  let t0guess := INR maxind / fs in
  if (npole =? 4)%Z then
    Ok (match ampguess with
        | Some a => Some [a; a / 3; a / 3; 20 / 10 ^ 6; 100 / 10 ^ 6; 300 / 10 ^ 6; 500 / 10 ^ 6; t0guess]
        | None => None
        end)
  else if (npole =? 3)%Z then
    Ok (match ampguess with
        | Some a => Some [a; a / 3; 20 / 10 ^ 6; 100 / 10 ^ 6; 300 / 10 ^ 6; t0guess]
        | None => None
        end)
  else
    let endt_val := int_trunc (300 / 10 ^ 6 * fs) in
    let window := pyslice pulse (mi + 1) (mi + 1 + endt_val) in
    match ampguess with
    | None => match window with [] => Err ValueError | _ => Ok None end
    | Some a =>
        do i <- argmin (map (fun v => Rabs (v - 37 / 100 * a)) window);
        let tauind := (i + maxind + 1)%nat in
        let taufall := (INR tauind - INR maxind) / fs in
        Ok (Some (if (npole =? 2)%Z then [a; 20 / 10 ^ 6; taufall; t0guess] else [a; taufall; t0guess]))
    end.

Record nl_result := mkNl {
  nl_variables : list R; nl_errors : list R; nl_cov : nat -> nat -> R;
  nl_chi2 : option R; nl_success : bool }.

(** [np.dot(np.transpose(jac), jac)] for [rows] residuals; qetpy/core/_fitting.py:2361, 2555. *)
Definition gram (rows : nat) (J : nat -> nat -> R) (i j : nat) : R := rsum rows (fun r => J r i * J r j).

(** [fit_falltimes] on an object whose attribute [taurise] is [taurise0], with [lgcfullrtn=True] and
    [lgcplot=False]; qetpy/core/_fitting.py:2154-2369.  The first component is the attribute
    [taurise] afterwards.  [lsq] is the minimizer and [pinv] is [np.linalg.pinv].
    Simplification: a pulse whose length differs from the psd raises ValueError here at once (in the
    code it does so in the residuals), also for lengths of one, which numpy broadcasts. *)
Definition fit_falltimes (lsq : lsq_oracle) (pinv : nat -> (nat -> nat -> R) -> nat -> nat -> R)
  (psd : list R) (fs : R) (template : option (list R)) (taurise0 : option R)
  (pulse : list R) (npole : Z) (errscale : R) (guess : option (list R))
  (bounds : option (list (option R) * list (option R))) (taurise : option R) (scale_amplitude : bool)
  : option R * res nl_result :=
  let n := length psd in
  let data := nl_data fs pulse in
  let error := nl_error (nl_psd psd) errscale in
  if ((npole =? 1)%Z && match taurise with None => true | Some _ => false end)%bool then (taurise0, Err ValueError)
  else
    let tr := if (npole =? 1)%Z then taurise else taurise0 in
    (tr,
     if negb (Nat.eqb (length pulse) n) then Err ValueError else
     do p0 <- match guess with
              | Some g => if Nat.eqb (length g) (nl_dof npole) then Ok (Some g) else Err ValueError
              | None => nl_guess fs npole template pulse
              end;
     match p0 with
     | None => Err ValueError
     | Some p0 =>
         let b := match bounds with Some b => b | None => default_bounds fs npole p0 end in
         do result <- least_squares lsq (nl_residuals n fs data error npole scale_amplitude tr) p0 b p0;
         let variables := lsq_x result in
         do m <- nl_model n fs npole scale_amplitude tr variables;
         let chi2 := match m with Some f => nl_calcchi2 n (nl_dof npole) data f error | None => None end in
         let k := length variables in
         let cov := pinv k (gram (2 * n) (lsq_jac result)) in
         Ok (mkNl variables (mk k (fun i => sqrt (cov i i))) cov chi2 (lsq_success result))
     end).

(** ** MuonTailFit *)

(** [muontailfcn]; qetpy/core/_fitting.py:2456-2458. *)
Definition muontailfcn (n : nat) (fs A tau : R) (k : nat) : C :=
  (RtoC (A * tau) / (1 + RtoC (omega n fs k * tau) * Ci) * RtoC (sqrt_df n fs))%C.

(** [residuals]; qetpy/core/_fitting.py:2476-2481. *)
Definition muon_residuals (n : nat) (fs : R) (data : nat -> C) (error : nat -> R) (params : list R)
  : res (option (list R)) :=
  match params with
  | [A; tau] => Ok (Some (z1d n data (muontailfcn n fs A tau) error))
  | _ => Err ValueError
  end.

(** Start values; qetpy/core/_fitting.py:2533-2536. *)
Definition muon_guess (fs : R) (signal : list R) : res (list R) :=
  match signal with
  | [] => Err ValueError
  | _ =>
      let ampguess := lmaxR signal - lminR signal in
      do i <- argmin (map (fun v => Rabs (v - ampguess / exp 1)) signal);
      Ok [ampguess; INR i / fs]
  end.

(** [fitmuontail] with [lgcfullrtn=True]; qetpy/core/_fitting.py:2530-2561.  The success flag is not
    returned by the code and is set to the one of the minimizer here. *)
Definition fitmuontail (lsq : lsq_oracle) (pinv : nat -> (nat -> nat -> R) -> nat -> nat -> R)
  (psd : list R) (fs : R) (signal : list R) (errscale : R) : res nl_result :=
  let n := length psd in
  let data := nl_data fs signal in
  let error := nl_error (fun k => nth k psd 0) errscale in
  if negb (Nat.eqb (length signal) n) then Err ValueError else
  do p0 <- muon_guess fs signal;
  let b := (map (fun _ => Some 0) p0, map (fun v => Some (v * 100)) p0) in
  do result <- least_squares lsq (muon_residuals n fs data error) p0 b (map Rabs p0);
  let variables := lsq_x result in
  match variables with
  | [A; tau] =>
      let cov := pinv 2%nat (gram (2 * n) (lsq_jac result)) in
      Ok (mkNl variables (mk 2 (fun i => sqrt (cov i i))) cov
               (Some (chi2_sum n data (muontailfcn n fs A tau) error)) (lsq_success result))
  | _ => Err TypeError
  end.
