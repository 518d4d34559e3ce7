(** * Specifications for qetpy/core/didv, independent of the model's helpers *)
From Coq Require Import Reals.
From Coquelicot Require Import Complex.
From Verif Require Import Base Dft DidvModel.
Local Open Scope R_scope.

(** The documented impedances (docstrings of compleximpedance), [iw = 2.0j * pi * freq]. *)
Definition doc_onepole (iw : C) (rsh rp L : R) : C := (RtoC rsh + RtoC rp + iw * RtoC L)%C.
Definition doc_twopole (iw : C) (rsh rp r0 beta l L tau0 : R) : C :=
  (RtoC rsh + RtoC rp + iw * RtoC L + RtoC r0 * (1 + RtoC beta)
   + RtoC r0 * (2 + RtoC beta) * RtoC l / (1 - RtoC l) / (1 + iw * RtoC tau0 / (1 - RtoC l)))%C.
Definition doc_threepole (iw : C) (rsh rp r0 beta l L tau0 gratio tau3 : R) : C :=
  (RtoC rsh + RtoC rp + iw * RtoC L + RtoC r0 * (1 + RtoC beta)
   + RtoC r0 * (2 + RtoC beta) * RtoC l / (1 - RtoC l)
     / (1 + iw * RtoC tau0 / (1 - RtoC l) - RtoC gratio / (1 - RtoC l) / (1 + iw * RtoC tau3)))%C.

(** Imaginary angular frequency. *)
Definition iomega (f : R) : C := (Ci * RtoC (2 * PI * f))%C.

(** Fourier coefficient of harmonic [m <> 0] of a unit square wave (values 1 and 0) of duty
    cycle [d]: the integral of exp(-2 pi i m t) over 0 <= t <= d. *)
Definition square_coefficient (d : R) (m : Z) : C :=
  ((1 - cis (- (2 * PI * IZR m * d))) / (Ci * RtoC (2 * PI * IZR m)))%C.

(** Model-independent: the DFT value at harmonic [m] of an [n]-sample square wave of peak-to-peak
    amplitude [amp] that is low for the fraction [d] of the period and high for the rest. *)
Definition square_dft (n : nat) (amp d : R) (m : Z) : C := (- (RtoC (amp * INR n) * square_coefficient d m))%C.

(** Product of the pole factors. *)
Definition pole_product (f : R) (l : list R) : C := fold_right (fun t acc => ((1 + iomega f * RtoC t) * acc)%C) (RtoC 1) l.

(** A call succeeds in storing a result for [p]. *)
Definition stores (fit : fitter) (fs : fsolver) (p : nat) (op : dop) (o : didv) : Prop :=
  match op with OpFit q _ => q = p /\ snd (run_didv fit fs op o) = Ok tt | OpProcess => False end.
(** No call of [ops], run from [o], stores a result for [p]. *)
Fixpoint no_store (fit : fitter) (fs : fsolver) (p : nat) (ops : list dop) (o : didv) : Prop :=
  match ops with
  | [] => True
  | op :: r => ~ stores fit fs p op o /\ no_store fit fs p r (fst (run_didv fit fs op o))
  end.

(** Admissible arguments of scipy's bounded least squares. *)
Definition admissible (p0 : list R) (b : list (bound * bound)) (s : list R) : Prop :=
  length p0 = length b /\ length s = length p0 /\ (forall x, In x s -> 0 < x) /\
  (forall i, (i < length p0)%nat ->
     match fst (nth i b (None, None)) with Some lo => lo <= nth i p0 0 | None => True end /\
     match snd (nth i b (None, None)) with Some hi => nth i p0 0 <= hi | None => True end).

(** The flat part of the mean trace. *)
Definition flat_values (p : processed) (d : pdata) : list R := map (fun i => nth i (d_tmean d) 0) (p_flat p).

(** No error of the data has a vanishing real or imaginary part. *)
Definition errors_nonzero (d : list (R * C * C)) : Prop := forall f y e, In (f, y, e) d -> fst e <> 0 /\ snd e <> 0.

(** The parameters of the n-pole fits with all but the last (the time offset) at least 0. *)
Definition all_nonnegative (n : nat) : list (option R * option R) := repeat (Some 0, None) (n - 1) ++ [(None, None)].

(** How the outcome of the least-squares routine decides the outcome of a call of dofit on [o]. *)
Definition fit_outcome (poles : nat) (o : didv) (r : didv * res unit) (out : res (list R * cov_t * R)) : Prop :=
  match out with
  | Err e => r = (o, Err e)
  | Ok (popt, cov, cost) => length popt = (2 * poles + 1)%nat ->
      snd r = Ok tt /\
      exists q, fitresult poles (fst r) = Some q /\ r_params q = popt /\ r_cov q = cov /\ r_cost q = cost
  end.

(** The documented complex impedance of the fits (docstring of dofit). *)
Definition doc_dvdi (params : list R) (f : R) : C :=
  match params with
  | [A; tau2; _] => (RtoC A * (1 + iomega f * RtoC tau2))%C
  | [A; B; tau1; tau2; _] => (RtoC A * (1 + iomega f * RtoC tau2) + RtoC B / (1 + iomega f * RtoC tau1))%C
  | [A; B; C'; tau1; tau2; tau3; _] =>
      (RtoC A * (1 + iomega f * RtoC tau2) + RtoC B / (1 + iomega f * RtoC tau1 - RtoC C' / (1 + iomega f * RtoC tau3)))%C
  | _ => RtoC 0
  end.
(** The chi-square of a parameter vector: every bin contributes the squared distances of the real
    and imaginary parts in units of their errors; the time offset (last parameter) delays the model. *)
Definition chi_square (d : list (R * C * C)) (params : list R) : R :=
  lsum (map (fun p => match p with (f, y, e) =>
     let diff := (y - cis (- (2 * PI * f * last params 0)) / doc_dvdi params f)%C in
     (fst diff / fst e) ^ 2 + (snd diff / snd e) ^ 2 end) d).

(** Sizes of the start values of the 2-pole fit: [a] is the amplitude of the bias voltage, [mx] and
    [m] maximum and mean of the mean trace, [f] the mean of its flat part.  The flat part lies below
    the mean when the loop gain is below one. *)
Definition guess_sizes (a mx m f dt0 : R) : R * R * R * R * R :=
  let A := a / (mx - f) in
  if Rlt_dec f m then (A, Rabs (a / (2 * (m - f)) - A), 1 / 10 ^ 4, 1 / 10 ^ 7 / A, dt0)
  else (A, a / (2 * (f - m)) + A, 1 / 10 ^ 5, 1 / 10 ^ 7 / A, dt0).
(** The same for the 3-pole fit: a 2-pole result, when there is one, is the start. *)
Definition guess_sizes3 (o : didv) (a mx m f : R) : R * R * R * R * R :=
  match dres2 o with
  | None => guess_sizes a mx m f (ddt0 o)
  | Some r => (nth 0 (r_params r) 0, Rabs (nth 1 (r_params r) 0), Rabs (nth 2 (r_params r) 0), nth 3 (r_params r) 0, nth 4 (r_params r) 0)
  end.

(** Standard deviation of a list (numpy's default, dividing by the number of values). *)
Definition list_std (l : list R) : R := sqrt (lsum (map (fun x => (x - lmean l) ^ 2) l) / INR (length l)).
(** The DFT of the first [n] samples of a trace. *)
Definition trace_dft (n : nat) (tr : list R) (k : nat) : C := dft n (fun j => RtoC (nth j tr 0)) (Z.of_nat k).
(** No DFT value of the trace vanishes (otherwise the deconvolution divides by zero). *)
Definition no_zero_bin (n : nat) (tr : list R) : bool :=
  forallb (fun k => if Ceq_dec (trace_dft n tr k) (RtoC 0) then false else true) (seq 0 n).
(** Bin [k], of frequency [f], of an [n]-sample record of [periods] periods is one at which a
    square wave of frequency [sg] has no power, or the bin n//2. *)
Definition unexcited (n periods : nat) (amp d sg f : R) (k : nat) : Prop :=
  k = 0%nat \/ k = (n / 2)%nat
  \/ (INR periods <= 10 ^ 8 /\ forall m, f <> IZR m * sg)
  \/ exists m, m <> 0%Z /\ f = IZR m * sg /\ square_dft n amp d m = RtoC 0.
(** Maximum and minimum of a list. *)
Definition is_max (l : list R) (x : R) : Prop := In x l /\ forall y, In y l -> y <= x.
Definition is_min (l : list R) (x : R) : Prop := In x l /\ forall y, In y l -> x <= y.
(** processtraces on [o] succeeded, leaving [o'] with the processed data [p]; [q] samples make one
    period and [n] samples all the complete periods of the first trace. *)
Definition processed_from (o : didv) (q n : nat) (o' : didv) (p : processed) : Prop :=
  (0 < q)%nat /\ 0 < dsgfreq o /\ dfs o / dsgfreq o = INR q /\ n = (q * (length (nth 0 (raw o) []) / q))%nat /\
  processtraces o = (o', Ok tt) /\ dproc o' = Some p.
(** Bin [k] is the harmonic [m] of the square wave, and the traces have no more power in it than the
    deconvolution takes (admittances up to 10^16). *)
Definition excited (o : didv) (p : processed) (n k : nat) (m : Z) : Prop :=
  (0 < k < n)%nat /\ (k <> n / 2)%nat /\ m <> 0%Z /\ nth k (p_freq p) 0 = IZR m * dsgfreq o /\
  square_dft n (dsgamp o * drsh o) (dduty o) m <> RtoC 0 /\
  forall tr, In tr (p_traces p) -> Cmod (trace_dft n tr k) <= 10 ^ 16 * Cmod (square_dft n (dsgamp o * drsh o) (dduty o) m).
(** [s] is the real number [x] with its fraction cut off. *)
Definition is_trunc (x : R) (s : Z) : Prop := (0 <= x /\ IZR s <= x < IZR s + 1) \/ (x <= 0 /\ IZR s - 1 < x <= IZR s).
(** scipy's least_squares: the cost is half the sum of the squared residuals at the solution. *)
Definition honest_fitter (fit : fitter) : Prop := forall res p0 b s popt cov cost,
  fit res p0 b s = Ok (popt, cov, cost) -> cost = lsum (map (fun x => x ^ 2) (res popt)) / 2.

(** The start of a fit with priors: a prior that is not zero, else the value of the guess [ss] (its
    absolute value, except for the time offset). *)
Definition prior_or_guess (ss priors : list R) : list R :=
  mk (length ss) (fun i => if Req_EM_T (nth i priors 0) 0 then if (S i =? length ss)%nat then nth i ss 0 else Rabs (nth i ss 0)
                           else nth i priors 0).

(** The squared distance of the parameters from the priors in the metric [inv]. *)
Definition prior_distance (priors params : list R) (inv : cov_t) : R :=
  rsum (length params) (fun i => rsum (length params) (fun j =>
    (nth i params 0 - nth i priors 0) * nth j (nth i inv []) 0 * (nth j params 0 - nth j priors 0))).
