(** * Model of qetpy/utils/_utils.py *)
From Verif Require Import Base.
Local Open Scope R_scope.

(** ** shift *)

(** Assignment [result[:k] = v] / [result[k:] = v] is modelled by building the
    array from its two slices.  numpy raises ValueError if the shapes of a slice
    assignment differ; the model checks this explicitly.
    qetpy/utils/_utils.py:50-62 (integer [num] branch of [shift]). *)
Definition shift {A} (arr : list A) (num : Z) (fill : A) : res (list A) :=
  let n := length arr in
  if (num >? 0)%Z then
    (* result[:num] = fill_value ; result[num:] = arr[:-num] *)
    let head := map (fun _ => fill) (pyslice arr 0 num) in
    let dst := pyslice arr num (Z.of_nat n) in
    let src := pyslice arr 0 (- num) in
    if (length src =? length dst)%nat then Ok (head ++ src) else Err ValueError
  else if (num <? 0)%Z then
    (* result[num:] = fill_value ; result[:num] = arr[-num:] *)
    let tail := map (fun _ => fill) (pyslice arr num (Z.of_nat n)) in
    let dst := pyslice arr 0 num in
    let src := pyslice arr (- num) (Z.of_nat n) in
    if (length src =? length dst)%nat then Ok (src ++ tail) else Err ValueError
  else Ok arr.

(** ** resample_factors *)

(** [range(lo, lo+n)] on integers. *)
Fixpoint zrange (lo : Z) (n : nat) : list Z :=
  match n with O => [] | S k => lo :: zrange (lo + 1) k end.

(** Primality by trial division over 2..d-1 (stands for sympy's factorisation). *)
Definition isprime (d : Z) : bool :=
  (1 <? d)%Z && forallb (fun e => negb (d mod e =? 0)%Z) (zrange 2 (Z.to_nat (d - 2))).

(** Distinct prime factors of [m], ascending: the keys of sympy's [factorint]. *)
Definition prime_factors (m : Z) : list Z :=
  filter (fun d => if (m mod d =? 0)%Z then isprime d else false)
         (zrange 2 (Z.to_nat (m - 1))).

(** Python's [round(a/b)] for positive integers: nearest, ties to even.
    Simplification: the quotient is exact instead of a double. *)
Definition round_div (a b : Z) : Z :=
  let q := (a / b)%Z in
  let r := (a mod b)%Z in
  if (2 * r <? b)%Z then q
  else if (b <? 2 * r)%Z then (q + 1)%Z
  else if Z.even q then q else (q + 1)%Z.

(** [np.ceil(a/b)] for positive integers *)
Definition ceil_div (a b : Z) : Z := (- ((- a) / b))%Z.

(** [min] of a nonempty list *)
Definition zmin_list (d : Z) (l : list Z) : Z := fold_left Z.min l d.

(** qetpy/utils/_utils.py:105-119, the part after the integrality checks:
    [factorrat(fs/sgfreq)] has the primes of the reduced numerator with positive
    and those of the reduced denominator with negative exponent. *)
Definition resample_core (fs sgfreq : Z) : Z * Z :=
  let g := Z.gcd fs sgfreq in
  let numer := prime_factors (fs / g) in
  let denom := prime_factors (sgfreq / g) in
  match denom with
  | [] => (1, 1)%Z
  | d0 :: ds =>
      let m := zmin_list d0 ds in
      let down := fold_left Z.mul numer 1%Z in
      let up := (round_div down m * m)%Z in
      let up := if (up =? 0)%Z then (ceil_div down m * m)%Z else up in
      (up, down)
  end.

(** A Python number argument: an [int]-valued one or a non-integral float. *)
Inductive pynum := PyInt (z : Z) | PyFrac.

(** qetpy/utils/_utils.py:100-119 *)
Definition resample_factors (fs sgfreq : pynum) : res (Z * Z) :=
  match fs, sgfreq with
  | PyFrac, _ => Err ValueError
  | _, PyFrac => Err ValueError
  | PyInt f, PyInt s => Ok (resample_core f s)
  end.

(** qetpy/utils/_utils.py:174-176: the resampled digitisation rate. *)
Definition resampled_fs (fs sgfreq : Z) : R :=
  let (up, down) := resample_core fs sgfreq in
  IZR fs * IZR up / IZR down.

(** ** make_template *)

(** [arr.max()] of a nonempty array *)
Fixpoint lmax (d : R) (l : list R) : R :=
  match l with [] => d | x :: l => lmax (Rmax d x) l end.

(** qetpy/utils/_utils.py:208-212.  [pulse_shifted.max()] raises ValueError on an
    empty array; a zero maximum (division by zero, numpy gives nan/inf) is left to
    the hypotheses of the theorems. *)
Definition make_template (t : list R) (tau_r tau_f : R) (offset : Z) : res (list R) :=
  let pulse := map (fun x => exp (- x / tau_f) - exp (- x / tau_r)) t in
  do shifted <- shift pulse (Z.of_nat (length t / 2) + offset)%Z 0;
  match shifted with
  | [] => Err ValueError
  | x :: l => let m := lmax x l in Ok (map (fun v => v / m) shifted)
  end.

(** ** make_decreasing *)

(** The loop qetpy/utils/_utils.py:239-246: [y_dec] (zero where a value is tossed). *)
Fixpoint dec_loop (last_val : R) (y : list R) : list R :=
  match y with
  | [] => []
  | v :: y => if Rltb v last_val then v :: dec_loop v y else 0 :: dec_loop last_val y
  end.

Definition y_dec (y : list R) : list R :=
  match y with
  | [] => []
  | y0 :: _ =>
      (* y_dec[0] = y[0]; the loop can not touch entry 0 since last_val = y[0] *)
      match dec_loop y0 y with [] => [] | _ :: r => y0 :: r end
  end.

(** [x[mask]] *)
Fixpoint mask_select {A} (m : list bool) (l : list A) : list A :=
  match m, l with
  | b :: m, a :: l => if b then a :: mask_select m l else mask_select m l
  | _, _ => []
  end.

(** The straight line through two points, as [interp1d]'s
    [slope*(x_new - x_lo) + y_lo]. *)
Definition seg (p q : R * R) (x : R) : R :=
  (snd q - snd p) / (fst q - fst p) * (x - fst p) + snd p.

(** scipy [interp1d(xs, ys, fill_value="extrapolate")(x)], kind linear, sorted
    nodes: [idx = clip(searchsorted(xs, x), 1, len-1)], segment [idx-1 .. idx]. *)
Fixpoint interp_ext (pts : list (R * R)) (x : R) : R :=
  match pts with
  | [] => 0
  | [p] => snd p
  | p :: ((q :: rest) as tl) =>
      match rest with
      | [] => seg p q x
      | _ => if Rleb x (fst q) then seg p q x else interp_ext tl x
      end
  end.

(** qetpy/utils/_utils.py:236-256.  IndexError for an empty [y] (y[0]); ValueError
    when fewer than two points are kept (interp1d needs two). *)
Definition make_decreasing (x y : list R) : res (list R) :=
  match y with
  | [] => Err IndexError
  | _ =>
      let inds := map (fun v => negb (Reqb v 0)) (y_dec y) in
      let pts := combine (mask_select inds x) (mask_select inds y) in
      if (length pts <? 2)%nat then Err ValueError
      else Ok (map (interp_ext pts) x)
  end.

(** Default x of make_decreasing: [np.arange(len(y))], qetpy/utils/_utils.py:236-237. *)
Definition arangeR (n : nat) : list R := mk n INR.

(** ** calc_offset *)

(** [int(r)] for a non-negative real: truncation = floor. *)
Definition int_of_R (r : R) : Z := Int_part r.

(** numpy mean: nan (None) for an empty array *)
Definition npmean (l : list R) : option R :=
  match l with [] => None | _ => Some (lmean l) end.

(** numpy population variance [np.std(l)**2] of a non-empty array *)
Definition lvar (l : list R) : R :=
  lsum (map (fun v => (v - lmean l) * (v - lmean l)) l) / INR (length l).

(** qetpy/utils/_utils.py:288-292: number of bins kept of a trace of [n] bins. *)
Definition calc_offset_bins (fs sgfreq : R) (is_didv : bool) (n : nat) : Z :=
  if is_didv then
    let period := 1 / sgfreq in
    let period_bins := period * fs in
    let n_periods := int_of_R (INR n / period_bins) in
    int_of_R (IZR n_periods * period_bins)
  else Z.of_nat n.

(** qetpy/utils/_utils.py:288-297 for a 2-d array (list of traces of equal length,
    as a numpy array has).  The result is (offset, std); [None] is numpy's nan. *)
Definition calc_offset (x : list (list R)) (fs sgfreq : R) (is_didv : bool)
  : option (R * R) :=
  let cut := map (fun tr => pyslice tr 0 (calc_offset_bins fs sgfreq is_didv (length tr))) x in
  match cut with
  | [] => None
  | c :: _ =>
      match c with
      | [] => None
      | _ =>
          let means := map lmean cut in
          Some (lmean means, sqrt (lvar means) / sqrt (INR (length cut)))
      end
  end.

(** ** slope *)

(** qetpy/utils/_utils.py:323-325.  Note that [x_mean] is subtracted from [y]. *)
Definition slope (x y : list R) (removemeans : bool) : R :=
  let x_mean := if removemeans then lmean x else 0 in
  lsum (map (fun p => (fst p - x_mean) * (snd p - x_mean)) (combine x y))
  / lsum (map (fun v => (v - x_mean) ^ 2) x).

(** ** fill_negatives *)

(** Indices (as reals) and values of the entries > 0: [inds_not_zero], [good_vals];
    qetpy/utils/_utils.py:345-348. *)
Fixpoint good_points (i : nat) (arr : list R) : list (R * R) :=
  match arr with
  | [] => []
  | v :: r => if Rleb v 0 then good_points (S i) r else (INR i, v) :: good_points (S i) r
  end.

(** [np.interp(x, xp, fp)]: linear between nodes, constant outside. *)
Fixpoint np_interp (pts : list (R * R)) (x : R) : R :=
  match pts with
  | [] => 0
  | [p] => snd p
  | p :: ((q :: _) as tl) =>
      if Rleb x (fst p) then snd p
      else if Rltb x (fst q) then seg p q x
      else np_interp tl x
  end.

(** qetpy/utils/_utils.py:345-353; the returned list is also the new content of the
    argument array (in-place assignment). *)
Definition fill_negatives (arr : list R) : list R :=
  match good_points 0 arr with
  | [] => arr
  | pts => map (fun iv => if Rleb (snd iv) 0 then np_interp pts (INR (fst iv)) else snd iv)
               (combine (seq 0 (length arr)) arr)
  end.

(** ** get_offset_from_muon *)

(** Scalar part of qetpy/utils/_utils.py:507-521 (given baseline and saturation
    means): (ioffset, r0, i0, p0). *)
Definition muon_offset (baseline muon_saturation qetbias rn rload rsh : R) : R * R * R * R :=
  let muon_deltaI := muon_saturation - baseline in
  let vbias := qetbias * rsh in
  let inormal := vbias / (rload + rn) in
  let i0 := inormal - muon_deltaI in
  let ioffset := baseline - i0 in
  let r0 := inormal * (rn + rload) / i0 - rload in
  let p0 := i0 * rsh * qetbias - rload * i0 ^ 2 in
  (ioffset, r0, i0, p0).

(** [np.argmax]: first position of the maximum of a nonempty list (returns position and value). *)
Fixpoint argmax_from (i best : nat) (bv : R) (l : list R) : nat :=
  match l with
  | [] => best
  | v :: l => if Rltb bv v then argmax_from (S i) i v l else argmax_from (S i) best bv l
  end.

(** qetpy/utils/_utils.py:502-521.  Empty [avemuon] or empty baseline slice give nan /
    ValueError in numpy: modelled as ValueError. *)
Definition get_offset_from_muon (avemuon : list R) (qetbias rn rload rsh : R) (nbaseline : Z)
  : res (R * R * R * R) :=
  match avemuon with
  | [] => Err ValueError
  | v :: l =>
      let peak_loc := Z.of_nat (argmax_from 1 0 v l) in
      match pyslice avemuon 0 nbaseline with
      | [] => Err ValueError
      | base =>
          Ok (muon_offset (lmean base)
                (lmean (pyslice avemuon peak_loc (peak_loc + 200))) qetbias rn rload rsh)
      end
  end.

(** ** powertrace_simple and energy_absorbed *)

(** qetpy/utils/_utils.py:554-556, one sample *)
Definition power1 (ioffset qetbias rload rsh i : R) : R :=
  let vbias := qetbias * rsh in
  let i0 := i - ioffset in
  i0 * vbias - rload * i0 ^ 2.

(** qetpy/utils/_utils.py:554-558 *)
Definition powertrace_simple (trace : list R) (ioffset qetbias rload rsh : R) : list R :=
  map (power1 ioffset qetbias rload rsh) trace.

(** [np.diff(x)], called by [np.trapz]; qetpy/utils/_utils.py:621-623. *)
Fixpoint npdiff (x : list R) : list R :=
  match x with
  | x0 :: ((x1 :: _) as xt) => (x1 - x0) :: npdiff xt
  | _ => []
  end.

(** [y[1:] + y[:-1]] in [np.trapz]; qetpy/utils/_utils.py:617-623. *)
Fixpoint pairsums (y : list R) : list R :=
  match y with
  | y0 :: ((y1 :: _) as yt) => (y1 + y0) :: pairsums yt
  | _ => []
  end.

(** Product of two 1-d numpy arrays with broadcasting of length-1 arrays, ValueError for
    other length mismatches; used by [np.trapz] at qetpy/utils/_utils.py:621-623. *)
Definition bmul (a b : list R) : res (list R) :=
  if (length a =? length b)%nat then Ok (map (fun p => fst p * snd p) (combine a b))
  else match a, b with
       | [u], _ => Ok (map (fun v => u * v) b)
       | _, [v] => Ok (map (fun u => u * v) a)
       | _, _ => Err ValueError
       end.

(** [np.trapz(y, x=x)]: [(diff(x) * (y[1:]+y[:-1]) / 2).sum()];
    qetpy/utils/_utils.py:621-623. *)
Definition trapz_x (x y : list R) : res R :=
  do p <- bmul (npdiff x) (pairsums y); Ok (lsum (map (fun v => v / 2) p)).

(** [np.trapz(y)] (unit spacing): [((y[1:]+y[:-1]) / 2).sum()];
    qetpy/utils/_utils.py:617-619. *)
Definition trapz (y : list R) : R := lsum (map (fun v => 1 * v / 2) (pairsums y)).

(** qetpy/utils/_utils.py:604-627 for one trace.  [e] is [scipy.constants.e].
    An empty baseline region gives nan in numpy; modelled as [Err ValueError] only
    for the missing-argument cases, the empty region is excluded by hypothesis in
    the theorems that need it ([lmean [] = 0/0]).  [baseline] is modelled as a scalar. *)
Definition energy_absorbed (e : R) (trace : list R) (ioffset qetbias rload rsh : R)
  (fs baseline : option R) (time : option (list R)) (indbasepre indbasepost : option Z)
  : res R :=
  do base <-
    match baseline with
    | Some b => Ok b
    | None =>
        match indbasepre with
        | None => Err ValueError
        | Some pre =>
            let base_traces := pyslice trace 0 pre in
            let base_traces :=
              match indbasepost with
              | Some post => base_traces ++ pyslice trace post (Z.of_nat (length trace))
              | None => base_traces
              end in
            Ok (lmean base_traces)
        end
    end;
  let baseline_p0 := power1 ioffset qetbias rload rsh base in
  let diff := map (fun p => baseline_p0 - p) (powertrace_simple trace ioffset qetbias rload rsh) in
  match fs, time with
  | Some f, _ => Ok (trapz diff / (f * e))
  | None, Some tm =>
      do integral <- trapz_x tm diff; Ok (integral / e)
  | None, None => Err ValueError
  end.

(** ** estimate_g *)

(** qetpy/utils/_utils.py:659; [x**n] is [Rpower x n] (positive temperatures). *)
Definition g_of (p0 tc tbath n : R) : R :=
  n * p0 * Rpower tc (n - 1) / (Rpower tc n - Rpower tbath n).

(** qetpy/utils/_utils.py:662-664 *)
Definition g_partials (p0 tc tbath n : R) : R * R * R :=
  let g := g_of p0 tc tbath n in
  let dgdp := g / p0 in
  let dgdtc := (n - 1) * g / tc - g * n * Rpower tc (n - 1) / (Rpower tc n - Rpower tbath n) in
  let dgdtbath := n * g * Rpower tbath (n - 1) / (Rpower tc n - Rpower tbath n) in
  (dgdp, dgdtc, dgdtbath).

(** Matrix product of [k x k] matrices, numpy's [A.dot(B)]. *)
Definition mdot (k : nat) (A B : nat -> nat -> R) : nat -> nat -> R :=
  fun i j => rsum k (fun l => A i l * B l j).

(** [A.transpose()] *)
Definition mtr (A : nat -> nat -> R) : nat -> nat -> R := fun i j => A j i.

(** [np.sum(A)] of a [k x k] matrix *)
Definition msum (k : nat) (A : nat -> nat -> R) : R := rsum k (fun i => rsum k (fun j => A i j)).

(** The matrix [jac] of qetpy/utils/_utils.py:666-669: zeros except the diagonal. *)
Definition diag3 (a b c : R) : nat -> nat -> R := fun i j =>
  match i, j with
  | 0%nat, 0%nat => a | 1%nat, 1%nat => b | 2%nat, 2%nat => c | _, _ => 0
  end.

(** qetpy/utils/_utils.py:659-675 *)
Definition estimate_g (p0 tc tbath p0_err : R) (cov : option (nat -> nat -> R)) (n : R) : R * R :=
  let g := g_of p0 tc tbath n in
  match cov with
  | Some c =>
      let '(a, b, d) := g_partials p0 tc tbath n in
      let jac := diag3 a b d in
      let covout := mdot 3 jac (mdot 3 c (mtr jac)) in
      (g, sqrt (msum 3 covout))
  | None => (g, Rabs (p0_err * g / p0))
  end.
