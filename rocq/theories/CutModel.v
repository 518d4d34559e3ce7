(** * Model of qetpy/cut/_cut.py

    Simplifications: arithmetic is exact; the skewness function of scipy, [fsolve],
    [chi2.ppf], [np.linalg.inv] and [np.random.choice] are function arguments; an infinite
    or nan entry is a constructor of [xval]; warnings are not modelled. *)
From Coq Require Import String.
From Verif Require Import Base UtilsModel Dft WindowModel OFModel OFFreeModel.
Local Open Scope R_scope.

(** An entry of a data vector: a finite number, [np.inf], or nan / minus infinity;
    qetpy/cut/_cut.py:38-44. *)
Inductive xval : Type := Fin (r : R) | PInf | Bad.

(** [v == np.inf]; qetpy/cut/_cut.py:39. *)
Definition is_pinf (v : xval) : bool := match v with PInf => true | _ => false end.
(** nan or minus infinity; qetpy/cut/_cut.py:40. *)
Definition is_bad (v : xval) : bool := match v with Bad => true | _ => false end.
(** The finite entries; qetpy/cut/_cut.py:40-44. *)
Definition finites (x : list xval) : list R :=
  flat_map (fun v => match v with Fin r => [r] | _ => [] end) x.

(** Insertion into a sorted list (used by [sort]); qetpy/cut/_cut.py:42. *)
Fixpoint insert (a : R) (l : list R) : list R :=
  match l with
  | [] => [a]
  | b :: l' => if Rleb a b then a :: l else b :: insert a l'
  end.
(** Sorting, as done by [np.median]; qetpy/cut/_cut.py:42. *)
Definition sort (l : list R) : list R := fold_right insert [] l.
(** [np.median] of a nonempty array; qetpy/cut/_cut.py:42. *)
Definition median (l : list R) : R :=
  let s := sort l in
  let n := List.length l in
  if Nat.even n then (nth (n / 2 - 1) s 0 + nth (n / 2) s 0) / 2 else nth (n / 2) s 0.

(** [min(l)] of a nonempty list; qetpy/cut/_cut.py:43. *)
Definition listmin (l : list R) : R := match l with [] => 0 | a :: l => fold_left Rmin l a end.
(** [max(l)] of a nonempty list; qetpy/cut/_cut.py:43. *)
Definition listmax (l : list R) : R := match l with [] => 0 | a :: l => fold_left Rmax l a end.

(** The biased skewness [m3 / m2**1.5] that [scipy.stats.skew] computes; nan ([None]) for
    an empty array.  The value for a constant array depends on the scipy version (0 or nan)
    and is the argument [flat]; qetpy/cut/_cut.py:40,45. *)
Definition moment (k : nat) (l : list R) : R := lmean (map (fun v => (v - lmean l) ^ k) l).
Definition skew_biased (flat : option R) (l : list R) : option R :=
  match l with
  | [] => None
  | _ => if Reqb (moment 2 l) 0 then flat
         else Some (moment 3 l / (moment 2 l * sqrt (moment 2 l)))
  end.

(** [x[inds]]; qetpy/cut/_cut.py:40,42,45. *)
Definition selected (x : list xval) (inds : list bool) : list R := finites (mask_select inds x).

(** [skew(x[inds]) > skewtarget] ([False] for nan); the skewness of an empty array is nan;
    qetpy/cut/_cut.py:40-41,45. *)
Definition too_skew (skew : list R -> option R) (target : R) (x : list xval) (inds : list bool) : bool :=
  match selected x inds with
  | [] => false
  | l => match skew l with None => false | Some s => Rltb target s end
  end.

(** One round of the loop, qetpy/cut/_cut.py:42-44, on data without nan or minus infinity
    entries.  [dmed] and [dist] are computed from all of [x]: [max(dmed)] is [np.inf] if [x]
    has an infinite entry. *)
Definition ro_round (x : list xval) (inds : list bool) : list bool :=
  let med := median (selected x inds) in
  let dmed := map (fun r => r - med) (finites x) in
  let lo := Rabs (listmin dmed) in
  let dist := if existsb is_pinf x then lo else Rmin lo (Rabs (listmax dmed)) in
  map (fun p => (fst p && match snd p with Fin r => Rltb (Rabs (r - med)) dist | _ => false end)%bool)
      (combine inds x).

(** The loop, qetpy/cut/_cut.py:41-48; [None] when [fuel] rounds do not suffice. *)
Fixpoint ro_loop (fuel : nat) (skew : list R -> option R) (target : R) (maxiter i : Z)
  (x : list xval) (inds : list bool) : option (list bool) :=
  match fuel with
  | O => None
  | S fuel =>
      if too_skew skew target x inds then
        let inds := ro_round x inds in
        if (i >? maxiter)%Z then Some inds
        else ro_loop fuel skew target maxiter (i + 1) x inds
      else Some inds
  end.

(** [removeoutliers]; qetpy/cut/_cut.py:38-50.  The skewness of data with a nan or minus
    infinity entry is nan, so the loop is not entered. *)
Definition removeoutliers (fuel : nat) (skew : list R -> option R) (x : list xval)
  (maxiter : Z) (target : R) : option (list bool) :=
  let inds := map (fun v => negb (is_pinf v)) x in
  if existsb is_bad x then Some inds else ro_loop fuel skew target maxiter 1 x inds.

(** ** iterstat *)

(** [np.std] of a nonempty array; qetpy/cut/_cut.py:179,182,201. *)
Definition lstd (l : list R) : R := sqrt (lvar l).

(** [sum(mask)]; qetpy/cut/_cut.py:189. *)
Definition count_true (m : list bool) : nat := List.length (filter (fun b => b) m).

(** The mask of one round; qetpy/cut/_cut.py:188. *)
Definition is_mask (data : list R) (cut m s : R) : list bool :=
  map (fun x => Rltb (Rabs (x - m)) (cut * s)) data.

(** The loop, qetpy/cut/_cut.py:187-211; [None] when [fuel] rounds do not suffice.  The
    first component of the result tells if the early return of line 198 was taken. *)
Fixpoint iterstat_loop (fuel : nat) (data : list R) (cut cutoff meanlast stdlast : R) (nstable : nat)
  : option (bool * R * R * list bool) :=
  match fuel with
  | O => None
  | S fuel =>
      let mask := is_mask data cut meanlast stdlast in
      if (count_true mask <=? 1)%nat
      then Some (true, lmean data, lstd data, map (fun _ => true) data)
      else
        let meanthis := lmean (mask_select mask data) in
        let stdthis := lstd (mask_select mask data) in
        let nstable := if (Rltb cutoff (Rabs (meanthis - meanlast))
                           || Rltb cutoff (Rabs (stdthis - stdlast)))%bool
                       then O else S nstable in
        if (3 <=? nstable)%nat then Some (false, meanthis, stdthis, mask)
        else iterstat_loop fuel data cut cutoff meanthis stdthis nstable
  end.

(** [_UnbiasedEstimators(x, lwr, upr)], qetpy/cut/_cut.py:76-146: data within the bounds are
    handed to the numerical solver [fsolve], started at their mean and standard deviation. *)
Definition unbiased (fsolve : list R -> R -> R -> R * R -> R * R) (x : list R) (lwr upr : R) : R * R :=
  let xs := filter (fun v => (Rleb lwr v && Rleb v upr)%bool) x in
  fsolve xs lwr upr (lmean xs, lstd xs).

(** [iterstat], qetpy/cut/_cut.py:179-217; [precision] is assumed not to be 0.  The mean and
    standard deviation of an empty array are nan ([None]); its mask is empty, so the early
    return is taken. *)
Definition iterstat (fuel : nat) (fsolve : list R -> R -> R -> R * R -> R * R)
  (data : list R) (cut precision : R) (return_unbiased : bool)
  : option (option (R * R) * list bool) :=
  match data with
  | [] => Some (None, [])
  | _ =>
      let stdcutoff := lstd data / precision in
      match iterstat_loop fuel data cut stdcutoff (lmean data) (lstd data) 0 with
      | None => None
      | Some (true, m, s, mask) => Some (Some (m, s), mask)
      | Some (false, m, s, mask) =>
          if return_unbiased
          then Some (Some (unbiased fsolve (mask_select mask data) (m - cut * s) (m + cut * s)), mask)
          else Some (Some (m, s), mask)
      end
  end.

(** ** itercov *)

(** The positional arguments of [itercov]: one-dimensional vectors, or at least one
    two-dimensional array (given by its rows of [m] entries), or anything of dimension 0;
    qetpy/cut/_cut.py:258-269. *)
Inductive cov_args : Type :=
| Vectors (vs : list (list R))
| Array2 (m : nat) (rows : list (list R))
| Scalars.

(** Are all vectors of the same length; [np.shape(args)] of a ragged tuple either raises
    ValueError or has a single entry, qetpy/cut/_cut.py:258. *)
Definition same_length (vs : list (list R)) : bool :=
  match vs with
  | [] => false
  | v :: vs => forallb (fun w => (List.length w =? List.length v)%nat) vs
  end.

(** The data as one vector per dimension; qetpy/cut/_cut.py:258-272. *)
Definition cov_data (args : cov_args) : res (list (list R)) :=
  do data <- match args with
             | Vectors vs => if same_length vs then Ok vs else Err ValueError
             | Array2 m rows => Ok (mk m (fun j => map (fun row => nth j row 0) rows))
             | Scalars => Err ValueError
             end;
  if (List.length data =? 1)%nat then Err ValueError else Ok data.

(** [np.mean(data, axis=1)]; qetpy/cut/_cut.py:278,316. *)
Definition means (data : list (list R)) : list R := map lmean data.
(** [np.cov(data)] for at least two events; qetpy/cut/_cut.py:279,317. *)
Definition cov_entry (a b : list R) : R :=
  lsum (map (fun p => (fst p - lmean a) * (snd p - lmean b)) (combine a b)) / (INR (List.length a) - 1).
Definition covm (data : list (list R)) : list (list R) :=
  map (fun a => map (fun b => cov_entry a b) data) data.
(** [np.sqrt(np.diag(cov))]; qetpy/cut/_cut.py:281,329. *)
Definition cov_std (cov : list (list R)) : list R :=
  mk (List.length cov) (fun i => sqrt (nth i (nth i cov []) 0)).

(** Coordinates of event [e] relative to the mean; qetpy/cut/_cut.py:296. *)
Definition delta_ev (data : list (list R)) (mean : list R) (e : nat) (i : nat) : R :=
  nth e (nth i data []) 0 - nth i mean 0.
(** The chi2 of event [e]; qetpy/cut/_cut.py:298. *)
Definition chi2_ev (data : list (list R)) (mean : list R) (icov : list (list R)) (e : nat) : R :=
  let d := List.length data in
  rsum d (fun i => delta_ev data mean e i *
    rsum d (fun j => nth j (nth i icov []) 0 * delta_ev data mean e j)).
(** The mask of one round; qetpy/cut/_cut.py:296-301. *)
Definition cov_mask (nevts : nat) (data : list (list R)) (mean std : list R) (icov : list (list R))
  (max_chi2 threshold : R) : list bool :=
  mk nevts (fun e =>
    (Rltb (chi2_ev data mean icov e) max_chi2 &&
     forallb (fun i => Rltb (Rabs (delta_ev data mean e i)) (nth i std 0 * threshold))
             (seq 0 (List.length data)))%bool).

(** Some entry of [a - b] is larger than the corresponding limit; qetpy/cut/_cut.py:319. *)
Definition any_change (a b lim : list R) : bool :=
  existsb (fun p => Rltb (snd p) (Rabs (fst (fst p) - snd (fst p)))) (combine (combine a b) lim).

(** The loop, qetpy/cut/_cut.py:295-330; [Ok None] when [fuel] rounds do not suffice. *)
Fixpoint itercov_loop (fuel : nat) (inv : list (list R) -> option (list (list R))) (nevts : nat)
  (data : list (list R)) (max_chi2 threshold : R) (err_mean : list R) (err_cov : R) (maxiter : Z)
  (mean_last : list R) (cov_last : list (list R)) (nstable : nat) (jj : Z)
  : res (option (list R * list (list R) * list bool)) :=
  match fuel with
  | O => Ok None
  | S fuel =>
      match inv cov_last with
      | None => Err LinAlgError
      | Some icov =>
          let mask := cov_mask nevts data mean_last (cov_std cov_last) icov max_chi2 threshold in
          if (count_true mask <=? 1)%nat
          then Ok (Some (means data, covm data, mk nevts (fun _ => true)))
          else
            let sel := map (mask_select mask) data in
            let mean_this := means sel in
            let cov_this := covm sel in
            let nstable :=
              if (any_change mean_this mean_last err_mean
                  || existsb (fun p => any_change (fst p) (snd p) (map (fun _ => err_cov) (fst p)))
                       (combine cov_this cov_last))%bool
              then O else S nstable in
            if ((2 <=? nstable)%nat || (jj >? maxiter)%Z)%bool
            then Ok (Some (mean_this, cov_this, mask))
            else itercov_loop fuel inv nevts data max_chi2 threshold err_mean err_cov maxiter
                   mean_this cov_this nstable (jj + 1)
      end
  end.

(** [itercov], qetpy/cut/_cut.py:258-332.  The number of dimensions is at least 1.  With at
    most one event [np.cov] is nan ([None]), nothing passes the cut and the early return
    (line 314) is taken; the mean of no events is nan too, and [lmean []] stands for it.
    [sigma2 ndim] is [stats.chi2.ppf(0.95**(1/ndim), 1)**0.5]. *)
Definition itercov (fuel : nat) (inv : list (list R) -> option (list (list R))) (sigma2 : nat -> R)
  (args : cov_args) (nsigma : R) (threshold : option R) (maxiter : Z) (frac_err : R)
  : res (option (list R * option (list (list R)) * list bool)) :=
  do data <- cov_data args;
  let ndim := List.length data in
  let nevts := List.length (nth 0 data []) in
  let threshold := match threshold with Some t => t | None => Rmax 3 (sigma2 ndim) end in
  if (nevts <=? 1)%nat then Ok (Some (means data, None, mk nevts (fun _ => true)))
  else
    let mean_last := means data in
    let cov_last := covm data in
    let std_last := cov_std cov_last in
    let err_mean := map (fun s => frac_err * s) std_last in
    let err_cov := frac_err * lsum (map (fun s => s ^ 2) std_last) in
    let max_chi2 := INR ndim + nsigma * sqrt (2 * INR ndim) in
    do r <- itercov_loop fuel inv nevts data max_chi2 threshold err_mean err_cov maxiter
              mean_last cov_last 0 0;
    match r with
    | None => Ok None
    | Some (m, c, mask) => Ok (Some (m, Some c, mask))
    end.

(** ** Stage cuts *)

(** Enough rounds for [iterstat] on [n] entries with a positive precision, see
    CutProps.C11_terminates; the loop at qetpy/cut/_cut.py:187. *)
Definition iterstat_fuel (n : nat) : nat := (2 ^ n + 8)%nat.

(** The choice of the outlier algorithm, common to the stage cuts: qetpy/cut/_cut.py:454-459,
    535-540, 597-602, 652-657.  [ValueErrror] is not a defined name.  Data with an entry that
    is not finite have a nan standard deviation, hence an empty mask and the early return of
    [iterstat].  The [None] outcomes are not reachable (CutProps.C10_stops, C11_terminates). *)
Definition outlier_mask (skew : list R -> option R) (algo : string) (nsig : R) (x : list xval)
  : res (list bool) :=
  if String.eqb algo "removeoutliers" then
    match removeoutliers 22 skew x 20 (5 / 100) with Some m => Ok m | None => Err ValueError end
  else if String.eqb algo "iterstat" then
    if (List.length (finites x) =? List.length x)%nat then
      match iterstat (iterstat_fuel (List.length x)) (fun _ _ _ p => p) (finites x) nsig 10000 false with
      | Some (_, m) => Ok m
      | None => Err ValueError
      end
    else Ok (map (fun _ => true) x)
  else Err NameError.

(** The template and psd of [pileupcut] and [chi2cut]; qetpy/cut/_cut.py:429-442, 631-644. *)
Definition dummy_time (nbin : nat) (fs : R) (j : nat) : R :=
  1 / fs * (INR (j + 1) - IZR (round_div (Z.of_nat nbin) 2)).
Definition dummy_pulse (nbin : nat) (fs : R) (j : nat) : R :=
  let t := dummy_time nbin fs j in
  if Rltb t 0 then 0 else (1 - exp (- t / (1 / 100000))) * exp (- t / (1 / 10000)).
Definition dummy_template (nbin : nat) (fs : R) (j : nat) : R :=
  dummy_pulse nbin fs j / listmax (mk nbin (dummy_pulse nbin fs)).

(** [ofamp(trace, dummytemplate, dummypsd, fs)] for one trace; qetpy/cut/_cut.py:451-452,
    649-650.  Traces of fewer than 2 samples (nan amplitudes) are outside the model. *)
Definition trace_of (nbin : nat) (fs : R) (trace : list R) : res (R * R * R) :=
  do r <- ofamp nbin [fun j => nth j trace 0] (dummy_template nbin fs) (fun _ => 1) nbin fs
            true true false None false;
  match r with [x] => Ok x | _ => Err IndexError end.

(** [len(traces[0])]; qetpy/cut/_cut.py:429, 497, 577, 631. *)
Definition first_length (traces : list (list R)) : res nat :=
  match traces with [] => Err IndexError | t :: _ => Ok (List.length t) end.

(** [max(dummytemplate)] raises ValueError for traces without samples, [1.0/fs] raises
    ZeroDivisionError; qetpy/cut/_cut.py:431,439. *)
Definition template_checks (nbin : nat) (fs : R) : res unit :=
  if Reqb fs 0 then Err ZeroDivisionError
  else if (nbin =? 0)%nat then Err ValueError else Ok tt.

(** [pileupcut]; qetpy/cut/_cut.py:429-461.  The in-place subtraction of line 446 concerns
    the argument array; see [pileupcut_arg]. *)
Definition pileupcut (skew : list R -> option R) (traces : list (list R)) (fs : R) (algo : string)
  (nsig : R) (removemeans : bool) : res (list bool) :=
  do nbin <- first_length traces;
  do _ <- template_checks nbin fs;
  let traces := if removemeans then map (fun t => map (fun v => v - lmean t) t) traces else traces in
  do rs <- sequence (map (trace_of nbin fs) traces);
  outlier_mask skew algo nsig (map (fun r => Fin (Rabs (fst (fst r)))) rs).

(** The array [traces] of the caller after [pileupcut] returned; qetpy/cut/_cut.py:444-446. *)
Definition pileupcut_arg (traces : list (list R)) (removemeans : bool) : list (list R) :=
  if removemeans then map (fun t => map (fun v => v - lmean t) t) traces else traces.

(** [range(lo, hi)] as the column indices of [traces[:, range]]; qetpy/cut/_cut.py:519-520, 594.
    The mean of no columns is nan. *)
Definition range_mean (lo hi : Z) (trace : list R) : res xval :=
  do vals <- take trace (arangeZ lo hi);
  Ok (match npmean vals with Some m => Fin m | None => Bad end).

(** The first range of bins; qetpy/cut/_cut.py:502-516, 581-592. *)
Definition begin_range (nbin : nat) (fs sgfreq : R) (is_didv : bool) : Z * Z :=
  let nperiods := Int_part (INR nbin / fs * sgfreq) in
  let bip := fs / sgfreq in
  if is_didv then
    if (nperiods >? 1)%Z then (int_trunc (bip / 4), int_trunc (3 * bip / 8))
    else (int_trunc (bip / 4), int_trunc (5 * bip / 16))
  else (0%Z, (Z.of_nat nbin / 10)%Z).

(** The second range of bins; qetpy/cut/_cut.py:502-517. *)
Definition end_range (nbin : nat) (fs sgfreq : R) (is_didv : bool) : Z * Z :=
  let nperiods := Int_part (INR nbin / fs * sgfreq) in
  let bip := fs / sgfreq in
  if is_didv then
    if (nperiods >? 1)%Z
    then (int_trunc ((IZR nperiods - 1) * bip + bip / 4), int_trunc ((IZR nperiods - 1) * bip + 3 * bip / 8))
    else (int_trunc (5 * bip / 16), int_trunc (3 * bip / 8))
  else ((9 * Z.of_nat nbin / 10)%Z, Z.of_nat nbin).

(** [nbin/fs] and [fs/sgfreq]; qetpy/cut/_cut.py:502-503, 581-582. *)
Definition range_checks (fs sgfreq : R) : res unit :=
  if Reqb fs 0 then Err ZeroDivisionError
  else if Reqb sgfreq 0 then Err ZeroDivisionError else Ok tt.

(** Difference of two entries; nan if one is not finite; qetpy/cut/_cut.py:525. *)
Definition xsub (a b : xval) : xval :=
  match a, b with Fin x, Fin y => Fin (x - y) | _, _ => Bad end.

(** [int(np.sqrt(n))], made odd; qetpy/cut/_cut.py:367-369. *)
Definition hist_bins (n : nat) : nat :=
  let b := Nat.sqrt n in if Nat.even b then S b else b.
(** [bin_edges[i]] of [np.histogram(vals, bins, range=(-upr, upr))]; qetpy/cut/_cut.py:373. *)
Definition bin_edge (upr : R) (bins i : nat) : R := - upr + INR i * (2 * upr / INR bins).
(** Is [v] counted in bin [i]: the last bin includes its upper edge; qetpy/cut/_cut.py:373. *)
Definition in_bin (upr : R) (bins i : nat) (v : R) : bool :=
  (Rleb (bin_edge upr bins i) v &&
   (if (S i =? bins)%nat then Rleb v (bin_edge upr bins (S i)) else Rltb v (bin_edge upr bins (S i))))%bool.
(** [hist_num[i]]; qetpy/cut/_cut.py:373. *)
Definition hist_num (vals : list R) (upr : R) (bins i : nat) : nat :=
  List.length (filter (in_bin upr bins i) vals).

(** One step of the loop over the bins; qetpy/cut/_cut.py:381-390.  [choose inds k] is
    [np.random.choice(inds, k, replace=False)]. *)
Definition sym_bin (choose : list nat -> nat -> list nat) (vals : list R) (upr : R) (bins ibin : nat)
  (cz : list bool) : list bool :=
  let lo := bin_edge upr bins (bins - ibin - 2) in
  let hi := bin_edge upr bins (bins - ibin - 1) in
  let cvals := map (fun v => (Rltb v hi && Rleb lo v)%bool) vals in
  let this := hist_num vals upr bins (bins - ibin - 2) in
  let oppo := hist_num vals upr bins (ibin + 1) in
  let cvals :=
    if (oppo <? this)%nat then
      let inds := mask_select cvals (seq 0 (List.length vals)) in
      let cut := choose inds (this - oppo)%nat in
      map (fun p => (fst p && negb (existsb (Nat.eqb (snd p)) cut))%bool)
          (combine cvals (seq 0 (List.length vals)))
    else cvals in
  map (fun p => (fst p || snd p)%bool) (combine cz cvals).

(** [symmetrizedist], qetpy/cut/_cut.py:354-398, for finite values ([max] of an empty list
    raises ValueError).  The call of [iterstat] at line 356 has no effect on the result,
    since line 360 is [vals = vals]. *)
Definition symmetrizedist (choose : list nat -> nat -> list nat) (vals : list R) : res (list bool) :=
  match vals with
  | [] => Err ValueError
  | _ =>
      let upr := listmax vals in
      let bins := hist_bins (List.length vals) in
      if Rltb 0 upr then
        if (2 <? bins)%nat then
          let cz := map (fun v => Rltb (bin_edge upr bins (bins / 2)) v) vals in
          Ok (fold_left (fun cz ibin => sym_bin choose vals upr bins ibin cz)
                (seq (bins / 2) (bins - 1 - bins / 2)) cz)
        else Ok (map (fun _ => true) vals)
      else Ok (map (fun _ => true) vals)
  end.

(** [symmetrizedist] on the slopes; nan slopes give [max(vals) > 0 = False], lines 371 and 396;
    qetpy/cut/_cut.py:527-529. *)
Definition sym_slopes (choose : list nat -> nat -> list nat) (slopes : list xval) : res (list bool) :=
  if (List.length (finites slopes) =? List.length slopes)%nat
  then symmetrizedist choose (finites slopes)
  else Ok (map (fun _ => true) slopes).

(** [a[inds] = True] on an array of [n] entries; qetpy/cut/_cut.py:544, 762. *)
Definition set_true (init : list bool) (inds : list nat) : list bool :=
  map (fun p => (fst p || existsb (Nat.eqb (snd p)) inds)%bool) (combine init (seq 0 (List.length init))).

(** [np.where(mask)[0]]; qetpy/cut/_cut.py:529, 725. *)
Definition where_true (mask : list bool) : list nat := mask_select mask (seq 0 (List.length mask)).

(** [a[inds]] with an index array; qetpy/cut/_cut.py:536, 731, 739, 748, 755. *)
Definition gather {A} (a : list A) (inds : list nat) : list A :=
  flat_map (fun i => match nth_error a i with Some x => [x] | None => [] end) inds.

(** [slopecut]; qetpy/cut/_cut.py:497-546. *)
Definition slopecut (skew : list R -> option R) (choose : list nat -> nat -> list nat)
  (traces : list (list R)) (fs : R) (algo : string) (nsig : R) (is_didv symmetrize : bool) (sgfreq : R)
  : res (list bool) :=
  do nbin <- first_length traces;
  do _ <- range_checks fs sgfreq;
  let b := begin_range nbin fs sgfreq is_didv in
  let e := end_range nbin fs sgfreq is_didv in
  do tracebegin <- sequence (map (range_mean (fst b) (snd b)) traces);
  do traceend <- sequence (map (range_mean (fst e) (snd e)) traces);
  let slopes := map (fun p => xsub (fst p) (snd p)) (combine traceend tracebegin) in
  do zeroinds <- (if symmetrize then do m <- sym_slopes choose slopes; Ok (where_true m)
                  else Ok (seq 0 (List.length traces)));
  do cslope <- outlier_mask skew algo nsig (gather slopes zeroinds);
  let cslopeinds := mask_select cslope zeroinds in
  let cslopetot := map (fun _ => true) traces in
  Ok (set_true cslopetot cslopeinds).

(** [baselinecut]; qetpy/cut/_cut.py:577-604. *)
Definition baselinecut (skew : list R -> option R) (traces : list (list R)) (fs : R) (algo : string)
  (nsig : R) (is_didv : bool) (sgfreq : R) : res (list bool) :=
  do nbin <- first_length traces;
  do _ <- range_checks fs sgfreq;
  let b := begin_range nbin fs sgfreq is_didv in
  do tracebegin <- sequence (map (range_mean (fst b) (snd b)) traces);
  outlier_mask skew algo nsig tracebegin.

(** [chi2cut]; qetpy/cut/_cut.py:631-659. *)
Definition chi2cut (skew : list R -> option R) (traces : list (list R)) (fs : R) (algo : string)
  (nsig : R) : res (list bool) :=
  do nbin <- first_length traces;
  do _ <- template_checks nbin fs;
  do rs <- sequence (map (trace_of nbin fs) traces);
  outlier_mask skew algo nsig (map (fun r => Fin (snd r)) rs).

(** The arguments of [autocuts]; qetpy/cut/_cut.py:661-663. *)
Record auto_args : Type := mkAuto {
  a_fs : R; a_didv : bool; a_sgfreq : R; a_sym : bool; a_algo : string;
  lgcpileup1 : bool; lgcslope : bool; lgcbaseline : bool; lgcpileup2 : bool; lgcchi2 : bool;
  nsigpileup1 : R; nsigslope : R; nsigbaseline : R; nsigpileup2 : R; nsigchi2 : R }.

(** [autocuts]; qetpy/cut/_cut.py:722-764.  The stage cuts are called on copies
    ([traces[inds]] copies), so that the in-place change of [pileupcut] is not visible. *)
Definition autocuts (skew : list R -> option R) (choose : list nat -> nat -> list nat)
  (traces : list (list R)) (a : auto_args) : res (list bool) :=
  do pileup1inds <- (if lgcpileup1 a
    then do c <- pileupcut skew traces (a_fs a) (a_algo a) (nsigpileup1 a) false; Ok (where_true c)
    else Ok (seq 0 (List.length traces)));
  do cslope <- (if lgcslope a
    then slopecut skew choose (gather traces pileup1inds) (a_fs a) (a_algo a) (nsigslope a) (a_didv a)
           (a_sym a) (a_sgfreq a)
    else Ok (map (fun _ => true) pileup1inds));
  let slopeinds := mask_select cslope pileup1inds in
  do cbaseline <- (if lgcbaseline a
    then baselinecut skew (gather traces slopeinds) (a_fs a) (a_algo a) (nsigbaseline a) (a_didv a) (a_sgfreq a)
    else Ok (map (fun _ => true) slopeinds));
  let baselineinds := mask_select cbaseline slopeinds in
  do cpileup2 <- (if (lgcpileup2 a && a_didv a)%bool
    then pileupcut skew (gather traces baselineinds) (a_fs a) (a_algo a) (nsigpileup2 a) true
    else Ok (map (fun _ => true) baselineinds));
  let pileup2inds := mask_select cpileup2 baselineinds in
  do cchi2 <- (if lgcchi2 a
    then chi2cut skew (gather traces pileup2inds) (a_fs a) "iterstat" (nsigchi2 a)
    else Ok (map (fun _ => true) pileup2inds));
  let chi2inds := mask_select cchi2 pileup2inds in
  Ok (set_true (map (fun _ => false) traces) chi2inds).

(** [np.argmax] of a nonempty array; qetpy/cut/_cut.py:800. *)
Definition argmax (l : list R) : nat :=
  match l with [] => O | v :: l => argmax_from 1 0 v l end.

(** The body of the loop of [get_muon_cut], qetpy/cut/_cut.py:795-805.  [arr_shape] is
    [arr.shape[-1]], [None] when the name [arr] is not bound. *)
Definition muon_flag (arr_shape : option Z) (thresh_pct : R) (nsatbins : Z) (trace : list R) : res bool :=
  match trace with
  | [] => Err ValueError
  | _ =>
      let trace_max := listmax trace in
      let peak_loc := Z.of_nat (argmax trace) in
      match arr_shape with
      | None => Err NameError
      | Some n =>
          if (peak_loc + nsatbins <? n)%Z then
            do v <- pyindex trace (peak_loc + nsatbins);
            Ok (Rleb (trace_max * thresh_pct) v)
          else Ok false
      end
  end.

(** The loop of [get_muon_cut] for a given binding of [arr]; qetpy/cut/_cut.py:793-806. *)
Definition muon_loop (arr_shape : option Z) (traces : list (list R)) (thresh_pct : R) (nsatbins : Z)
  : res (list bool) := sequence (map (muon_flag arr_shape thresh_pct nsatbins) traces).

(** [get_muon_cut]: no [arr] is bound in the function or the module; qetpy/cut/_cut.py:766-806. *)
Definition get_muon_cut (traces : list (list R)) (thresh_pct : R) (nsatbins : Z) : res (list bool) :=
  muon_loop None traces thresh_pct nsatbins.
