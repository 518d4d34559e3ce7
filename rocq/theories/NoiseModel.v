(** * Model of qetpy/core/_noise.py *)
From Coq Require Import Reals.
From Coquelicot Require Import Complex.
From Verif Require Import Base Dft UtilsModel.
Local Open Scope R_scope.

(** Boolean comparison [x >= 0] on floats; qetpy/core/_noise.py:110. *)
Definition nonnegb (x : R) : bool := if Rle_dec 0 x then true else false.

(** ** foldpsd *)

(** In-place [a[lo:hi] *= 2.0] for non-negative bounds; qetpy/core/_noise.py:38,81. *)
Definition double_slice (lo hi : nat) (a : list R) : list R :=
  mk (length a) (fun i => if (lo <=? i)%nat && (i <? hi)%nat then 2 * nth i a 0 else nth i a 0).

(** [rfftfreq(n, d=1.0/fs)]; qetpy/core/_noise.py:39,82. *)
Definition rfftfreq (n : nat) (fs : R) : list R := mk (n / 2 + 1) (fun k => INR k * fs / INR n).

(** qetpy/core/_noise.py:17-41.  An empty psd makes rfftfreq divide by zero. *)
Definition foldpsd (psd : list R) (fs : R) : res (list R * list R) :=
  let n := length psd in
  if (n =? 0)%nat then Err ZeroDivisionError else
  let folded := firstn (n / 2 + 1) psd in
  let folded := double_slice 1 (n / 2 + n mod 2) folded in
  Ok (rfftfreq n fs, folded).

(** ** calc_psd *)

(** [np.abs(fft(x)[k])**2] of one trace of [n] bins; qetpy/core/_noise.py:75-88. *)
Definition power (n : nat) (x : nat -> R) (k : nat) : R :=
  cn2 (dft n (fun j => RtoC (x j)) (Z.of_nat k)).

(** [np.mean(..., axis=0)] over a list of values; qetpy/core/_noise.py:77,88. *)
Definition mean_over {A} (xs : list A) (f : A -> R) : R := lmean (map f xs).

(** The argument [x] of calc_psd, whose last axis has [n] bins: a trace, a set of
    traces, or a set of traces with several channels; qetpy/core/_noise.py:44-50
    ("n-dimensional array").  More dimensions are not modelled. *)
Inductive ndarr : Type :=
| Arr1 (x : nat -> R)
| Arr2 (xs : list (nat -> R))
| Arr3 (nchan : nat) (xs : list (nat -> nat -> R)).

(** The psd array: 1-d for 1- and 2-d input, (channels, bins) for 3-d input. *)
Inductive psdarr : Type :=
| P1 (p : list R)
| P2 (p : list (list R)).

(** qetpy/core/_noise.py:69-91.  The in-place doubling [psd[1:hi] *= 2.0] acts on the
    FIRST axis of the psd array, which is the channel axis for 3-d input.  [rfft] of
    zero points raises ValueError; the mean over zero traces (nan) is excluded by
    the theorems' hypotheses. *)
Definition calc_psd (n : nat) (x : ndarr) (fs : R) (folded_over : bool) : res (list R * psdarr) :=
  if (n =? 0)%nat then Err ValueError else
  let norm := fs * INR n in
  let nbins := if folded_over then (n / 2 + 1)%nat else n in
  let psd :=
    match x with
    | Arr1 x => P1 (mk nbins (fun k => power n x k / norm))
    | Arr2 xs => P1 (mk nbins (fun k => mean_over xs (fun x => power n x k) / norm))
    | Arr3 c xs => P2 (mk c (fun ch => mk nbins (fun k => mean_over xs (fun x => power n (x ch) k) / norm)))
    end in
  if folded_over then
    let hi := (n / 2 + 1 - (n + 1) mod 2)%nat in
    Ok (rfftfreq n fs,
        match psd with
        | P1 p => P1 (double_slice 1 hi p)
        | P2 p => P2 (mk (length p) (fun ch =>
                    if (1 <=? ch)%nat && (ch <? hi)%nat then map (fun v => 2 * v) (nth ch p []) else nth ch p []))
        end)
  else Ok (mk n (fftfreq n fs), psd).

(** ** smooth_psd *)

(** Boolean-mask assignment [a[mask] = vals]; qetpy/core/_noise.py:118,121,123.
    ValueError when the number of values differs from the number of True entries. *)
Fixpoint mask_assign (mask : list bool) (a vals : list R) : res (list R) :=
  match mask, a with
  | [], [] => match vals with [] => Ok [] | _ => Err ValueError end
  | true :: mask, _ :: a =>
      match vals with
      | v :: vals => do r <- mask_assign mask a vals; Ok (v :: r)
      | [] => Err ValueError
      end
  | false :: mask, x :: a => do r <- mask_assign mask a vals; Ok (x :: r)
  | _, _ => Err IndexError
  end.

(** qetpy/core/_noise.py:93-125.  [out[::-1][1:-1]] is [pyslice (rev out) 1 (-1)]. *)
Definition smooth_psd (psd : list R) : res (list R) :=
  let n := length psd in
  if (n =? 0)%nat then Err ZeroDivisionError else
  let f_inds := mk n (fun k => nonnegb (fftfreq n 1 k)
                               || ((n mod 2 =? 0)%nat && (k =? n / 2)%nat)) in
  let half := mask_select f_inds psd in
  do out <- make_decreasing (arangeR (length half)) half;
  let psd_out := mk n (fun _ => 0) in
  do psd_out <- mask_assign f_inds psd_out out;
  if (n mod 2 =? 0)%nat
  then mask_assign (map negb f_inds) psd_out (pyslice (rev out) 1 (-1))
  else mask_assign (map negb f_inds) psd_out (pyslice (rev out) 0 (-1)).

(** ** gen_noise *)

(** [np.isinf(psd[0])] and the in-place [psd[0] = 0]; qetpy/core/_noise.py:150-151.
    Psd entries are [Some p], or [None] for infinity. *)
Definition clear_dc (psd : list (option R)) : res (list (option R)) :=
  match psd with
  | [] => Err IndexError
  | None :: r => Ok (Some 0 :: r)
  | p => Ok p
  end.

(** One generated trace, [ifft(fft(vals) * np.sqrt(psd*fs)).real]; qetpy/core/_noise.py:155-156.
    [None] (nan) if an infinity is left in the psd or a product is negative. *)
Definition colour (n : nat) (psd : nat -> option R) (fs : R) (vals : nat -> R) : option (nat -> R) :=
  if forallb (fun k => match psd k with Some p => nonnegb (p * fs) | None => false end) (seq 0 n)
  then Some (fun j => fst (idft n (fun k => dft n (fun i => RtoC (vals i)) (Z.of_nat k)
              * RtoC (sqrt (match psd k with Some p => p | None => 0 end * fs)))%C (Z.of_nat j)))
  else None.

(** qetpy/core/_noise.py:127-158.  [draws] are the [ntraces] rows of [np.random.randn].
    Returned: the psd array after the call (the caller's array) and the traces. *)
Definition gen_noise (psd : list (option R)) (fs : R) (draws : list (nat -> R))
  : res (list (option R) * list (option (nat -> R))) :=
  do psd' <- clear_dc psd;
  Ok (psd', map (colour (length psd') (fun k => nth k psd' (Some 0)) fs) draws).

(** ** scipy.signal.csd as called at qetpy/core/_noise.py:391-392 *)

(** Periodic Hann window, the default window of scipy.signal.csd; qetpy/core/_noise.py:391. For
    [n = 1] scipy's window is 1 instead of 0; the detrended sample it multiplies is 0. *)
Definition hann (n j : nat) : R := 1 / 2 - 1 / 2 * cos (2 * PI * INR j / INR n).

(** Detrended ('constant') and windowed segment, qetpy/core/_noise.py:391 (scipy default). *)
Definition windowed (n : nat) (x : nat -> R) (j : nat) : R := hann n j * (x j - rsum n x / INR n).

(** One-sided scaling of bin [k], qetpy/core/_noise.py:391 (scipy: [result[1:-1] *= 2] for
    even and [result[1:] *= 2] for odd nfft). *)
Definition onesided (n k : nat) : R :=
  if (k =? 0)%nat then 1 else if (n mod 2 =? 0)%nat && (k =? n / 2)%nat then 1 else 2.

(** [scipy.signal.csd(x, y, fs, nperseg=n, nfft=n)] with scipy's defaults (one segment,
    mean over one segment); qetpy/core/_noise.py:391-392. *)
Definition scipy_csd (n : nat) (fs : R) (x y : nat -> R) (k : nat) : C :=
  let F := fun z => dft n (fun j => RtoC (windowed n z j)) (Z.of_nat k) in
  (Cconj (F x) * F y * RtoC (onesided n k / (fs * rsum n (fun j => hann n j ^ 2))))%C.

(** ** class Noise *)

(** Traces: one entry per trace, [tr c j] is sample [j] of channel [c]. *)
Definition trace := nat -> nat -> R.

(** Attributes of a Noise object, qetpy/core/_noise.py:242-264; [None] as in Python. *)
Record noise : Type := mkNoise {
  nbins : nat; nchan : nat; nfs : R; ntime : nat -> R;
  traces : list trace;
  n_psd : option (list (list R)); n_real_psd : option (list (list R)); n_imag_psd : option (list (list R));
  n_corrcoeff : option (nat -> nat -> nat -> R);
  n_uncorr : option (list (list R)); n_corr : option (list (list R));
  n_csd : option (nat -> nat -> nat -> C);
  n_real_csd : option (nat -> nat -> list R); n_imag_csd : option (nat -> nat -> list R);
  n_real_csd_std : option (nat -> nat -> list R); n_imag_csd_std : option (nat -> nat -> list R) }.

(** A freshly constructed object, qetpy/core/_noise.py:242-264. *)
Definition fresh_noise (n c : nat) (fs : R) (time : nat -> R) (tr : list trace) : noise :=
  mkNoise n c fs time tr None None None None None None None None None None None.

(** The constructor's argument [traces] by dimension, qetpy/core/_noise.py:235-239. *)
Inductive noise_input : Type :=
| In1
| In2 (xs : list (nat -> R))
| In3 (c : nat) (xs : list trace).

(** qetpy/core/_noise.py:235-264; [1/fs] and [rfftfreq] (line 253) divide by the rate and by the
    number of samples.  Simplification: [fs] is a Python number; a zero numpy scalar would give a
    warning instead of the exception. *)
Definition noise_init (n : nat) (inp : noise_input) (fs : R) (nnames : nat) (tracegain : R)
    (time : option (nat -> R)) : res noise :=
  match inp with
  | In1 => Err ValueError
  | _ =>
    let cxs := match inp with
               | In2 xs => (1%nat, map (fun x (_ : nat) => x) xs)
               | In3 c xs => (c, xs)
               | In1 => (0%nat, [])
               end in
    if (nnames =? fst cxs)%nat then
      if Reqb fs 0 || (n =? 0)%nat then Err ZeroDivisionError else
      Ok (fresh_noise n (fst cxs) fs
            (match time with Some t => t | None => fun j => INR j / fs end)
            (map (fun x c j => x c j / tracegain) (snd cxs)))
    else Err ValueError
  end.

(** [self.traces = ...], qetpy/core/_noise.py:282. *)
Definition set_traces (tr : list trace) (o : noise) : noise :=
  mkNoise (nbins o) (nchan o) (nfs o) (ntime o) tr (n_psd o) (n_real_psd o) (n_imag_psd o) (n_corrcoeff o)
    (n_uncorr o) (n_corr o) (n_csd o) (n_real_csd o) (n_imag_csd o) (n_real_csd_std o) (n_imag_csd_std o).

(** The slope-subtracted channel of one trace, qetpy/core/_noise.py:279-280. *)
Definition noslope (n : nat) (time x : nat -> R) (j : nat) : R :=
  x j - slope (mk n time) (mk n x) true * time j.

(** qetpy/core/_noise.py:271-282. *)
Definition remove_trace_slope (o : noise) : noise :=
  set_traces (map (fun x c => noslope (nbins o) (ntime o) (x c)) (traces o)) o.

(** The length [lenpsd]/[nfreqs], qetpy/core/_noise.py:292-295,327-330,373-376. *)
Definition lenpsd (n : nat) : nat := if (n mod 2 =? 0)%nat then (n / 2 + 1)%nat else ((n + 1) / 2)%nat.

(** The averaged, normalised spectra of every channel; [g] is one of
    [np.abs(.)**2], [np.real(.)**2], [np.imag(.)**2]; qetpy/core/_noise.py:302-310. *)
Definition spectra (g : C -> R) (o : noise) : list (list R) :=
  mk (nchan o) (fun c => mk (nbins o / 2 + 1) (fun k =>
    mean_over (traces o) (fun x => g (dft (nbins o) (fun j => RtoC (x c j)) (Z.of_nat k)))
    * 2 / (INR (nbins o) * nfs o))).

(** qetpy/core/_noise.py:284-314. *)
Definition calculate_psd (o : noise) : noise :=
  mkNoise (nbins o) (nchan o) (nfs o) (ntime o) (traces o)
    (Some (spectra cn2 o)) (Some (spectra (fun z => fst z ^ 2) o)) (Some (spectra (fun z => snd z ^ 2) o))
    (n_corrcoeff o)
    (n_uncorr o) (n_corr o) (n_csd o) (n_real_csd o) (n_imag_csd o) (n_real_csd_std o) (n_imag_csd_std o).

(** numpy [corrcoef] entry of two rows of observations; qetpy/core/_noise.py:338 (the
    final clipping to [-1,1] is the identity, see the theorems). *)
Definition cov_rows (a b : list R) : R :=
  lsum (map (fun p => (fst p - lmean a) * (snd p - lmean b)) (combine a b)).
(** qetpy/core/_noise.py:338. *)
Definition corr_rows (a b : list R) : R :=
  cov_rows a b / (sqrt (cov_rows a a) * sqrt (cov_rows b b)).

(** [traces_fft_chan[c,:,k]], qetpy/core/_noise.py:335-336. *)
Definition fft_row (o : noise) (c k : nat) : list R :=
  map (fun x => sqrt (power (nbins o) (x c) k)) (traces o).

(** qetpy/core/_noise.py:317-340; the stored array is indexed (j, i, k) by the final swapaxes. *)
Definition calculate_corrcoeff (o : noise) : noise * res unit :=
  if (nchan o =? 1)%nat then (o, Err ValueError) else
  (mkNoise (nbins o) (nchan o) (nfs o) (ntime o) (traces o)
    (n_psd o) (n_real_psd o) (n_imag_psd o)
    (Some (fun j i k => corr_rows (fft_row o i k) (fft_row o j k)))
    (n_uncorr o) (n_corr o) (n_csd o) (n_real_csd o) (n_imag_csd o) (n_real_csd_std o) (n_imag_csd_std o),
   Ok tt).

(** Population standard deviation over the traces, qetpy/core/_noise.py:398-399. *)
Definition std_over (xs : list trace) (f : trace -> R) : R := sqrt (lvar (map f xs)).

(** qetpy/core/_noise.py:394. *)
Definition csd_mean (o : noise) (i j k : nat) : C :=
  (mean_over (traces o) (fun x => fst (scipy_csd (nbins o) (nfs o) (x i) (x j) k)),
   mean_over (traces o) (fun x => snd (scipy_csd (nbins o) (nfs o) (x i) (x j) k))).

(** qetpy/core/_noise.py:362-406. *)
Definition calculate_csd (o : noise) : noise * res unit :=
  if (nchan o =? 1)%nat then (o, Err ValueError) else
  let m := lenpsd (nbins o) in
  let part (pr : C -> R) (x : trace) (i j k : nat) := pr (scipy_csd (nbins o) (nfs o) (x i) (x j) k) in
  (mkNoise (nbins o) (nchan o) (nfs o) (ntime o) (traces o)
    (n_psd o) (n_real_psd o) (n_imag_psd o) (n_corrcoeff o) (n_uncorr o) (n_corr o)
    (Some (csd_mean o))
    (Some (fun i j => fill_negatives (mk m (fun k => mean_over (traces o) (fun x => part fst x i j k)))))
    (Some (fun i j => fill_negatives (mk m (fun k => mean_over (traces o) (fun x => part snd x i j k)))))
    (Some (fun i j => fill_negatives (mk m (fun k => std_over (traces o) (fun x => part fst x i j k)))))
    (Some (fun i j => fill_negatives (mk m (fun k => std_over (traces o) (fun x => part snd x i j k))))),
   Ok tt).

(** A complex square matrix of [nchan] rows; qetpy/core/_noise.py:354. *)
Definition cmatrix := nat -> nat -> C.

(** The loop over frequency bins calling [np.linalg.inv], qetpy/core/_noise.py:353-354;
    [inv c m] is [np.linalg.inv] of a [c x c] matrix, [None] when it raises LinAlgError. *)
Fixpoint invert_bins (inv : nat -> cmatrix -> option cmatrix) (c : nat) (csd : nat -> nat -> nat -> C)
    (ks : list nat) : res (list cmatrix) :=
  match ks with
  | [] => Ok []
  | k :: ks =>
      match inv c (fun i j => csd i j k) with
      | None => Err LinAlgError
      | Some m => do r <- invert_bins inv c csd ks; Ok (m :: r)
      end
  end.

(** qetpy/core/_noise.py:342-360. *)
Definition calculate_uncorr_noise (inv : nat -> cmatrix -> option cmatrix) (o : noise) : noise * res unit :=
  let (o, r) := match n_csd o with None => calculate_csd o | Some _ => (o, Ok tt) end in
  match r with
  | Err e => (o, Err e)
  | Ok _ =>
    match n_csd o, n_real_csd o with
    | Some csd, Some real_csd =>
      let m := lenpsd (nbins o) in
      match invert_bins inv (nchan o) csd (seq 0 m) with
      | Err e => (o, Err e)
      | Ok invs =>
          let un j := map (fun b : cmatrix => 1 / Cmod (b j j)) invs in
          (mkNoise (nbins o) (nchan o) (nfs o) (ntime o) (traces o)
            (n_psd o) (n_real_psd o) (n_imag_psd o) (n_corrcoeff o)
            (Some (mk (nchan o) un))
            (Some (mk (nchan o) (fun j =>
               map (fun p : R * cmatrix => fst p - 1 / Cmod (snd p j j)) (combine (real_csd j j) invs))))
            (n_csd o) (n_real_csd o) (n_imag_csd o) (n_real_csd_std o) (n_imag_csd_std o),
           Ok tt)
      end
    | _, _ => (o, Err TypeError)
    end
  end.

(** ** Histories *)

(** The methods of Noise that change the object. *)
Inductive nop : Set := OpSlope | OpPsd | OpCorrcoeff | OpCsd | OpUncorr.

(** One method call; qetpy/core/_noise.py:271-406. *)
Definition run_noise (inv : nat -> cmatrix -> option cmatrix) (op : nop) (o : noise) : noise * res unit :=
  match op with
  | OpSlope => (remove_trace_slope o, Ok tt)
  | OpPsd => (calculate_psd o, Ok tt)
  | OpCorrcoeff => calculate_corrcoeff o
  | OpCsd => calculate_csd o
  | OpUncorr => calculate_uncorr_noise inv o
  end.

(** A finite sequence of method calls (exceptions caught by the caller);
    qetpy/core/_noise.py:271-406. *)
Definition run_noises (inv : nat -> cmatrix -> option cmatrix) (ops : list nop) (o : noise) : noise :=
  fold_left (fun o op => fst (run_noise inv op o)) ops o.
