(** * Model of the resampling, filtering and aligning functions of qetpy/utils/_utils.py

    Simplifications: exact real arithmetic; arrays hold floats; [scipy.signal.fftconvolve] is
    the convolution sum. *)
From Verif Require Import Base UtilsModel.
From Coq Require Import Rtrigo1.
Local Open Scope R_scope.

(** ** shift by any number of bins *)

(** [ndimage.shift(arr, num, order=1, mode='constant', cval=fill)] as documented by scipy: sample
    [i] is the linear interpolation at [i - num], or [fill] if that lies outside
    [0 .. n-1]; called at qetpy/utils/_utils.py:64-66.  [Int_part] is [floor]. *)
Definition ndshift1 (arr : list R) (num fill : R) : list R :=
  let n := length arr in
  mk n (fun i =>
    let x := INR i - num in
    if (Rleb 0 x && Rleb x (INR (n - 1)))%bool then
      let k := Z.to_nat (Int_part x) in
      let w := x - IZR (Int_part x) in
      if Reqb w 0 then nth k arr 0 else (1 - w) * nth k arr 0 + w * nth (S k) arr 0
    else fill).

(** [shift]; qetpy/utils/_utils.py:50-68, with a float [num]. *)
Definition shift_any (arr : list R) (num fill : R) : res (list R) :=
  if Reqb num (IZR (Int_part num)) then shift arr (Int_part num) fill
  else Ok (ndshift1 arr num fill).

(** ** resample_data *)

(** Length of the result of [scipy.signal.resample_poly(x, up, down)]:
    [n*up // down + bool(n*up % down)]; called at qetpy/utils/_utils.py:175. *)
Definition resampled_length (n : nat) (up down : Z) : nat :=
  let m := (Z.of_nat n * up)%Z in
  Z.to_nat (m / down + (if (m mod down =? 0)%Z then 0 else 1)).

(** [resample_data] of one trace; qetpy/utils/_utils.py:171-178.  [poly up down x k] stands for
    sample [k] computed by [resample_poly], which returns a copy for equal factors. *)
Definition resample_data (poly : Z -> Z -> list R -> nat -> R) (x : list R) (fs sgfreq : pynum)
  (fsval : R) : res (list R * R) :=
  do ud <- resample_factors fs sgfreq;
  let (up, down) := (ud : Z * Z) in
  let y := if (up =? down)%Z then x
           else mk (resampled_length (length x) up down) (poly up down x) in
  Ok (y, fsval * IZR up / IZR down).

(** ** lowpassfilter *)

(** Coefficients [(g, p)] of [signal.butter(1, wn)]: [b = [g, g]], [a = [1, -p]] (bilinear
    transform of the one-pole prototype with prewarped frequency); called at
    qetpy/utils/_utils.py:382.  A critical frequency outside (0, 1) raises.  Only [order=1], the
    default and the only order used inside the package, is modelled. *)
Definition butter1 (wn : R) : res (R * R) :=
  if (Rltb 0 wn && Rltb wn 1)%bool then
    let t := tan (PI * wn / 2) in Ok (t / (1 + t), (1 - t) / (1 + t))
  else Err ValueError.

(** [signal.lfilter([g, g], [1, -p], x, zi=[z])[0]], the transposed direct form;
    inside [filtfilt], called at qetpy/utils/_utils.py:383. *)
Fixpoint lfilter (g p z : R) (x : list R) : list R :=
  match x with
  | [] => []
  | v :: x => let y := g * v + z in y :: lfilter g p (g * v + p * y) x
  end.

(** [lfilter_zi([g, g], [1, -p])]; inside [filtfilt], called at qetpy/utils/_utils.py:383. *)
Definition lfilter_zi (g p : R) : R := (g - - p * g) / (1 + - p).

(** The even extension [x[edge:0:-1], x, x[-2:-(edge+2):-1]]; inside [filtfilt], called at
    qetpy/utils/_utils.py:383. *)
Definition even_ext (edge : nat) (x : list R) : list R :=
  rev (firstn edge (skipn 1 x)) ++ x ++ firstn edge (skipn 1 (rev x)).

(** [signal.filtfilt(b, a, x, padtype='even')] with two coefficients each, so padlen is 6;
    called at qetpy/utils/_utils.py:383. *)
Definition filtfilt (g p : R) (x : list R) : res (list R) :=
  let edge := 6%nat in
  if (length x <=? edge)%nat then Err ValueError
  else
    let zi := lfilter_zi g p in
    let ext := even_ext edge x in
    let y := lfilter g p (zi * hd 0 ext) ext in
    let y := lfilter g p (zi * last y 0) (rev y) in
    Ok (firstn (length x) (skipn edge (rev y))).

(** The results of a list of calls; qetpy/utils/_utils.py:383 ([filtfilt] along the last axis). *)
Fixpoint all_ok {A} (l : list (res A)) : res (list A) :=
  match l with
  | [] => Ok []
  | m :: l => do a <- m; do r <- all_ok l; Ok (a :: r)
  end.

(** [lowpassfilter(traces, cut_off_freq, fs)]; qetpy/utils/_utils.py:380-385.  An array without
    rows is returned as such (scipy would still look at the row length). *)
Definition lowpassfilter (traces : list (list R)) (cut_off_freq fs : R) : res (list (list R)) :=
  let nyq := / 2 * fs in
  let cut_off := cut_off_freq / nyq in
  do ba <- butter1 cut_off;
  all_ok (map (filtfilt (fst ba) (snd ba)) traces).

(** ** align_traces *)

(** [np.amax] of a list with head [v]; qetpy/utils/_utils.py:428. *)
Definition row_max (v : R) (l : list R) : R := fold_left Rmax l v.

(** Mean subtracted and divided by the maximum; [None] stands for the array of nan that a
    constant row gives; qetpy/utils/_utils.py:427-428. *)
Definition normalise (x : list R) : option (list R) :=
  let temp := map (fun v => v - lmean x) x in
  match temp with
  | [] => None
  | v :: l => if Reqb (row_max v l) 0 then None else Some (map (fun w => w / row_max v l) temp)
  end.

(** [signal.fftconvolve(a, b, mode='full')]; qetpy/utils/_utils.py:433 and 443-445. *)
Definition convolve (a b : list R) : list R :=
  mk (length a + length b - 1) (fun k =>
    rsum (length a) (fun j =>
      if ((j <=? k)%nat && (k - j <? length b)%nat)%bool then nth j a 0 * nth (k - j) b 0 else 0)).

(** [np.argmax(fftconvolve(t1, t2[::-1], mode='full'))]; nan anywhere makes the first entry the
    maximum; qetpy/utils/_utils.py:433 and 443-445. *)
Definition peak_lag (t1 t2 : option (list R)) : Z :=
  match t1, t2 with
  | Some a, Some b =>
      match convolve a (rev b) with
      | [] => 0%Z
      | v :: l => Z.of_nat (argmax_from 1 0 v l)
      end
  | _, _ => 0%Z
  end.

(** [ndimage.shift(trace, s, cval=np.nan)] for an integral [s]: the interpolating spline passes
    through the samples; [None] is nan; qetpy/utils/_utils.py:448-450. *)
Definition ndshift_nan (arr : list R) (s : Z) : list (option R) :=
  mk (length arr) (fun i =>
    let j := (Z.of_nat i - s)%Z in
    if ((0 <=? j)%Z && (j <? Z.of_nat (length arr))%Z)%bool then nth_error arr (Z.to_nat j) else None).

(** [align_traces]; qetpy/utils/_utils.py:423-461: the shifts and, unless only these are wanted,
    the shifted traces with the masked samples as [None].  The cut-off and sample rate passed on
    are the literals 5000 and 625e3. *)
Definition align_traces (traces : list (list R)) (lgcjustshifts : bool) (n_cut : Z)
  (cut_off_freq fs : R) : res (list Z * option (list (list (option R)))) :=
  do filt <- lowpassfilter (map (fun tr => pyslice tr 0 n_cut) traces) 5000 625000;
  let norm := map normalise filt in
  do t1 <- pyindex norm 0;
  let orig := peak_lag t1 t1 in
  let shifts := map (fun t2 => (peak_lag t1 t2 - orig)%Z) norm in
  Ok (shifts, if lgcjustshifts then None
              else Some (map (fun p => ndshift_nan (fst p) (snd p)) (combine traces shifts))).
