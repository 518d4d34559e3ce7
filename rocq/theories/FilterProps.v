(** * Properties of the resampling, filtering and aligning functions of qetpy/utils/_utils.py *)
From Verif Require Import Base UtilsModel FilterModel FilterSpec FilterProofs FilterProofs2 FilterProofs3.
From Coq Require Import Rtrigo1 Reals Lra List.
From Coquelicot Require Import Complex.
Local Open Scope R_scope.

(** ** C99: shift by a fractional number of bins *)

(** Sample by sample the linear interpolation between the shifts by the two neighbouring whole
    numbers, where both source samples exist, and the fill value elsewhere. *)
Theorem C99_fractional_shift : forall arr (k : Z) f fill, 0 < f < 1 ->
  exists out lo hi,
    shift_any arr (IZR k + f) fill = Ok out /\
    shift_any arr (IZR k) fill = Ok lo /\ shift_any arr (IZR (k + 1)) fill = Ok hi /\
    length out = length arr /\
    forall i, (i < length arr)%nat ->
      let src := (Z.of_nat i - k)%Z in
      nth i out 0 = if ((0 <=? src - 1)%Z && (src <? Z.of_nat (length arr))%Z)%bool
                    then (1 - f) * nth i lo 0 + f * nth i hi 0 else fill.
Proof. exact shift_any_between. Qed.
Print Assumptions C99_fractional_shift.

Theorem C99_whole_shift : forall arr (k : Z) fill, shift_any arr (IZR k) fill = shift arr k fill.
Proof. exact shift_any_whole. Qed.
Print Assumptions C99_whole_shift.

(** A straight line is moved exactly. *)
Theorem C99_line : forall (a b : R) n (k : Z) f fill i, 0 < f < 1 -> (i < n)%nat ->
  (1 <= Z.of_nat i - k < Z.of_nat n)%Z ->
  exists out, shift_any (mk n (fun j => a + b * INR j)) (IZR k + f) fill = Ok out /\
    nth i out 0 = a + b * (INR i - (IZR k + f)).
Proof. exact shift_any_line. Qed.
Print Assumptions C99_line.

Example C99_ex : exists out, shift_any [0; 2; 6] (IZR 0 + / 2) 9 = Ok out /\ nth 0 out 0 = 9 /\ nth 1 out 0 = 1 /\ nth 2 out 0 = 4.
Proof.
  destruct (shift_any_between [0; 2; 6] 0 (/ 2) 9 ltac:(lra)) as (out & lo & hi & E & El & Eh & _ & H).
  rewrite shift_any_whole in El, Eh. injection El as <-. injection Eh as <-.
  exists out. split; [exact E|]. split; [|split].
  - now rewrite (H 0%nat ltac:(simpl; lia)).
  - rewrite (H 1%nat ltac:(simpl; lia)). simpl. lra.
  - rewrite (H 2%nat ltac:(simpl; lia)). simpl. lra.
Qed.

(** ** C100: resample_data *)
Theorem C100_resample : forall poly x fs sg,
  (0 < fs)%Z -> (0 < sg)%Z ->
  exists y fs' up down,
    resample_data poly x (PyInt fs) (PyInt sg) (IZR fs) = Ok (y, fs') /\
    resample_factors (PyInt fs) (PyInt sg) = Ok (up, down) /\ (0 < up)%Z /\ (0 < down)%Z /\
    fs' = IZR fs * IZR up / IZR down /\
    INR (length x) / IZR fs <= INR (length y) / fs' < INR (length x) / IZR fs + 1 / fs' /\
    ((sg | fs)%Z -> y = x /\ fs' = IZR fs).
Proof. exact resample_data_spec. Qed.
Print Assumptions C100_resample.

(** A fractional rate is refused. *)
Theorem C100_rejects : forall poly x fsval n,
  resample_data poly x PyFrac n fsval = Err ValueError /\ resample_data poly x n PyFrac fsval = Err ValueError.
Proof. exact resample_data_rejects. Qed.
Print Assumptions C100_rejects.

(** 12 Hz data and a 5 Hz square wave: resampled by 5/6 to 10 Hz. *)
Example C100_ex : forall poly, exists y, resample_data poly [0; 1; 2] (PyInt 12) (PyInt 5) (IZR 12) = Ok (y, IZR 12 * IZR 5 / IZR 6)
  /\ length y = 3%nat.
Proof. intros poly. eexists. split; [reflexivity|reflexivity]. Qed.

(** ** C101: lowpassfilter *)

(** Each row is filtered on its own and keeps its length. *)
Theorem C101_rows : forall traces fc fs, 0 < fs -> 0 < fc < fs / 2 ->
  (forall tr, In tr traces -> (6 < length tr)%nat) ->
  exists out, lowpassfilter traces fc fs = Ok out /\ length out = length traces /\
    forall k, (k < length traces)%nat ->
      lowpassfilter [nth k traces []] fc fs = Ok [nth k out []] /\
      length (nth k out []) = length (nth k traces []).
Proof. exact lowpass_rows. Qed.
Print Assumptions C101_rows.

(** Inside the trace it is the first-order Butterworth difference equation, applied forwards and
    then backwards, with the prewarped frequency [tan (PI*fc/fs)]. *)
Theorem C101_equations : forall x y fc fs, lowpassfilter [x] fc fs = Ok [y] ->
  let t := tan (PI * fc / fs) in
  exists u, length u = length x /\ forall k, (S k < length x)%nat ->
    (1 + t) * nth (S k) u 0 = t * (nth (S k) x 0 + nth k x 0) + (1 - t) * nth k u 0 /\
    (1 + t) * nth k y 0 = t * (nth k u 0 + nth (S k) u 0) + (1 - t) * nth (S k) y 0.
Proof. exact lowpass_equations. Qed.
Print Assumptions C101_equations.

Theorem C101_rejects : forall x fc fs, 0 < fs -> ~ (0 < fc < fs / 2) \/ (length x <= 6)%nat ->
  lowpassfilter [x] fc fs = Err ValueError.
Proof. exact lowpass_errors. Qed.
Print Assumptions C101_rejects.

Theorem C101_linear : forall a b c x y fc fs,
  0 < fs -> 0 < fc < fs / 2 -> length x = length y -> (6 < length x)%nat ->
  exists x' y', lowpassfilter [x] fc fs = Ok [x'] /\ lowpassfilter [y] fc fs = Ok [y'] /\
    lowpassfilter [combination a b c x y] fc fs = Ok [combination a b c x' y'].
Proof. exact lowpass_combination. Qed.
Print Assumptions C101_linear.

Theorem C101_constant : forall c n fc fs, 0 < fs -> 0 < fc < fs / 2 -> (6 < n)%nat ->
  lowpassfilter [repeat c n] fc fs = Ok [repeat c n].
Proof. exact lowpass_constant. Qed.
Print Assumptions C101_constant.

(** No overshoot for cut-offs up to a quarter of the sample rate. *)
Theorem C101_range : forall lo hi x y fc fs, 0 < fs -> 0 < fc <= fs / 4 -> all_between lo hi x ->
  lowpassfilter [x] fc fs = Ok [y] -> all_between lo hi y.
Proof. exact lowpass_within. Qed.
Print Assumptions C101_range.

Example C101_ex :
  lowpassfilter [ [1; 0; -1; 0; 1; 0; -1; 0; 1] ] 1 4 = Ok [ [/2; 0; -/2; 0; /2; 0; -/2; 0; /2] ] /\
  all_between (-1) 1 [1; 0; -1; 0; 1; 0; -1; 0; 1] /\ 0 < 1 <= 4 / 4.
Proof.
  split; [exact lowpass_quarter|]. split; [|lra]. intros v Hv. simpl in Hv. decompose [or] Hv; subst; try lra; contradiction.
Qed.

(** ** C102: the response at the cut-off frequency *)

(** Started in its steady state, one pass multiplies a sinusoid by the gain. *)
Theorem C102_response : forall g p w phi n, Rabs p < 1 ->
  let G := gain g p w in
  exists z, lfilter g p z (mk n (fun k => cos (phi + w * INR k)))
    = mk n (fun k => fst G * cos (phi + w * INR k) - snd G * sin (phi + w * INR k)).
Proof. exact lfilter_sinusoid. Qed.
Print Assumptions C102_response.

(** One pass of the filter halves the power at the cut-off (3 dB)... *)
Theorem C102_one_pass : forall wn g p, butter1 wn = Ok (g, p) -> Cmod (gain g p (PI * wn)) ^ 2 = / 2.
Proof. exact gain_cutoff. Qed.
Print Assumptions C102_one_pass.

(** ... but [lowpassfilter] passes twice: a sinusoid at the documented 3 dB cut-off loses half of
    its amplitude, that is 6 dB. *)
Theorem C102_three_db_refuted : exists x y fc fs,
  0 < fc < fs / 2 /\ (6 < length x)%nat /\
  (forall k, (k < length x)%nat -> nth k x 0 = cos (2 * PI * fc / fs * INR k)) /\
  lowpassfilter [x] fc fs = Ok [y] /\
  forall k, (k < length x)%nat -> nth k y 0 = / 2 * nth k x 0.
Proof. exact three_db_refuted. Qed.
Print Assumptions C102_three_db_refuted.

Example C102_ex : butter1 (1 / (/ 2 * 4)) = Ok (/ 2, 0).
Proof. exact butter1_quarter. Qed.

(** ** C103: align_traces *)

(** With rows of equal length whose filtered beginnings are not constant: the shift of each trace is
    the lag at which it overlaps best with the first trace, the first shift is 0, and the
    aligned traces are the traces moved by the shifts, missing samples masked. *)
Theorem C103_align : forall traces just n_cut fc fs n filt,
  traces <> [] -> (forall tr, In tr traces -> length tr = n) ->
  lowpassfilter (map (fun tr => pyslice tr 0 n_cut) traces) 5000 625000 = Ok filt ->
  (forall y, In y filt -> exists v, In v (centred y) /\ v <> 0) ->
  exists shifts aligned,
    align_traces traces just n_cut fc fs = Ok (shifts, if just then None else Some aligned) /\
    length shifts = length traces /\ length aligned = length traces /\
    nth 0 shifts 0%Z = 0%Z /\
    forall k, (k < length traces)%nat ->
      best_lag (Z.of_nat (length (nth 0 filt []))) (centred (nth 0 filt [])) (centred (nth k filt [])) (nth k shifts 0%Z) /\
      moved_by (nth k traces []) (nth k shifts 0%Z) (nth k aligned []).
Proof. exact align_spec. Qed.
Print Assumptions C103_align.

(** A gain and an offset for each trace do not change the shifts. *)
Theorem C103_gain_offset : forall traces traces' just n_cut fc fs n filt (a c : nat -> R) shifts al shifts' al',
  traces <> [] -> (forall tr, In tr traces -> length tr = n) ->
  lowpassfilter (map (fun tr => pyslice tr 0 n_cut) traces) 5000 625000 = Ok filt ->
  (forall y, In y filt -> exists v, In v (centred y) /\ v <> 0) ->
  length traces' = length traces ->
  (forall k, (k < length traces)%nat -> 0 < a k /\ nth k traces' [] = map (fun v => a k * v + c k) (nth k traces [])) ->
  align_traces traces just n_cut fc fs = Ok (shifts, al) ->
  align_traces traces' just n_cut fc fs = Ok (shifts', al') ->
  shifts' = shifts.
Proof. exact align_gain_offset. Qed.
Print Assumptions C103_gain_offset.

(** A scaled and offset copy of the first trace is not moved. *)
Theorem C103_copy : forall traces just n_cut fc fs n filt k a c shifts al,
  (forall tr, In tr traces -> length tr = n) ->
  lowpassfilter (map (fun tr => pyslice tr 0 n_cut) traces) 5000 625000 = Ok filt ->
  (forall y, In y filt -> exists v, In v (centred y) /\ v <> 0) ->
  (k < length traces)%nat -> 0 < a -> nth k traces [] = map (fun v => a * v + c) (nth 0 traces []) ->
  align_traces traces just n_cut fc fs = Ok (shifts, al) ->
  nth k shifts 0%Z = 0%Z.
Proof. exact align_copy. Qed.
Print Assumptions C103_copy.

(** A condition on the trace itself for its filtered row not to be constant. *)
Theorem C103_condition : forall x y fc fs k, lowpassfilter [x] fc fs = Ok [y] -> (k + 3 < length x)%nat ->
  nth (k + 3) x 0 + nth (k + 2) x 0 <> nth (k + 1) x 0 + nth k x 0 ->
  exists v, In v (centred y) /\ v <> 0.
Proof. exact lowpass_varies. Qed.
Print Assumptions C103_condition.

Example C103_ex :
  let traces := [ [0; 0; 0; 1; 0; 0; 0; 0]; [1; 1; 1; 3; 1; 1; 1; 1] ] in
  exists shifts al, align_traces traces false 5000 5000 625000 = Ok (shifts, al) /\ shifts = [0; 0]%Z.
Proof. exact align_example. Qed.

(** A constant trace defeats the alignment: its normalised row is nan throughout. *)
Theorem C103_constant_refuted : exists shifts,
  align_traces [ [0; 0; 0; 1; 0; 0; 0; 0]; [0; 0; 0; 0; 0; 0; 0; 0] ] true 5000 5000 625000 = Ok (shifts, None) /\
  nth 1 shifts 0%Z = (-7)%Z.
Proof. exact align_constant. Qed.
Print Assumptions C103_constant_refuted.

(** ** C104: the filter arguments of align_traces *)

(** They are accepted and ignored, whatever the trace. *)
Theorem C104_arguments_refuted : forall traces just n_cut fc fs fc' fs',
  align_traces traces just n_cut fc fs = align_traces traces just n_cut fc' fs'.
Proof. exact align_ignores. Qed.
Print Assumptions C104_arguments_refuted.

(** In particular an invalid cut-off, which [lowpassfilter] rejects, goes unnoticed. *)
Theorem C104_invalid_accepted : exists tr fc fs r,
  lowpassfilter [tr] fc fs = Err ValueError /\ align_traces [tr] true 5000 fc fs = Ok r.
Proof. exact align_invalid. Qed.
Print Assumptions C104_invalid_accepted.
