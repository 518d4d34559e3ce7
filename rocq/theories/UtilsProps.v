(** * Properties of qetpy/utils/_utils.py *)
From Verif Require Import Base UtilsModel UtilsSpec UtilsProofs1 UtilsProofs2 UtilsProofs3 UtilsProofs4 UtilsProofs5.
From Coq Require Import Znumtheory.
From Coquelicot Require Import Coquelicot.
From Coq Require Import Reals Lra.
Local Open Scope R_scope.

(** ** C01 *)
Theorem C01_shift : forall (A : Type) (arr : list A) (num : Z) (fill : A),
  exists out, shift arr num fill = Ok out /\ is_shift_of arr num fill out.
Proof. exact @shift_correct. Qed.
Print Assumptions C01_shift.

(** The specification determines the output. *)
Theorem C01_shift_unique : forall (A : Type) (arr : list A) num fill o1 o2,
  is_shift_of arr num fill o1 -> is_shift_of arr num fill o2 -> o1 = o2.
Proof. exact @is_shift_of_unique. Qed.
Print Assumptions C01_shift_unique.

Example C01_ex : shift [1;2;3;4]%Z 2 0%Z = Ok [0;0;1;2]%Z /\ shift [1;2;3;4]%Z (-1) 9%Z = Ok [2;3;4;9]%Z
  /\ shift [1;2]%Z 7 0%Z = Ok [0;0]%Z /\ shift [1;2]%Z (-7) 5%Z = Ok [5;5]%Z.
Proof. repeat split. Qed.

(** ** C02 *)
Theorem C02_resample_refuted :
  exists fs sg up down, (0 < fs)%Z /\ (0 < sg)%Z /\
    resample_factors (PyInt fs) (PyInt sg) = Ok (up, down) /\
    ~ is_integer (IZR fs * IZR up / IZR down / IZR sg).
Proof. exact resample_counterexample. Qed.
Print Assumptions C02_resample_refuted.

(** Exactly when the claim holds: the reduced denominator divides [up]. *)
Theorem C02_resample_iff_partial : forall fs sg up down,
  (0 < fs)%Z -> (0 < sg)%Z -> resample_core fs sg = (up, down) ->
  (is_integer (IZR fs * IZR up / IZR down / IZR sg) <-> (sg / Z.gcd fs sg | up)%Z).
Proof. exact resample_integer_iff. Qed.
Print Assumptions C02_resample_iff_partial.

(** It holds for every denominator that is prime. *)
Theorem C02_resample_prime_partial : forall fs sg up down,
  (0 < fs)%Z -> (0 < sg)%Z -> prime (sg / Z.gcd fs sg) -> resample_core fs sg = (up, down) ->
  is_integer (IZR fs * IZR up / IZR down / IZR sg).
Proof. exact resample_prime_denominator. Qed.
Print Assumptions C02_resample_prime_partial.

Theorem C02_resample_integral : forall fs sg,
  (0 < fs)%Z -> (0 < sg)%Z -> (sg | fs)%Z -> resample_core fs sg = (1, 1)%Z.
Proof. exact resample_integral_left_alone. Qed.
Print Assumptions C02_resample_integral.

(** The two factors: the down factor is the radical of the reduced numerator, the up factor the
    multiple of the smallest prime of the reduced denominator closest to it. *)
Theorem C02_resample_factors_exact : forall fs sg up down,
  (0 < fs)%Z -> (0 < sg)%Z -> ~ (sg | fs)%Z ->
  resample_factors (PyInt fs) (PyInt sg) = Ok (up, down) ->
  is_radical (fs / Z.gcd fs sg) down /\
  exists m, smallest_prime_factor (sg / Z.gcd fs sg) m /\ closest_multiple m down up.
Proof. exact resample_factors_exact. Qed.
Print Assumptions C02_resample_factors_exact.

Example C02_exact_ex : ~ (45 | 1000)%Z /\ resample_factors (PyInt 1000) (PyInt 45) = Ok (9, 10)%Z.
Proof. split; [intros [z Hz]; lia|reflexivity]. Qed.

Theorem C02_resample_errors : forall fs sg,
  resample_factors fs sg = Err ValueError <-> (fs = PyFrac \/ sg = PyFrac).
Proof.
  intros [f|] [s|]; simpl; split; auto; try discriminate; intros [H|H]; discriminate.
Qed.
Print Assumptions C02_resample_errors.

Example C02_ex_prime : prime (3 / Z.gcd 10 3) /\ resample_core 10 3 = (9, 10)%Z.
Proof. split; [apply prime_3|vm_compute; reflexivity]. Qed.

(** ** C03 *)
Theorem C03_make_decreasing : forall x y,
  length x = length y -> strictly_increasing x ->
  (forall v, In v y -> v <> 0) -> two_minima y ->
  exists out, make_decreasing x y = Ok out /\
    length out = length y /\
    (forall i j, (i < j < length y)%nat -> nth j out 0 < nth i out 0) /\
    (forall i, new_minimum y i -> nth i out 0 = nth i y 0) /\
    (forall i, (i < length y)%nat -> nth i out 0 <= nth i y 0).
Proof. exact make_decreasing_correct. Qed.
Print Assumptions C03_make_decreasing.

Example C03_ex : length [0;1;2;3] = length [4;5;2;3] /\ strictly_increasing [0;1;2;3] /\
  (forall v, In v [4;5;2;3] -> v <> 0) /\ two_minima [4;5;2;3].
Proof.
  repeat split.
  - intros i j Hij. simpl in Hij.
    destruct i as [|[|[|i]]], j as [|[|[|[|j]]]]; simpl; try lra; try lia.
  - intros v [<-|[<-|[<-|[<-|[]]]]]; lra.
  - exists 2%nat. split; [lia|]. split; [simpl; lia|]. intros [|[|j]] Hj; simpl; try lra. lia.
Qed.

(** For spectra that contain a zero the kept-points claim fails... *)
Theorem C03_zero_refuted :
  exists x y out i, strictly_increasing x /\ length x = length y /\
    (forall v, In v y -> 0 <= v) /\ two_minima y /\ make_decreasing x y = Ok out /\
    new_minimum y i /\ nth i out 0 <> nth i y 0.
Proof. exact make_decreasing_drops_zero. Qed.
Print Assumptions C03_zero_refuted.

(** ** C61: positive spectra stay positive *)
Theorem C61_make_decreasing_positive_refuted :
  exists x y out i, strictly_increasing x /\ length x = length y /\
    (forall v, In v y -> 0 < v) /\ two_minima y /\ make_decreasing x y = Ok out /\
    (i < length y)%nat /\ nth i out 0 < 0.
Proof. exact make_decreasing_negative_tail. Qed.
Print Assumptions C61_make_decreasing_positive_refuted.

(** ** C04 *)
Theorem C04_calc_offset_didv : forall x fs sgfreq n,
  x <> [] -> (forall tr, In tr x -> length tr = n) -> 0 < sgfreq ->
  1 <= fs / sgfreq <= INR n ->
  exists (k m : nat) off std,
    calc_offset x fs sgfreq true = Some (off, std) /\
    INR k * (fs / sgfreq) <= INR n < (INR k + 1) * (fs / sgfreq) /\
    INR m <= INR k * (fs / sgfreq) < INR m + 1 /\
    off = lmean (concat (map (firstn m) x)) /\
    off = lmean (map (fun tr => lmean (firstn m tr)) x) /\
    std = standard_error (map (fun tr => lmean (firstn m tr)) x) /\
    (std = 0 <-> forall a b, In a x -> In b x -> lmean (firstn m a) = lmean (firstn m b)).
Proof. exact calc_offset_didv_exact. Qed.
Print Assumptions C04_calc_offset_didv.

Theorem C04_calc_offset_plain : forall x fs sgfreq n,
  x <> [] -> (forall tr, In tr x -> length tr = n) -> (0 < n)%nat ->
  exists off std,
    calc_offset x fs sgfreq false = Some (off, std) /\
    off = lmean (concat x) /\ off = lmean (map lmean x) /\ std = standard_error (map lmean x) /\
    (std = 0 <-> forall a b, In a x -> In b x -> lmean a = lmean b).
Proof. exact calc_offset_plain_exact. Qed.
Print Assumptions C04_calc_offset_plain.

Example C04_ex : [[1;2;3;4;5];[2;3;4;5;6]] <> [] /\
  (forall tr, In tr [[1;2;3;4;5];[2;3;4;5;6]] -> length tr = 5%nat) /\ 0 < 5 /\ 1 <= 10 / 5 <= INR 5.
Proof.
  repeat split; try discriminate; try lra.
  - intros tr [<-|[<-|[]]]; reflexivity.
  - simpl. lra.
Qed.

(** ** C05 *)
Theorem C05_slope_least_squares : forall x y,
  length x = length y -> two_values x ->
  exists b0, forall a b,
    ssr x y (slope x y true) b0 <= ssr x y a b /\
    (ssr x y a b = ssr x y (slope x y true) b0 -> a = slope x y true /\ b = b0).
Proof. exact slope_least_squares. Qed.
Print Assumptions C05_slope_least_squares.

Theorem C05_slope_shift : forall x y c,
  length x = length y -> two_values x ->
  slope x (map (fun v => v + c) y) true = slope x y true.
Proof. exact slope_shift_y. Qed.
Print Assumptions C05_slope_shift.

Theorem C05_slope_through_origin : forall x y,
  length x = length y -> (exists i, (i < length x)%nat /\ nth i x 0 <> 0) ->
  forall a, ssr x y (slope x y false) 0 <= ssr x y a 0.
Proof. exact slope_through_origin. Qed.
Print Assumptions C05_slope_through_origin.

Example C05_ex : length [0;1;2] = length [5;1;7] /\ two_values [0;1;2] /\ slope [0;1;2] [5;1;7] true = 1.
Proof.
  split; [reflexivity|]. split.
  - exists 0%nat, 1%nat. simpl. repeat split; try lia. lra.
  - unfold slope, lmean. cbn. field.
Qed.

(** ** C06 *)
Theorem C06_fill_negatives_length : forall arr, length (fill_negatives arr) = length arr.
Proof. exact fill_negatives_length. Qed.
Print Assumptions C06_fill_negatives_length.

Theorem C06_fill_negatives_keeps : forall arr i,
  (i < length arr)%nat -> 0 < nth i arr 0 -> nth i (fill_negatives arr) 0 = nth i arr 0.
Proof. exact fill_negatives_keeps. Qed.
Print Assumptions C06_fill_negatives_keeps.

(** Between two neighbouring positive entries: the straight line joining them... *)
Theorem C06_fill_negatives_mid : forall arr l i r,
  (l < i < r)%nat -> (r < length arr)%nat -> 0 < nth l arr 0 -> 0 < nth r arr 0 ->
  (forall k, (l < k < r)%nat -> nth k arr 0 <= 0) ->
  nth i (fill_negatives arr) 0 = lin_interp l r i (nth l arr 0) (nth r arr 0).
Proof. exact fill_negatives_mid. Qed.
Print Assumptions C06_fill_negatives_mid.

(** ... which lies between them. *)
Theorem C06_lin_interp_between : forall l r i fl fr,
  (l < i < r)%nat -> lies_between fl fr (lin_interp l r i fl fr).
Proof. exact lin_interp_between. Qed.
Print Assumptions C06_lin_interp_between.

Theorem C06_fill_negatives_head : forall arr i r,
  (i < r < length arr)%nat -> 0 < nth r arr 0 ->
  (forall k, (k < r)%nat -> nth k arr 0 <= 0) ->
  nth i (fill_negatives arr) 0 = nth r arr 0.
Proof. exact fill_negatives_head. Qed.
Print Assumptions C06_fill_negatives_head.

Theorem C06_fill_negatives_tail : forall arr l i,
  (l < i < length arr)%nat -> 0 < nth l arr 0 ->
  (forall k, (l < k < length arr)%nat -> nth k arr 0 <= 0) ->
  nth i (fill_negatives arr) 0 = nth l arr 0.
Proof. exact fill_negatives_tail. Qed.
Print Assumptions C06_fill_negatives_tail.

Theorem C06_fill_negatives_positive : forall arr k,
  (k < length arr)%nat -> 0 < nth k arr 0 ->
  forall i, (i < length arr)%nat -> 0 < nth i (fill_negatives arr) 0.
Proof. exact fill_negatives_positive. Qed.
Print Assumptions C06_fill_negatives_positive.

Theorem C06_fill_negatives_none : forall arr,
  (forall i, (i < length arr)%nat -> nth i arr 0 <= 0) -> fill_negatives arr = arr.
Proof. exact fill_negatives_no_positive. Qed.
Print Assumptions C06_fill_negatives_none.

Theorem C06_fill_negatives_idempotent : forall arr,
  fill_negatives (fill_negatives arr) = fill_negatives arr.
Proof. exact fill_negatives_idempotent. Qed.
Print Assumptions C06_fill_negatives_idempotent.

Example C06_ex : let arr := [0; 4; -1; 0; 1; -7] in
  (1 < 2 < 4)%nat /\ (4 < length arr)%nat /\ 0 < nth 1 arr 0 /\ 0 < nth 4 arr 0 /\
  (forall k, (1 < k < 4)%nat -> nth k arr 0 <= 0) /\
  (forall k, (k < 1)%nat -> nth k arr 0 <= 0) /\
  (forall k, (4 < k < length arr)%nat -> nth k arr 0 <= 0) /\
  nth 2 (fill_negatives arr) 0 = 3.
Proof.
  cbv zeta.
  assert (H : forall k, (1 < k < 4)%nat -> nth k [0; 4; -1; 0; 1; -7] 0 <= 0)
    by (intros [|[|[|[|k]]]] Hk; simpl; try lra; lia).
  repeat split; try (simpl; lia); try (simpl; lra); try exact H.
  - intros [|k] Hk; simpl; [lra|lia].
  - intros [|[|[|[|[|[|k]]]]]] Hk; simpl in *; try lra; lia.
  - rewrite (fill_negatives_mid _ 1 2 4); try lia; try (simpl; lra); try (simpl; lia); try exact H.
    unfold lin_interp. simpl. field.
Qed.

(** ** C07 *)
Theorem C07_power_ohm : forall ioffset qetbias rload rsh i,
  i - ioffset <> 0 ->
  power1 ioffset qetbias rload rsh i
  = (i - ioffset) ^ 2 * (qetbias * rsh / (i - ioffset) - rload).
Proof. exact power_ohm. Qed.
Print Assumptions C07_power_ohm.

Theorem C07_powertrace_pointwise : forall trace io q rl rs k,
  (k < length trace)%nat ->
  nth k (powertrace_simple trace io q rl rs) 0 = power1 io q rl rs (nth k trace 0).
Proof. exact powertrace_nth. Qed.
Print Assumptions C07_powertrace_pointwise.

Theorem C07_power_max : forall ioffset qetbias rload rsh i,
  0 < rload ->
  power1 ioffset qetbias rload rsh i
  <= power1 ioffset qetbias rload rsh (ioffset + qetbias * rsh / (2 * rload)).
Proof. exact power_max. Qed.
Print Assumptions C07_power_max.

Theorem C07_energy_flat_zero : forall e trace io q rl rs fs tm pre post b,
  (forall v, In v trace -> v = b) -> 0 < e -> fs <> 0 ->
  energy_absorbed e trace io q rl rs (Some fs) (Some b) tm pre post = Ok 0 /\
  (forall t, length t = length trace ->
     energy_absorbed e trace io q rl rs None (Some b) (Some t) pre post = Ok 0).
Proof. exact energy_flat_zero. Qed.
Print Assumptions C07_energy_flat_zero.

Theorem C07_energy_flat_zero_own_baseline : forall e trace io q rl rs fs tm pre post b,
  (forall v, In v trace -> v = b) -> 0 < e -> fs <> 0 -> pyslice trace 0 pre <> [] ->
  energy_absorbed e trace io q rl rs (Some fs) None tm (Some pre) post = Ok 0.
Proof. exact energy_flat_zero_own_baseline. Qed.
Print Assumptions C07_energy_flat_zero_own_baseline.

Theorem C07_energy_fs_time : forall e trace io q rl rs fs t0 baseline pre post,
  e <> 0 -> fs <> 0 ->
  energy_absorbed e trace io q rl rs (Some fs) baseline None pre post
  = energy_absorbed e trace io q rl rs None baseline
      (Some (mk (length trace) (fun k => t0 + INR k * (1 / fs)))) pre post.
Proof. exact energy_fs_time. Qed.
Print Assumptions C07_energy_fs_time.

(** The value: the trapezoid integral of the power removed from the baseline power, in eV. *)
Theorem C07_energy_value : forall e trace io q rl rs fs baseline time pre post b,
  baseline_of trace baseline pre post b ->
  (forall t, time = Some t -> length t = length trace) ->
  energy_absorbed e trace io q rl rs fs baseline time
    (option_map Z.of_nat pre) (option_map Z.of_nat post) =
  match fs, time with
  | Some f, _ => Ok (trapezoid (length trace) INR
      (fun k => joule_power io (q * rs) rl b - joule_power io (q * rs) rl (nth k trace 0)) / (f * e))
  | None, Some t => Ok (trapezoid (length trace) (fun k => nth k t 0)
      (fun k => joule_power io (q * rs) rl b - joule_power io (q * rs) rl (nth k trace 0)) / e)
  | None, None => Err ValueError
  end.
Proof. exact energy_value. Qed.
Print Assumptions C07_energy_value.

Example C07_value_ex : baseline_of [1; 2; 5; 3] None (Some 1%nat) (Some 3%nat) 2.
Proof. exists 1%nat. repeat split; simpl; try lia. unfold lmean. simpl. lra. Qed.

Theorem C07_energy_errors : forall e trace io q rl rs fs baseline time pre post,
  (forall t, time = Some t -> length t = length trace) ->
  (energy_absorbed e trace io q rl rs fs baseline time pre post = Err ValueError
   <-> (baseline = None /\ pre = None) \/ (fs = None /\ time = None)) /\
  (forall ex, energy_absorbed e trace io q rl rs fs baseline time pre post = Err ex -> ex = ValueError).
Proof. exact energy_value_error_iff. Qed.
Print Assumptions C07_energy_errors.

(** A non-flat trace gives a non-zero energy. *)
Example C07_ex : energy_absorbed 1 [1; 0; 1] 0 1 0 1 (Some 2) (Some 1) None None None = Ok (1 / 2)
  /\ pyslice [3;3;3] 0 2 <> [].
Proof.
  split; [|discriminate].
  unfold energy_absorbed, powertrace_simple, power1, trapz. cbn. f_equal. field.
Qed.

(** ** C08 *)
Theorem C08_estimate_g : forall p0 tc tb pe cov n,
  p0 <> 0 -> 0 < tc -> 0 < tb -> Rpower tc n <> Rpower tb n ->
  exists ja jb jc,
    is_derive (fun p => n * p * Rpower tc (n - 1) / (Rpower tc n - Rpower tb n)) p0 ja /\
    is_derive (fun t => n * p0 * Rpower t (n - 1) / (Rpower t n - Rpower tb n)) tc jb /\
    is_derive (fun t => n * p0 * Rpower tc (n - 1) / (Rpower tc n - Rpower t n)) tb jc /\
    estimate_g p0 tc tb pe (Some cov) n
    = (n * p0 * Rpower tc (n - 1) / (Rpower tc n - Rpower tb n), propagated3 ja jb jc cov).
Proof. exact estimate_g_correct. Qed.
Print Assumptions C08_estimate_g.

Theorem C08_estimate_g_nocov : forall p0 tc tb pe n,
  p0 <> 0 ->
  let '(g, ge) := estimate_g p0 tc tb pe None n in
  g = n * p0 * Rpower tc (n - 1) / (Rpower tc n - Rpower tb n) /\
  ge = Rabs g * (Rabs pe / Rabs p0).
Proof. exact estimate_g_nocov. Qed.
Print Assumptions C08_estimate_g_nocov.

Example C08_ex : 4 <> 0 /\ 0 < 60 /\ 0 < 10 /\ Rpower 60 5 <> Rpower 10 5.
Proof. repeat split; try lra. apply Rpower_neq; lra. Qed.

(** ** C09 *)
Theorem C09_make_template : forall t tau_r tau_f offset,
  0 < tau_r < tau_f -> nth 0 t 0 = 0 ->
  (forall i, (0 < i < length t)%nat -> 0 < nth i t 0) ->
  let s := (Z.of_nat (length t / 2) + offset)%Z in
  (0 <= s <= Z.of_nat (length t) - 2)%Z ->
  exists out, make_template t tau_r tau_f offset = Ok out /\
    length out = length t /\
    (forall i, (i < length t)%nat -> 0 <= nth i out 0 <= 1) /\
    (exists i, (i < length t)%nat /\ nth i out 0 = 1) /\
    (forall i, (i < length t)%nat -> (Z.of_nat i <= s)%Z -> nth i out 0 = 0) /\
    (forall i, (i < length t)%nat -> (s < Z.of_nat i)%Z -> 0 < nth i out 0) /\
    (exists m, 0 < m /\ forall i, (i < length t)%nat -> (s <= Z.of_nat i)%Z ->
       let ti := nth (Z.to_nat (Z.of_nat i - s)) t 0 in
       nth i out 0 = (exp (- ti / tau_f) - exp (- ti / tau_r)) / m).
Proof. exact make_template_correct. Qed.
Print Assumptions C09_make_template.

Example C09_ex : 0 < 1 < 2 /\ nth 0 [0;1;2;3] 0 = 0 /\
  (forall i, (0 < i < length [0;1;2;3])%nat -> 0 < nth i [0;1;2;3] 0) /\
  (0 <= Z.of_nat (length [0;1;2;3] / 2) + (-1) <= Z.of_nat (length [0;1;2;3]) - 2)%Z.
Proof.
  repeat split; try lra; try (simpl; lia).
  intros [|[|[|[|i]]]] Hi; simpl in *; try lra; lia.
Qed.

(** ** C62: offset from a saturated muon *)
Theorem C62_muon_offset : forall baseline sat qetbias rn rload rsh ioffset r0 i0 p0,
  muon_offset baseline sat qetbias rn rload rsh = (ioffset, r0, i0, p0) ->
  rload + rn <> 0 -> i0 <> 0 ->
  i0 * (r0 + rload) = qetbias * rsh /\ p0 = i0 ^ 2 * r0 /\
  baseline - ioffset = i0 /\
  (sat - ioffset) * (rn + rload) = qetbias * rsh.
Proof. exact muon_offset_correct. Qed.
Print Assumptions C62_muon_offset.

(** The whole function: the baseline is the mean of the first [nbaseline] samples and the
    saturation level that of the 200 samples (fewer at the end of the trace) from the first
    maximum on. *)
Theorem C62_muon_offset_trace : forall avemuon qetbias rn rload rsh (nbaseline : nat) ioffset r0 i0 p0,
  (0 < nbaseline)%nat -> rload + rn <> 0 ->
  get_offset_from_muon avemuon qetbias rn rload rsh (Z.of_nat nbaseline) = Ok (ioffset, r0, i0, p0) ->
  i0 <> 0 ->
  exists peak,
    first_maximum avemuon peak /\
    let baseline := lmean (firstn nbaseline avemuon) in
    let sat := lmean (firstn 200 (skipn peak avemuon)) in
    i0 * (r0 + rload) = qetbias * rsh /\ p0 = i0 ^ 2 * r0 /\
    baseline - ioffset = i0 /\ (sat - ioffset) * (rn + rload) = qetbias * rsh.
Proof. exact muon_offset_full. Qed.
Print Assumptions C62_muon_offset_trace.

Theorem C62_muon_offset_succeeds : forall avemuon qetbias rn rload rsh (nbaseline : nat),
  (0 < nbaseline)%nat -> avemuon <> [] ->
  exists r, get_offset_from_muon avemuon qetbias rn rload rsh (Z.of_nat nbaseline) = Ok r.
Proof. exact muon_offset_succeeds. Qed.
Print Assumptions C62_muon_offset_succeeds.

Example C62_ex : muon_offset 1 0 12 2 1 1 = (1 - (12 / 3 - (0 - 1)), 12 / 3 * (2 + 1) / (12 / 3 - (0 - 1)) - 1,
   12 / 3 - (0 - 1), (12 / 3 - (0 - 1)) * 1 * 12 - 1 * (12 / 3 - (0 - 1)) ^ 2)
  /\ 1 + 2 <> 0 /\ 12 / 3 - (0 - 1) <> 0.
Proof. unfold muon_offset. replace (12 * 1) with 12 by ring. replace (1 + 2) with 3 by ring. repeat split; lra. Qed.
