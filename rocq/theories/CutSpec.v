(** * Specifications for qetpy/cut/_cut.py, independent of the model helpers *)
From Coq Require Import Permutation Sorted String.
From Verif Require Import Base CutModel.
Local Open Scope R_scope.
Notation length := List.length.

(** Entry [i] of a mask is set. *)
Definition kept (m : list bool) (i : nat) : Prop := nth_error m i = Some true.
Definition keptb (m : list bool) (i : nat) : bool := nth i m false.

(** Every entry kept by [m] is kept by [m']. *)
Definition submask (m m' : list bool) : Prop := forall i, kept m i -> kept m' i.

(** [med] is the median of the values [l]. *)
Definition is_median (l : list R) (med : R) : Prop :=
  exists s, Permutation l s /\ StronglySorted Rle s /\
    med = (nth ((length s - 1) / 2) s 0 + nth (length s / 2) s 0) / 2.

(** The finite values of [x] kept by [m], in order. *)
Definition kept_values (x : list xval) (m : list bool) : list R :=
  flat_map (fun i => match nth_error x i with
                     | Some (Fin r) => if keptb m i then [r] else []
                     | _ => []
                     end) (seq 0 (length x)).

(** [d] is the distance from [med] to the closer of the smallest and largest entry of [x]. *)
Definition edge_distance (x : list xval) (med d : R) : Prop :=
  exists lo, In (Fin lo) x /\ (forall r, In (Fin r) x -> lo <= r) /\
    ((In PInf x /\ d = Rabs (lo - med)) \/
     (~ In PInf x /\ exists hi, In (Fin hi) x /\ (forall r, In (Fin r) x -> r <= hi) /\
        d = Rmin (Rabs (lo - med)) (Rabs (hi - med)))).

(** One round of outlier removal. *)
Definition removal_round (x : list xval) (m m' : list bool) : Prop :=
  exists med d, is_median (kept_values x m) med /\ edge_distance x med d /\
    forall i, kept m' i <-> kept m i /\ exists r, nth_error x i = Some (Fin r) /\ Rabs (r - med) < d.

(** The kept values are more skewed than the target. *)
Definition skewed (skew : list R -> option R) (target : R) (x : list xval) (m : list bool) : Prop :=
  kept_values x m <> [] /\ exists s, skew (kept_values x m) = Some s /\ target < s.

(** [k] successive rounds, each of a still too skewed selection. *)
Inductive removal_rounds (skew : list R -> option R) (target : R) (x : list xval) : nat -> list bool -> list bool -> Prop :=
| rounds_0 m : removal_rounds skew target x 0 m m
| rounds_S k m m' m'' : skewed skew target x m -> removal_round x m m' ->
    removal_rounds skew target x k m' m'' -> removal_rounds skew target x (S k) m m''.

(** ** Statistics of a selection *)
Definition knum (n : nat) (m : list bool) : R := rsum n (fun i => if keptb m i then 1 else 0).
Definition ksum (n : nat) (m : list bool) (f : nat -> R) : R := rsum n (fun i => if keptb m i then f i else 0).

(** [mu] and [sd] are mean and (population) standard deviation of the kept entries. *)
Definition stats_of (data : list R) (m : list bool) (mu sd : R) : Prop :=
  let n := length data in
  let x := fun i => nth i data 0 in
  length m = n /\ 0 < knum n m /\
  knum n m * mu = ksum n m x /\ 0 <= sd /\
  knum n m * sd ^ 2 = ksum n m (fun i => (x i - mu) ^ 2).

(** The data handed to [itercov]: number of dimensions and events, coordinate [i] of event [e]. *)
Definition args_dim (a : cov_args) : nat :=
  match a with Vectors vs => length vs | Array2 m _ => m | Scalars => 0 end.
Definition args_events (a : cov_args) : nat :=
  match a with Vectors vs => length (hd [] vs) | Array2 _ rows => length rows | Scalars => 0 end.
Definition coord (a : cov_args) (i e : nat) : R :=
  match a with
  | Vectors vs => nth e (nth i vs []) 0
  | Array2 _ rows => nth i (nth e rows []) 0
  | Scalars => 0
  end.

(** Vectors of equal length, or an array; at least two dimensions. *)
Definition good_args (a : cov_args) : Prop :=
  (2 <= args_dim a)%nat /\
  match a with
  | Vectors vs => forall v w, In v vs -> In w vs -> length v = length w
  | Array2 m rows => forall r, In r rows -> length r = m
  | Scalars => False
  end.

(** Mean and (sample) covariance of the kept events of [d]-dimensional data [x]. *)
Definition cov_of (d nevts : nat) (x : nat -> nat -> R) (m : list bool) (mu : list R) (cov : list (list R)) : Prop :=
  length m = nevts /\ length mu = d /\ length cov = d /\
  1 < knum nevts m /\
  (forall i, (i < d)%nat -> knum nevts m * nth i mu 0 = ksum nevts m (x i)) /\
  (forall i, (i < d)%nat -> length (nth i cov []) = d) /\
  (forall i j, (i < d)%nat -> (j < d)%nat ->
     (knum nevts m - 1) * nth j (nth i cov []) 0 =
     ksum nevts m (fun e => (x i e - nth i mu 0) * (x j e - nth j mu 0))).

(** Squared distance of event [e] from [mu] in the metric [icov]. *)
Definition distance2 (d : nat) (x : nat -> nat -> R) (mu : list R) (icov : list (list R)) (e : nat) : R :=
  rsum d (fun i => rsum d (fun j =>
    (x i e - nth i mu 0) * nth j (nth i icov []) 0 * (x j e - nth j mu 0))).

(** ** Chained cuts *)
(** The elements of [l] whose flag in [m] is set. *)
Definition pick {A} (m : list bool) (l : list A) : list A :=
  map snd (filter fst (combine m l)).

(** Element [i] of the original list passes each of the successive masks, where each mask
    refers to the survivors of the masks before it. *)
Fixpoint survives (ms : list (list bool)) (i : nat) : Prop :=
  match ms with
  | [] => True
  | m :: ms => kept m i /\ survives ms (length (filter (fun b => b) (firstn i m)))
  end.

(** A stage that may be switched off (then everything passes). *)
Definition enabled {A} (on : bool) (f : list A -> res (list bool)) (l : list A) : res (list bool) :=
  if on then f l else Ok (map (fun _ => true) l).

(** Running the stages one after the other on the survivors gives the masks [ms]. *)
Inductive chain {A} : list (list A -> res (list bool)) -> list A -> list (list bool) -> Prop :=
| chain_nil l : chain [] l []
| chain_cons f fs l m ms : f l = Ok m -> length m = length l -> chain fs (pick m l) ms -> chain (f :: fs) l (m :: ms).

(** Running the stages fails with exception [e]. *)
Inductive chain_err {A} : list (list A -> res (list bool)) -> list A -> exn -> Prop :=
| chain_fail f fs l e : f l = Err e -> chain_err (f :: fs) l e
| chain_later f fs l m e : f l = Ok m -> chain_err fs (pick m l) e -> chain_err (f :: fs) l e.

(** At least one trace, all of [n] samples. *)
Definition traces_of (n : nat) (traces : list (list R)) : Prop :=
  traces <> [] /\ forall t, In t traces -> length t = n.

(** ** Symmetrised histogram *)
(** [v] lies in bin [k] of [bins] equal bins of [-upr, upr]; the lower edge belongs to the bin. *)
Definition in_hbin (upr : R) (bins k : nat) (v : R) : Prop :=
  - upr + INR k * (2 * upr / INR bins) <= v < - upr + INR (S k) * (2 * upr / INR bins).

(** Number of indices below [n] which satisfy [P]. *)
Definition count_is (n : nat) (P : nat -> Prop) (c : nat) : Prop :=
  exists l, NoDup l /\ (forall i, In i l <-> (i < n)%nat /\ P i) /\ length l = c.

(** [choose] draws [k] different members of a list without repetitions. *)
Definition draws (choose : list nat -> nat -> list nat) : Prop :=
  forall inds k, NoDup inds -> (k <= length inds)%nat -> NoDup (choose inds k) /\ incl (choose inds k) inds /\ length (choose inds k) = k.

(** ** The stage cuts *)
(** The two documented outlier algorithms. *)
Definition known_algo (algo : string) : Prop := algo = "removeoutliers"%string \/ algo = "iterstat"%string.

(** dIdV traces hold at least one period of the signal generator. *)
Definition didv_fits (n : nat) (fs sg : R) (is_didv : bool) : Prop := is_didv = false \/ fs / sg <= INR n.

(** The stages of [autocuts] in their documented order. *)
Definition auto_stages skew choose (a : auto_args) : list (list (list R) -> res (list bool)) :=
  [ enabled (lgcpileup1 a) (fun l => pileupcut skew l (a_fs a) (a_algo a) (nsigpileup1 a) false);
    enabled (lgcslope a) (fun l => slopecut skew choose l (a_fs a) (a_algo a) (nsigslope a) (a_didv a) (a_sym a) (a_sgfreq a));
    enabled (lgcbaseline a) (fun l => baselinecut skew l (a_fs a) (a_algo a) (nsigbaseline a) (a_didv a) (a_sgfreq a));
    enabled (lgcpileup2 a && a_didv a) (fun l => pileupcut skew l (a_fs a) (a_algo a) (nsigpileup2 a) true);
    enabled (lgcchi2 a) (fun l => chi2cut skew l (a_fs a) "iterstat" (nsigchi2 a)) ].

(** ** What the stage cuts look at *)
(** The mask [m] is the choice of the named outlier algorithm among the values [q]. *)
Definition outliers_of (skew : list R -> option R) (algo : string) (nsig : R) (q : list R) (m : list bool) : Prop :=
  (algo = "removeoutliers"%string /\ exists fuel, removeoutliers fuel skew (map Fin q) 20 (5 / 100) = Some m) \/
  (algo = "iterstat"%string /\ exists fuel r, iterstat fuel (fun _ _ _ p => p) q nsig 10000 false = Some (r, m)).

(** [k] is the integer part of the non-negative number [r]. *)
Definition whole (r : R) (k : nat) : Prop := INR k <= r < INR k + 1.

(** The bins [lo], ..., [hi - 1] that show the baseline: the first tenth of the trace; for a dIdV
    trace the bins of the first period after a quarter of it and before 3/8 (5/16 if the
    trace has less than two periods) of it. *)
Definition baseline_bins (n : nat) (fs sg : R) (is_didv : bool) (lo hi : nat) : Prop :=
  (is_didv = false -> lo = 0%nat /\ hi = (n / 10)%nat) /\
  (is_didv = true -> whole (fs / sg / 4) lo /\
     (2 * (fs / sg) <= INR n -> whole (fs / sg * (3 / 8)) hi) /\
     (INR n < 2 * (fs / sg) -> whole (fs / sg * (5 / 16)) hi)).

(** Mean of the bins [lo], ..., [hi - 1] of a trace. *)
Definition bin_mean (lo hi : nat) (t : list R) : R :=
  rsum (hi - lo) (fun k => nth (lo + k) t 0) / INR (hi - lo).

(** The pulse shape with a rise of 10 and a fall of 100 microseconds, starting at time 0. *)
Definition pulse_shape (t : R) : R :=
  if Rlt_dec t 0 then 0 else (1 - exp (- t / (1 / 100000))) * exp (- t / (1 / 10000)).

(** A template of [n] samples at rate [fs]: the pulse shape, starting at half of the trace
    (ties to even), with largest sample 1. *)
Definition unit_pulse (n : nat) (fs : R) (t : nat -> R) : Prop :=
  exists c trig, 0 < c /\
    (2 * trig = Z.of_nat n \/ (Z.abs (2 * trig - Z.of_nat n) = 1 /\ Z.even trig = true))%Z /\
    (forall j, (j < n)%nat -> t j = c * pulse_shape ((INR (j + 1) - IZR trig) / fs)) /\
    (forall j, (j < n)%nat -> t j <= 1) /\ (exists j, (j < n)%nat /\ t j = 1).

(** The squared deviations of [r] from its mean, divided by the rate. *)
Definition spread (n : nat) (fs : R) (r : nat -> R) : R :=
  rsum n (fun i => (r i - rsum n r / INR n) ^ 2) / fs.

(** Amplitude [a] and residual spread [c] of the best fit of the pulse [t] to the trace [x], over
    all amplitudes and (circular) delays. *)
Definition best_pulse (n : nat) (fs : R) (t x : nat -> R) (a c : R) : Prop :=
  exists d : Z, c = spread n fs (fun i => x i - a * t (Z.to_nat ((Z.of_nat i - d) mod Z.of_nat n))) /\
    forall a' d', c <= spread n fs (fun i => x i - a' * t (Z.to_nat ((Z.of_nat i - d') mod Z.of_nat n))).

(** The skewness does not depend on unit and offset, respectively on the order, of the values. *)
Definition unit_free (skew : list R -> option R) : Prop :=
  forall a b l, 0 < a -> skew (map (fun v => a * v + b) l) = skew l.
Definition order_free (skew : list R -> option R) : Prop :=
  forall l l', Permutation l l' -> skew l = skew l'.

(** Traces in another unit: a common gain, and an offset for each trace. *)
Definition rescaled (a : R) (traces traces' : list (list R)) : Prop :=
  Forall2 (fun t t' => exists b, t' = map (fun v => a * v + b) t) traces traces'.

(** On every reordering of [l] the function raises the same exception, or flags every element
    by a test that does not depend on its position. *)
Definition by_value {A} (f : list A -> res (list bool)) (l : list A) : Prop :=
  (exists keep, forall l', Permutation l l' -> f l' = Ok (map keep l')) \/
  (exists e, forall l', Permutation l l' -> f l' = Err e).

(** Round [k + 1] of an iteration with means [mu] and covariances [cov] changed no mean by more than
    [fe] times the spread of round 0, and no covariance by more than [fe] times the total variance of
    round 0. *)
Definition settled (d : nat) (fe : R) (mu : nat -> list R) (cov : nat -> list (list R)) (k : nat) : Prop :=
  (forall i, (i < d)%nat -> Rabs (nth i (mu (S k)) 0 - nth i (mu k) 0) <= fe * sqrt (nth i (nth i (cov 0%nat) []) 0)) /\
  (forall i j, (i < d)%nat -> (j < d)%nat ->
     Rabs (nth j (nth i (cov (S k)) []) 0 - nth j (nth i (cov k) []) 0)
     <= fe * rsum d (fun i => sqrt (nth i (nth i (cov 0%nat) []) 0) ^ 2)).

(** The iteration ends with round [k]: rounds [k - 1] and [k] have settled, or the number of rounds
    is exhausted. *)
Definition ends_at (d : nat) (fe : R) (maxiter : Z) (mu : nat -> list R) (cov : nat -> list (list R)) (k : nat) : Prop :=
  (exists j, k = S (S j) /\ settled d fe mu cov j /\ settled d fe mu cov (S j)) \/
  (exists j, k = S j /\ (maxiter < Z.of_nat j)%Z).

(** [m] selects the events close to the centre [mu] in the metric of [cov] and in every coordinate. *)
Definition selects_around (d n : nat) (x : nat -> nat -> R) (inv : list (list R) -> option (list (list R)))
    (limit threshold : R) (mu : list R) (cov : list (list R)) (m : list bool) : Prop :=
  length m = n /\ exists icov, inv cov = Some icov /\
    forall e, kept m e <-> (e < n)%nat /\ distance2 d x mu icov e < limit /\
      forall i, (i < d)%nat -> Rabs (x i e - nth i mu 0) < sqrt (nth i (nth i cov []) 0) * threshold.
