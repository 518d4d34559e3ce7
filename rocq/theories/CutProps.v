(** * Properties C10-C16, C74, C75, C115-C117: outlier removal and trace cuts *)
From Coq Require Import String Permutation.
From Verif Require Import Base ListLemmas UtilsModel CutModel CutSpec CutProofs1 CutProofs2 CutProofs3 CutProofs4 CutProofs5
  CutProofs6 CutProofs7 CutProofs8 CutProofs9.
Local Open Scope R_scope.

(** ** C10: removeoutliers *)

(** It stops after at most [max 1 (maxiter + 1)] rounds; each round keeps the entries that are
    closer to the median of the kept ones than the nearer of the extreme entries; it goes on
    exactly as long as the selection is too skewed and rounds are left. *)
Theorem C10_stops : forall skew x maxiter target fuel,
  (Z.to_nat maxiter + 1 <= fuel)%nat ->
  exists m, removeoutliers fuel skew x maxiter target = Some m /\ length m = length x /\
    (In Bad x -> forall i, kept m i <-> exists v, nth_error x i = Some v /\ v <> PInf) /\
    (~ In Bad x -> exists k m0,
       length m0 = length x /\ (forall i, kept m0 i <-> exists v, nth_error x i = Some v /\ v <> PInf) /\
       removal_rounds skew target x k m0 m /\
       (k <= Z.to_nat (Z.max 1 (maxiter + 1)))%nat /\
       (k = Z.to_nat (Z.max 1 (maxiter + 1)) \/ ~ skewed skew target x m)).
Proof.
  intros skew x maxiter target fuel Hf.
  destruct (removeoutliers_spec skew x maxiter target fuel Hf) as [k [m [E [L H]]]].
  exists m. split; [assumption|]. split; [assumption|].
  destruct (existsb is_bad x) eqn:Eb.
  - subst m. split.
    + intros _ i. apply noninf_kept.
    + intros Hn. exfalso. apply Hn. apply existsb_exists in Eb. destruct Eb as [v [Hv Hb]]. destruct v; try discriminate. exact Hv.
  - split.
    + intros Hb. exfalso. assert (existsb is_bad x = true); [|congruence]. apply existsb_exists. exists Bad. auto.
    + intros _. exists k, (noninf x). split; [apply map_length|]. split; [intros i; apply noninf_kept|]. exact H.
Qed.
Print Assumptions C10_stops.

Theorem C10_mask : forall skew x maxiter target fuel,
  (Z.to_nat maxiter + 1 <= fuel)%nat ->
  exists m, removeoutliers fuel skew x maxiter target = Some m /\ length m = length x /\
    forall i, nth_error x i = Some PInf -> ~ kept m i.
Proof. exact removeoutliers_basic. Qed.
Print Assumptions C10_mask.

(** Nothing is removed from data that are not too skewed. *)
Theorem C10_not_skewed : forall skew x maxiter target fuel,
  (Z.to_nat maxiter + 1 <= fuel)%nat ->
  ~ skewed skew target x (map (fun v => match v with PInf => false | _ => true end) x) ->
  exists m, removeoutliers fuel skew x maxiter target = Some m /\
    forall i, kept m i <-> exists v, nth_error x i = Some v /\ v <> PInf.
Proof.
  intros skew x maxiter target fuel Hf Hs. apply removeoutliers_not_skewed; [assumption|].
  replace (noninf x) with (map (fun v => match v with PInf => false | _ => true end) x); [assumption|].
  apply map_ext. intros []; reflexivity.
Qed.
Print Assumptions C10_not_skewed.

(** More rounds only remove more. *)
Theorem C10_more_rounds : forall skew x maxiter maxiter' target fuel fuel' m m', (maxiter <= maxiter')%Z ->
  removeoutliers fuel skew x maxiter target = Some m ->
  removeoutliers fuel' skew x maxiter' target = Some m' -> submask m' m.
Proof. exact removeoutliers_more. Qed.
Print Assumptions C10_more_rounds.

(** The kept values form an interval: what lies between two kept values is kept. *)
Theorem C10_interval : forall skew x maxiter target fuel m,
  removeoutliers fuel skew x maxiter target = Some m ->
  (Z.to_nat maxiter + 1 <= fuel)%nat ->
  forall i j l a b c, kept m i -> kept m l -> nth_error x i = Some (Fin a) -> nth_error x j = Some (Fin b) ->
    nth_error x l = Some (Fin c) -> a <= b <= c -> kept m j.
Proof. exact removeoutliers_convex. Qed.
Print Assumptions C10_interval.

(** Data that are not skewed, with an infinite entry; and data on which a round is made. *)
Example C10_ex :
  removeoutliers 22 (fun _ => Some 0) [Fin 1; PInf; Fin 3] 20 (5 / 100) = Some [true; false; true] /\
  exists m, removeoutliers 22 (skew_biased None) (map Fin [1; 1; 1; 5]) 20 (5 / 100) = Some m /\ ~ kept m 3.
Proof.
  split.
  - unfold removeoutliers. cbn [map existsb is_bad orb negb is_pinf ro_loop].
    replace (too_skew _ _ _ _) with false; [reflexivity|]. symmetry. unfold too_skew.
    cbn [selected mask_select finites flat_map app]. apply Rltb_false. lra.
  - destruct (rejects_all None) as [m [E H]]. exists m. auto.
Qed.

(** ** C74: some entry is kept *)

(** The data 1, 1, 1, 5 with the default arguments: every entry is rejected. *)
Theorem C74_keeps_something_refuted : forall flat,
  exists m, removeoutliers 22 (skew_biased flat) (map Fin [1; 1; 1; 5]) 20 (5 / 100) = Some m /\
  forall i, ~ kept m i.
Proof. exact rejects_all. Qed.
Print Assumptions C74_keeps_something_refuted.

(** ** C11: iterstat *)

(** With a positive precision the loop stops on every data set. *)
Theorem C11_terminates : forall fsolve data cut precision unb fuel, 0 < precision ->
  (2 ^ length data + 5 <= fuel)%nat ->
  exists r, iterstat fuel fsolve data cut precision unb = Some r.
Proof. exact iterstat_terminates. Qed.
Print Assumptions C11_terminates.

(** The result does not depend on the number of rounds granted. *)
Theorem C11_fuel_irrelevant : forall fuel fuel' fsolve data cut precision unb r r',
  iterstat fuel fsolve data cut precision unb = Some r ->
  iterstat fuel' fsolve data cut precision unb = Some r' -> r = r'.
Proof. exact iterstat_fuel_irrelevant. Qed.
Print Assumptions C11_fuel_irrelevant.

(** The returned mean and standard deviation are those of the kept data. *)
Theorem C11_statistics : forall fuel fsolve data cut precision m s mask,
  iterstat fuel fsolve data cut precision false = Some (Some (m, s), mask) -> stats_of data mask m s.
Proof. exact iterstat_stats. Qed.
Print Assumptions C11_statistics.

(** The kept data are all data, or the data within [cut] standard deviations of the mean of an
    earlier selection that differs from the returned one by at most the requested precision. *)
Theorem C11_selection : forall fuel fsolve data cut precision m s mask,
  iterstat fuel fsolve data cut precision false = Some (Some (m, s), mask) ->
  (forall i, kept mask i <-> (i < length data)%nat) \/
  exists pmask pm ps, stats_of data pmask pm ps /\
    (forall i, kept mask i <-> (i < length data)%nat /\ Rabs (nth i data 0 - pm) < cut * ps) /\
    exists sd, stats_of data (map (fun _ => true) data) (lmean data) sd /\
      Rabs (m - pm) <= sd / precision /\ Rabs (s - ps) <= sd / precision.
Proof. exact iterstat_selection. Qed.
Print Assumptions C11_selection.

(** The unbiased estimators do not change the selection. *)
Theorem C11_same_mask : forall fuel fsolve fsolve' data cut precision r r' mask mask' unb unb',
  iterstat fuel fsolve data cut precision unb = Some (r, mask) ->
  iterstat fuel fsolve' data cut precision unb' = Some (r', mask') -> mask = mask'.
Proof. exact iterstat_mask_flag. Qed.
Print Assumptions C11_same_mask.

(** With [return_unbiased_estimates] the solver is started on the kept data within the cut bounds. *)
Theorem C11_unbiased : forall fuel fsolve data cut precision m s mask,
  iterstat fuel fsolve data cut precision true = Some (Some (m, s), mask) ->
  stats_of data mask m s \/
  exists bm bs, iterstat fuel fsolve data cut precision false = Some (Some (bm, bs), mask) /\
    exists xs, (m, s) = fsolve xs (bm - cut * bs) (bm + cut * bs) (lmean xs, lstd xs) /\
      forall v, In v xs <-> (exists i, kept mask i /\ nth_error data i = Some v) /\ bm - cut * bs <= v <= bm + cut * bs.
Proof. exact iterstat_unbiased. Qed.
Print Assumptions C11_unbiased.

Theorem C11_constant : forall fuel fsolve c n cut precision unb, (1 <= fuel)%nat ->
  iterstat fuel fsolve (repeat c (S n)) cut precision unb = Some (Some (c, 0), repeat true (S n)).
Proof. exact iterstat_constant. Qed.
Print Assumptions C11_constant.

(** With a negative precision the loop need not stop. *)
Theorem C11_negative_precision_refuted : forall fsolve fuel unb,
  iterstat fuel fsolve [0; 1] 3 (-1) unb = None.
Proof. exact negative_precision. Qed.
Print Assumptions C11_negative_precision_refuted.

(** A run that returns: 2, 2, 2 with a positive precision. *)
Example C11_ex : 0 < 1000 /\ (2 ^ length [2; 2; 2] + 5 <= 13)%nat /\
  iterstat 13 (fun _ _ _ p => p) [2; 2; 2] 3 1000 false = Some (Some (2, 0), [true; true; true]) /\
  stats_of [2; 2; 2] [true; true; true] 2 0.
Proof.
  split; [lra|]. split; [simpl; lia|].
  assert (E := C11_constant 13 (fun _ _ _ p => p) 2 2 3 1000 false ltac:(lia)). cbn [repeat] in E.
  split; [exact E|]. exact (C11_statistics _ _ _ _ _ _ _ _ E).
Qed.

(** ** C12: itercov *)

(** Malformed arguments are rejected: no vector, one vector, vectors of different lengths,
    scalars, an array with a single column. *)
Theorem C12_rejects : forall fuel inv sigma2 a nsigma th maxiter fe,
  (1 <= args_dim a)%nat \/ match a with Array2 _ _ => False | _ => True end ->
  (match a with Array2 m rows => forall r, In r rows -> length r = m | _ => True end) ->
  ~ good_args a -> itercov fuel inv sigma2 a nsigma th maxiter fe = Err ValueError.
Proof. exact itercov_rejects. Qed.
Print Assumptions C12_rejects.

Example C12_rejects_ex :
  let a := Vectors [[1; 2]; [1]] in
  ~ good_args a /\ itercov 9 (fun c => Some c) (fun _ => 2) a 2 None 5 (1 / 1000) = Err ValueError.
Proof.
  cbv zeta. split; [|reflexivity].
  intros [_ H]. specialize (H [1; 2] [1] ltac:(left; reflexivity) ltac:(right; left; reflexivity)). discriminate.
Qed.

(** It stops after at most [maxiter + 2] rounds: it returns, or the covariance of a selection
    has no inverse. *)
Theorem C12_stops : forall fuel inv sigma2 a nsigma th maxiter fe, good_args a ->
  (Z.to_nat (maxiter + 1) + 1 <= fuel)%nat ->
  (exists r, itercov fuel inv sigma2 a nsigma th maxiter fe = Ok (Some r)) \/
  (itercov fuel inv sigma2 a nsigma th maxiter fe = Err LinAlgError /\ exists c, inv c = None).
Proof. exact itercov_stops. Qed.
Print Assumptions C12_stops.

(** Mean and covariance are those of the kept events, and the kept events are all events or the
    ones that lie inside the chi2 limit and the per-coordinate limit around an earlier selection. *)
Theorem C12_result : forall fuel inv sigma2 a nsigma th maxiter fe m c mask, good_args a ->
  itercov fuel inv sigma2 a nsigma th maxiter fe = Ok (Some (m, Some c, mask)) ->
  cov_of (args_dim a) (args_events a) (coord a) mask m c /\
  ((forall e, (e < args_events a)%nat -> kept mask e) \/
   exists pmask pmu pcov icov, cov_of (args_dim a) (args_events a) (coord a) pmask pmu pcov /\ inv pcov = Some icov /\
    forall e, kept mask e <-> (e < args_events a)%nat /\
      distance2 (args_dim a) (coord a) pmu icov e < INR (args_dim a) + nsigma * sqrt (2 * INR (args_dim a)) /\
      forall i, (i < args_dim a)%nat ->
        Rabs (coord a i e - nth i pmu 0) < sqrt (nth i (nth i pcov []) 0) *
          match th with Some t => t | None => Rmax 3 (sigma2 (args_dim a)) end).
Proof. exact itercov_result. Qed.
Print Assumptions C12_result.

(** The whole history: round 0 is the statistics of all events; every later round those of the events
    close to the centre of the round before. The iteration ends with the first round in which means
    and covariances have not moved for two rounds, or when [maxiter] is exceeded, and returns that
    round; it returns round 0 if a round would be left with at most one event. *)
Theorem C12_history : forall fuel inv sigma2 a nsigma th maxiter fe m c mask, good_args a ->
  itercov fuel inv sigma2 a nsigma th maxiter fe = Ok (Some (m, Some c, mask)) ->
  let limit := INR (args_dim a) + nsigma * sqrt (2 * INR (args_dim a)) in
  let threshold := match th with Some t => t | None => Rmax 3 (sigma2 (args_dim a)) end in
  let around := selects_around (args_dim a) (args_events a) (coord a) inv limit threshold in
  exists K mu cov sel,
    (forall e, (e < args_events a)%nat -> kept (sel 0%nat) e) /\
    (forall k, (k <= K)%nat -> cov_of (args_dim a) (args_events a) (coord a) (sel k) (mu k) (cov k)) /\
    (forall k, (k < K)%nat -> around (mu k) (cov k) (sel (S k))) /\
    (forall k, (k < K)%nat -> ~ ends_at (args_dim a) fe maxiter mu cov k) /\
    ((ends_at (args_dim a) fe maxiter mu cov K /\ m = mu K /\ c = cov K /\ mask = sel K) \/
     (~ ends_at (args_dim a) fe maxiter mu cov K /\
      (exists few, around (mu K) (cov K) few /\ forall e e', kept few e -> kept few e' -> e = e') /\
      m = mu 0%nat /\ c = cov 0%nat /\ mask = sel 0%nat)).
Proof. exact itercov_history. Qed.
Print Assumptions C12_history.

(** With at most one event there is no covariance; the event is kept. *)
Theorem C12_few_events : forall fuel inv sigma2 a nsigma th maxiter fe, good_args a -> (args_events a <= 1)%nat ->
  exists m mask, itercov fuel inv sigma2 a nsigma th maxiter fe = Ok (Some (m, None, mask)) /\
    length mask = args_events a /\ (forall e, (e < args_events a)%nat -> kept mask e) /\
    (args_events a = 1%nat -> forall i, (i < args_dim a)%nat -> nth i m 0 = coord a i 0).
Proof. exact itercov_few. Qed.
Print Assumptions C12_few_events.

(** Two dimensions, two events, a metric in which every distance is 0 and a threshold 0:
    nothing passes, so all events are returned with their mean and covariance. *)
Example C12_ex :
  let a := Array2 2 [[0; 0]; [2; 4]] in
  good_args a /\
  exists c, itercov 9 (fun _ => Some [[0; 0]; [0; 0]]) (fun _ => 2) a 2 (Some 0) 5 (1 / 1000)
    = Ok (Some ([1; 2], Some c, [true; true])) /\ nth 0 (nth 1 c []) 0 = 4.
Proof.
  cbv zeta. split.
  - split; [simpl; lia|]. intros r [<-|[<-|[]]]; reflexivity.
  - unfold itercov, cov_data. cbn -[itercov_loop means covm INR Rabs]. cbn [itercov_loop].
    match goal with |- context [count_true ?m] => assert (Hm : count_true m = 0%nat) end.
    { unfold cov_mask, count_true, mk. cbn [seq map filter].
      cbn [List.length forallb seq].
      rewrite !(Rmult_0_r (nth _ _ _)). rewrite !(Rltb_false (Rabs _) 0) by apply Rabs_pos.
      cbn [andb]. rewrite !Bool.andb_false_r. reflexivity. }
    rewrite Hm. cbn [Nat.leb bind]. eexists. split.
    + f_equal. f_equal. f_equal. f_equal. unfold means, lmean, lsum. simpl. f_equal; [field|f_equal; field].
    + unfold covm, cov_entry, lmean, lsum. simpl. field.
Qed.

(** ** C13: autocuts *)

(** A returned mask has one entry per trace, and an entry is set exactly if the trace survives
    the stages one after the other, each computed from the survivors of the ones before it. If
    it raises, then because a stage raised on the survivors of the stages before it. *)
Theorem C13_survivors : forall skew choose traces a,
  match autocuts skew choose traces a with
  | Ok m => exists ms, chain (auto_stages skew choose a) traces ms /\ length m = length traces /\
      forall i, kept m i <-> survives ms i
  | Err e => chain_err (auto_stages skew choose a) traces e
  end.
Proof. exact autocuts_spec. Qed.
Print Assumptions C13_survivors.

(** With all stages switched off every trace survives. *)
Example C13_survivors_ex :
  autocuts (fun _ => None) (fun _ _ => []) [[1; 2]; [3; 4]; [5; 6]]
    (mkAuto 1 false 1 false "removeoutliers" false false false false false 2 2 2 2 3) = Ok [true; true; true].
Proof. reflexivity. Qed.

(** Four flat traces of ten samples at 1, 1, 1 and 5, cut on their baseline and on chi2:
    the baseline stage rejects all of them and autocuts raises instead of returning a mask. *)
Theorem C13_mask_refuted : forall flat choose,
  autocuts (skew_biased flat) choose (map (fun v => repeat v 10) [1; 1; 1; 5])
    (mkAuto 1 false 1 false "removeoutliers" false false true false true 2 2 2 2 3) = Err IndexError.
Proof. exact autocuts_empty. Qed.
Print Assumptions C13_mask_refuted.

(** ** C14: slopecut *)

(** Whatever the traces, every trace is marked as kept. *)
Theorem C14_slopecut_refuted : forall skew choose n traces fs algo nsig d sym sg, known_algo algo ->
  traces_of n traces -> 0 < fs -> 0 < sg -> didv_fits n fs sg d ->
  slopecut skew choose traces fs algo nsig d sym sg = Ok (map (fun _ => true) traces).
Proof. exact slopecut_keeps_all. Qed.
Print Assumptions C14_slopecut_refuted.

(** Nine flat traces and one which rises from 0 to 1000. *)
Example C14_slopecut_ex :
  let traces := repeat (repeat 0 10) 9 ++ [repeat 0 9 ++ [1000]] in
  (known_algo "iterstat" /\ traces_of 10 traces /\ didv_fits 10 1 1 false) /\
  slopecut (fun _ => None) (fun _ _ => []) traces 1 "iterstat" 2 false false 1 = Ok (repeat true 10).
Proof.
  cbv zeta.
  assert (H : traces_of 10 (repeat (repeat 0 10) 9 ++ [repeat 0 9 ++ [1000]])).
  { split; [discriminate|]. intros t Ht. simpl in Ht. repeat (destruct Ht as [<-|Ht]; [reflexivity|]). destruct Ht. }
  split; [split; [now right|]; split; [exact H|now left]|].
  rewrite (C14_slopecut_refuted (fun _ => None) (fun _ _ => []) 10 _ 1 "iterstat" 2 false false 1
           (or_intror eq_refl) H ltac:(lra) ltac:(lra) (or_introl eq_refl)). reflexivity.
Qed.

(** ** C15: the outlier algorithm argument *)

(** The two documented names work, for traces of at least one sample. *)
Theorem C15_known_algorithms : forall skew choose n traces fs algo nsig d sym rm sg, known_algo algo ->
  traces_of n traces -> (0 < n)%nat -> 0 < fs -> 0 < sg -> didv_fits n fs sg d ->
  (exists m, pileupcut skew traces fs algo nsig rm = Ok m /\ length m = length traces) /\
  (exists m, slopecut skew choose traces fs algo nsig d sym sg = Ok m /\ length m = length traces) /\
  (exists m, baselinecut skew traces fs algo nsig d sg = Ok m /\ length m = length traces) /\
  (exists m, chi2cut skew traces fs algo nsig = Ok m /\ length m = length traces).
Proof. exact stage_runs. Qed.
Print Assumptions C15_known_algorithms.

(** Every other name raises NameError, not ValueError. *)
Theorem C15_unknown_algorithm_refuted : forall skew choose n traces fs algo nsig d sym rm sg, ~ known_algo algo ->
  traces_of n traces -> (0 < n)%nat -> 0 < fs -> 0 < sg -> didv_fits n fs sg d ->
  pileupcut skew traces fs algo nsig rm = Err NameError /\
  slopecut skew choose traces fs algo nsig d sym sg = Err NameError /\
  baselinecut skew traces fs algo nsig d sg = Err NameError /\
  chi2cut skew traces fs algo nsig = Err NameError.
Proof. exact stage_unknown. Qed.
Print Assumptions C15_unknown_algorithm_refuted.

(** Arguments on which the cuts do not get that far: no traces, a zero rate, traces without samples. *)
Theorem C15_rejects : forall skew choose traces fs algo nsig d sym rm sg,
  (traces = [] ->
   pileupcut skew traces fs algo nsig rm = Err IndexError /\ slopecut skew choose traces fs algo nsig d sym sg = Err IndexError /\
   baselinecut skew traces fs algo nsig d sg = Err IndexError /\ chi2cut skew traces fs algo nsig = Err IndexError) /\
  (traces <> [] -> fs = 0 ->
   pileupcut skew traces fs algo nsig rm = Err ZeroDivisionError /\ slopecut skew choose traces fs algo nsig d sym sg = Err ZeroDivisionError /\
   baselinecut skew traces fs algo nsig d sg = Err ZeroDivisionError /\ chi2cut skew traces fs algo nsig = Err ZeroDivisionError) /\
  (traces <> [] -> sg = 0 ->
   slopecut skew choose traces fs algo nsig d sym sg = Err ZeroDivisionError /\
   baselinecut skew traces fs algo nsig d sg = Err ZeroDivisionError) /\
  (traces_of 0 traces -> fs <> 0 ->
   pileupcut skew traces fs algo nsig rm = Err ValueError /\ chi2cut skew traces fs algo nsig = Err ValueError).
Proof. exact stage_rejects. Qed.
Print Assumptions C15_rejects.

Example C15_ex :
  ~ known_algo "median" /\ traces_of 2 [[1; 2]; [2; 1]] /\ didv_fits 2 1 1 true /\
  baselinecut (fun _ => None) [[1; 2]; [2; 1]] 1 "median" 2 false 1 = Err NameError.
Proof.
  split; [intros [H|H]; discriminate|]. 
  assert (Ht : traces_of 2 [[1; 2]; [2; 1]]) by (split; [discriminate|]; intros t [<-|[<-|[]]]; reflexivity).
  split; [exact Ht|]. split; [right; simpl; lra|].
  exact (proj1 (proj2 (proj2 (C15_unknown_algorithm_refuted (fun _ => None) (fun _ _ => []) 2 _ 1 "median" 2 false false false 1
    ltac:(intros [H|H]; discriminate) Ht ltac:(lia) ltac:(lra) ltac:(lra) (or_introl eq_refl))))).
Qed.

(** ** C16: get_muon_cut *)
Theorem C16_muon_cut_refuted : forall traces th ns, traces <> [] -> (forall t, In t traces -> t <> []) ->
  get_muon_cut traces th ns = Err NameError.
Proof. exact get_muon_cut_nameerror. Qed.
Print Assumptions C16_muon_cut_refuted.

Example C16_ex : get_muon_cut [[0; 1; 1]] (95 / 100) 1 = Err NameError /\ get_muon_cut [] (95 / 100) 1 = Ok [].
Proof. split; reflexivity. Qed.

(** ** C75: symmetrizedist *)

(** With [upr] the largest value and an odd number of equal bins on [-upr, upr]: values above the
    lower edge of the central bin are kept, of the values in a bin below the centre as many as
    the smaller of the numbers in this bin and in the mirrored bin, and no others. *)
Theorem C75_trimmed_bins_partial : forall choose vals m, draws choose -> symmetrizedist choose vals = Ok m ->
  let upr := listmax vals in
  let bins := hist_bins (length vals) in
  let mid := - upr + INR (bins / 2) * (2 * upr / INR bins) in
  length m = length vals /\
  (upr <= 0 \/ bins = 1%nat -> forall i, (i < length vals)%nat -> kept m i) /\
  (0 < upr -> (1 < bins)%nat ->
    (forall i, mid < nth i vals 0 -> (i < length vals)%nat -> kept m i) /\
    (forall i, kept m i -> mid < nth i vals 0 \/ exists k, (k < bins / 2)%nat /\ in_hbin upr bins k (nth i vals 0)) /\
    (forall k c o, (k < bins / 2)%nat ->
       count_is (length vals) (fun i => in_hbin upr bins k (nth i vals 0)) c ->
       count_is (length vals) (fun i => in_hbin upr bins (bins - 1 - k) (nth i vals 0) \/
          (k = 0%nat /\ nth i vals 0 = upr)) o ->
       count_is (length vals) (fun i => in_hbin upr bins k (nth i vals 0) /\ kept m i) (Nat.min c o))).
Proof. exact symmetrize_run. Qed.
Print Assumptions C75_trimmed_bins_partial.

(** Nine values of 1 (three bins) are all kept, although nothing lies in the mirrored bin. *)
Theorem C75_symmetric_refuted : forall choose, draws choose ->
  symmetrizedist choose (repeat 1 9) = Ok (repeat true 9) /\
  hist_bins 9 = 3%nat /\ listmax (repeat 1 9) = 1 /\
  forall i, (i < 9)%nat -> ~ in_hbin 1 3 0 (nth i (repeat 1 9) 0).
Proof.
  intros choose Hd. assert (Hmax : listmax (repeat 1 9) = 1) by apply listmax_repeat.
  assert (Hb : hist_bins 9 = 3%nat) by reflexivity.
  assert (Hn : forall i, (i < 9)%nat -> nth i (repeat 1 9) 0 = 1).
  { intros i Hi. rewrite nth_indep with (d' := 1) by now rewrite repeat_length. apply nth_repeat. }
  destruct (symmetrize_returns choose (repeat 1 9) ltac:(discriminate)) as [m E].
  destruct (symmetrize_run choose (repeat 1 9) m Hd E) as [L [_ H]].
  rewrite repeat_length, Hmax, Hb in H. specialize (H ltac:(lra) ltac:(lia)). destruct H as [H _].
  split; [|split; [exact Hb|split; [exact Hmax|]]].
  - rewrite E. f_equal. apply nth_error_ext. intros i. destruct (Nat.lt_ge_cases i 9) as [Hi|Hi].
    + rewrite (H i); [|rewrite Hn by assumption; simpl; lra|assumption].
      symmetry. rewrite (nth_error_nth' _ true) by now rewrite repeat_length. f_equal. apply nth_repeat.
    + rewrite (proj2 (nth_error_None m i)) by (rewrite L, repeat_length; lia).
      symmetry. apply nth_error_None. rewrite repeat_length. lia.
  - intros i Hi. rewrite Hn by assumption. unfold in_hbin. simpl. lra.
Qed.
Print Assumptions C75_symmetric_refuted.

(** Drawing the first members. *)
Example C75_ex : draws (fun l k => firstn k l) /\
  symmetrizedist (fun l k => firstn k l) (repeat 1 9) = Ok (repeat true 9).
Proof. split; [exact firstn_draws|]. exact (proj1 (C75_symmetric_refuted _ firstn_draws)). Qed.

(** ** C115: what the stage cuts look at *)

(** [baselinecut] looks at the mean over the baseline bins; without any such bin it keeps all. *)
Theorem C115_baseline : forall skew n traces fs algo nsig d sg lo hi, known_algo algo ->
  traces_of n traces -> 0 < fs -> 0 < sg -> didv_fits n fs sg d -> baseline_bins n fs sg d lo hi ->
  exists m, baselinecut skew traces fs algo nsig d sg = Ok m /\
    ((lo < hi)%nat -> outliers_of skew algo nsig (map (bin_mean lo hi) traces) m) /\
    ((hi <= lo)%nat -> m = map (fun _ => true) traces).
Proof. exact baselinecut_looks. Qed.
Print Assumptions C115_baseline.

(** [pileupcut] looks at the absolute amplitude of the best fitting pulse, with or without the
    means removed. *)
Theorem C115_pileup : forall skew n traces fs algo nsig rm, known_algo algo -> traces_of n traces -> (2 <= n)%nat -> 0 < fs ->
  exists m t amps, pileupcut skew traces fs algo nsig rm = Ok m /\ unit_pulse n fs t /\
    Forall2 (fun x a => exists c, best_pulse n fs t (fun j => nth j x 0) a c) traces amps /\
    outliers_of skew algo nsig (map Rabs amps) m.
Proof. exact pileupcut_looks. Qed.
Print Assumptions C115_pileup.

(** [chi2cut] looks at what the best fitting pulse leaves. *)
Theorem C115_chi2 : forall skew n traces fs algo nsig, known_algo algo -> traces_of n traces -> (2 <= n)%nat -> 0 < fs ->
  exists m t chis, chi2cut skew traces fs algo nsig = Ok m /\ unit_pulse n fs t /\
    Forall2 (fun x c => exists a, best_pulse n fs t (fun j => nth j x 0) a c) traces chis /\
    outliers_of skew algo nsig chis m.
Proof. exact chi2cut_looks. Qed.
Print Assumptions C115_chi2.

(** Baseline bins exist for every trace length; 9 samples have none, a dIdV trace of two periods
    of 16 samples has the bins 4 and 5. *)
Theorem C115_bins : forall n fs sg d, 0 < fs -> 0 < sg -> exists lo hi, baseline_bins n fs sg d lo hi.
Proof. exact baseline_bins_ex. Qed.
Print Assumptions C115_bins.

Example C115_ex : baseline_bins 9 1 1 false 0 0 /\ baseline_bins 10 1 1 false 0 1 /\ baseline_bins 32 16 1 true 4 6 /\
  baseline_bins 20 16 1 true 4 5 /\ didv_fits 20 16 1 true /\
  traces_of 10 [1 :: repeat 0 9; 1 :: repeat 0 9; 1 :: repeat 0 9; 5 :: repeat 0 9] /\
  (forall flat, exists m, baselinecut (skew_biased flat) [1 :: repeat 0 9; 1 :: repeat 0 9; 1 :: repeat 0 9; 5 :: repeat 0 9] 1
     "removeoutliers" 2 false 1 = Ok m /\ forall i, ~ kept m i) /\
  exists t, unit_pulse 2 1 t.
Proof.
  assert (W : forall k r, r = INR k -> whole r k) by (intros k r ->; unfold whole; lra).
  assert (Ht : traces_of 10 [1 :: repeat 0 9; 1 :: repeat 0 9; 1 :: repeat 0 9; 5 :: repeat 0 9]).
  { split; [discriminate|]. intros t [<-|[<-|[<-|[<-|[]]]]]; reflexivity. }
  assert (Hb : baseline_bins 10 1 1 false 0 1) by (split; [intros _; split; reflexivity|discriminate]).
  split; [split; [intros _; split; reflexivity|discriminate]|]. split; [exact Hb|].
  split; [split; [discriminate|]; intros _; split; [apply W; simpl; lra|]; split; intros H; [apply W|]; simpl in *; lra|].
  split; [split; [discriminate|]; intros _; split; [apply W; simpl; lra|]; split; intros H; [|apply W]; simpl in *; lra|].
  split; [right; simpl; lra|]. split; [exact Ht|]. split.
  - intros flat.
    destruct (C115_baseline (skew_biased flat) 10 _ 1 "removeoutliers" 2 false 1 0 1 (or_introl eq_refl) Ht ltac:(lra) ltac:(lra) (or_introl eq_refl) Hb)
      as (m & E & H & _).
    exists m. split; [exact E|]. destruct (H ltac:(lia)) as [[_ [fuel Hm]]|[G _]]; [|discriminate].
    assert (Eb : map (bin_mean 0 1) [1 :: repeat 0 9; 1 :: repeat 0 9; 1 :: repeat 0 9; 5 :: repeat 0 9] = [1; 1; 1; 5]).
    { unfold bin_mean. cbn [map Nat.sub rsum nth Nat.add INR]. repeat f_equal; lra. }
    rewrite Eb in Hm. destruct (C74_keeps_something_refuted flat) as (m' & Hm' & K).
    assert (m = m'); [|now subst]. apply (removeoutliers_fuel_unique _ _ _ _ _ _ _ _ Hm Hm').
  - exists (CutModel.dummy_template 2 1). apply template_pulse; [lia|lra].
Qed.

(** ** C116: units, offsets and polarity *)

(** Gain and offset of the data do not change the selection of [removeoutliers] (the bias-free
    skewness of scipy is such a measure), and [iterstat] returns the mean and deviation in the new
    unit, for any gain. *)
Theorem C116_removeoutliers : forall fuel skew x maxiter target a b, unit_free skew -> 0 < a ->
  removeoutliers fuel skew (map Fin (map (fun v => a * v + b) x)) maxiter target =
  removeoutliers fuel skew (map Fin x) maxiter target.
Proof.
  intros fuel skew x maxiter target a b Hs Ha. rewrite <- (removeoutliers_unit a b Ha skew Hs fuel (map Fin x)). f_equal. rewrite !map_map. reflexivity.
Qed.
Print Assumptions C116_removeoutliers.

Theorem C116_skewness : forall flat, unit_free (skew_biased flat) /\ order_free (skew_biased flat).
Proof. intros flat. split; [apply skew_biased_unit|apply skew_biased_order]. Qed.
Print Assumptions C116_skewness.

Theorem C116_iterstat : forall fuel fsolve data cut precision a b m s mask, a <> 0 ->
  iterstat fuel fsolve data cut precision false = Some (Some (m, s), mask) ->
  iterstat fuel fsolve (map (fun v => a * v + b) data) cut precision false = Some (Some (a * m + b, Rabs a * s), mask).
Proof.
  intros fuel fsolve data cut precision a b m s mask Ha E. assert (U := iterstat_unit a b fuel fsolve data cut precision Ha).
  rewrite E in U. exact U.
Qed.
Print Assumptions C116_iterstat.

(** The pileup and chi2 cuts select the same traces after any common nonzero gain and any offsets
    of the single traces; [removemeans] makes no difference. *)
Theorem C116_pileup : forall skew n traces traces' fs algo nsig rm rm' a, unit_free skew -> traces_of n traces -> (2 <= n)%nat -> 0 < fs ->
  a <> 0 -> rescaled a traces traces' ->
  pileupcut skew traces' fs algo nsig rm' = pileupcut skew traces fs algo nsig rm.
Proof. exact pileupcut_unit. Qed.
Print Assumptions C116_pileup.

Theorem C116_chi2 : forall skew n traces traces' fs algo nsig a, unit_free skew -> traces_of n traces -> (2 <= n)%nat -> 0 < fs ->
  a <> 0 -> rescaled a traces traces' ->
  chi2cut skew traces' fs algo nsig = chi2cut skew traces fs algo nsig.
Proof. exact chi2cut_unit. Qed.
Print Assumptions C116_chi2.

Theorem C116_baseline : forall skew n traces fs algo nsig d sg a b, unit_free skew -> traces_of n traces ->
  0 < fs -> 0 < sg -> didv_fits n fs sg d -> 0 < a ->
  baselinecut skew (map (map (fun v => a * v + b)) traces) fs algo nsig d sg = baselinecut skew traces fs algo nsig d sg.
Proof. exact baselinecut_unit. Qed.
Print Assumptions C116_baseline.

Theorem C116_autocuts : forall skew choose n traces a g b, unit_free skew -> traces_of n traces -> (2 <= n)%nat ->
  0 < a_fs a -> 0 < a_sgfreq a -> didv_fits n (a_fs a) (a_sgfreq a) (a_didv a) -> 0 < g ->
  autocuts skew choose (map (map (fun v => g * v + b)) traces) a = autocuts skew choose traces a.
Proof. exact autocuts_unit. Qed.
Print Assumptions C116_autocuts.

(** Polarity matters for [removeoutliers]: of [1; 1; 1; 5] nothing is kept, of the negated values
    everything. *)
Theorem C116_polarity_refuted : forall flat, exists x m, removeoutliers 22 (skew_biased flat) (map Fin x) 20 (5 / 100) = Some m /\
  removeoutliers 22 (skew_biased flat) (map Fin (map Ropp x)) 20 (5 / 100) = Some (map negb m) /\ x <> [].
Proof. exact polarity_matters. Qed.
Print Assumptions C116_polarity_refuted.

(** [removemeans] leaves every trace of the caller's array with its mean subtracted. *)
Theorem C116_argument_refuted : 
  (forall traces, Forall2 (fun t t' => exists mu, t' = map (fun v => v - mu) t /\ lsum t' = 0 /\ length t' = length t)
     traces (pileupcut_arg traces true)) /\
  (forall traces, pileupcut_arg traces false = traces) /\
  exists traces, pileupcut_arg traces true <> traces.
Proof.
  split; [exact pileupcut_arg_means|]. split; [reflexivity|]. exists [[1]]. unfold pileupcut_arg, lmean. cbn [map lsum fold_right length INR].
  intros E. injection E as E. lra.
Qed.
Print Assumptions C116_argument_refuted.

Example C116_ex : unit_free (skew_biased None) /\ traces_of 2 [[0; 1]; [2; 2]] /\ rescaled (-2) [[0; 1]; [2; 2]] [[5; 3]; [-4; -4]] /\
  (forall skew fs algo nsig, unit_free skew -> 0 < fs ->
     pileupcut skew [[5; 3]; [-4; -4]] fs algo nsig true = pileupcut skew [[0; 1]; [2; 2]] fs algo nsig false).
Proof.
  assert (Ht : traces_of 2 [[0; 1]; [2; 2]]) by (split; [discriminate|]; intros t [<-|[<-|[]]]; reflexivity).
  assert (Hr : rescaled (-2) [[0; 1]; [2; 2]] [[5; 3]; [-4; -4]]).
  { constructor; [exists 5; cbn [map]; repeat f_equal; lra|]. constructor; [exists 0; cbn [map]; repeat f_equal; lra|]. constructor. }
  split; [apply skew_biased_unit|]. split; [exact Ht|]. split; [exact Hr|].
  intros skew fs algo nsig Hs Hf. apply (C116_pileup skew 2 _ _ fs algo nsig false true (-2)); auto; lra.
Qed.

(** ** C117: order of the data *)
(** For one data set, every order of it gives the same selected values: the flag of an entry
    depends on its value only. *)
Theorem C117_removeoutliers : forall skew x maxiter target fuel, order_free skew -> (Z.to_nat maxiter + 1 <= fuel)%nat ->
  exists keep, forall y, Permutation x y -> removeoutliers fuel skew y maxiter target = Some (map keep y).
Proof. exact removeoutliers_order. Qed.
Print Assumptions C117_removeoutliers.

Theorem C117_iterstat : forall fsolve data cut precision fuel, 0 < precision -> (2 ^ length data + 5 <= fuel)%nat ->
  exists r keep, forall y, Permutation data y -> iterstat fuel fsolve y cut precision false = Some (r, map keep y).
Proof. exact iterstat_order. Qed.
Print Assumptions C117_iterstat.

Theorem C117_stages : forall skew choose n traces fs algo nsig rm d sym sg, order_free skew -> traces_of n traces -> (2 <= n)%nat ->
  0 < fs -> 0 < sg -> didv_fits n fs sg d ->
  by_value (fun l => pileupcut skew l fs algo nsig rm) traces /\
  by_value (fun l => slopecut skew choose l fs algo nsig d sym sg) traces /\
  by_value (fun l => baselinecut skew l fs algo nsig d sg) traces /\
  by_value (fun l => chi2cut skew l fs algo nsig) traces.
Proof.
  intros skew choose n traces fs algo nsig rm d sym sg Ho Ht Hn Hf Hs Hd.
  split; [apply (pileupcut_order skew n); auto; now right|]. split; [apply (slopecut_order skew choose n); auto; [now right|lia]|].
  split; [apply (baselinecut_order skew n); auto; now right|apply (chi2cut_order skew n); auto; now right].
Qed.
Print Assumptions C117_stages.

Theorem C117_autocuts : forall skew choose n traces a, order_free skew -> traces_of n traces -> (2 <= n)%nat ->
  0 < a_fs a -> 0 < a_sgfreq a -> didv_fits n (a_fs a) (a_sgfreq a) (a_didv a) ->
  by_value (fun l => autocuts skew choose l a) traces.
Proof. intros skew choose n traces a Ho Ht Hn Hf Hs Hd. apply (autocuts_order skew choose n); auto. now right. Qed.
Print Assumptions C117_autocuts.

(** Identical traces get identical flags. *)
Theorem C117_duplicates : forall skew choose n traces a m i j t, order_free skew -> traces_of n traces -> (2 <= n)%nat ->
  0 < a_fs a -> 0 < a_sgfreq a -> didv_fits n (a_fs a) (a_sgfreq a) (a_didv a) ->
  autocuts skew choose traces a = Ok m -> nth_error traces i = Some t -> nth_error traces j = Some t -> (kept m i <-> kept m j).
Proof.
  intros skew choose n traces a m i j t Ho Ht Hn Hf Hs Hd E Hi Hj.
  destruct (C117_autocuts skew choose n traces a Ho Ht Hn Hf Hs Hd) as [[keep H]|[e H]];
    specialize (H traces (Permutation_refl _)); cbn beta in H; rewrite E in H; [|discriminate]. injection H as ->.
  unfold kept. rewrite !nth_error_map, Hi, Hj. reflexivity.
Qed.
Print Assumptions C117_duplicates.

Example C117_ex : order_free (skew_biased None) /\ Permutation [[0; 1]; [2; 2]] [[2; 2]; [0; 1]] /\
  traces_of 2 [[0; 1]; [2; 2]] /\ 
  autocuts (skew_biased None) (fun l k => firstn k l) [[0; 1]; [2; 2]]
    (mkAuto 1 false 1 false "removeoutliers" false true false false false 2 2 2 2 2) = Ok [true; true].
Proof.
  assert (Ht : traces_of 2 [[0; 1]; [2; 2]]) by (split; [discriminate|]; intros t [<-|[<-|[]]]; reflexivity).
  split; [apply skew_biased_order|]. split; [constructor|]. split; [exact Ht|].
  unfold autocuts. cbn [lgcpileup1 lgcslope lgcbaseline lgcpileup2 lgcchi2 a_fs a_algo nsigslope a_didv a_sym a_sgfreq bind].
  change (gather [[0; 1]; [2; 2]] (seq 0 (length [[0; 1]; [2; 2]]))) with [[0; 1]; [2; 2]].
  rewrite (slopecut_keeps_all _ _ 2); [reflexivity|now left|exact Ht|lra|lra|now left].
Qed.
