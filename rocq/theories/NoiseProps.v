(** * Properties of qetpy/core/_noise.py *)
From Coq Require Import Reals Lra Lia.
From Coquelicot Require Import Complex.
From Verif Require Import Base Dft UtilsModel UtilsSpec NoiseModel NoiseSpec
  NoiseProofs1 NoiseProofs2 NoiseProofs3 NoiseProofs4 NoiseProofs5 NoiseProofs6 NoiseProofs7.
Local Open Scope R_scope.

(** ** C31: calc_psd and foldpsd *)
Theorem C31_values : forall n x fs, (0 < n)%nat ->
  calc_psd n (Arr1 x) fs false = Ok (mk n (fftfreq n fs), P1 (mk n (psd_bin n fs x))).
Proof. exact psd_values. Qed.
Print Assumptions C31_values.

Theorem C31_fold_agrees : forall n x fs f p,
  calc_psd n x fs false = Ok (f, P1 p) ->
  exists f' p', foldpsd p fs = Ok (f', p') /\ calc_psd n x fs true = Ok (f', P1 p').
Proof. intros n x fs f p H. exact (fold_agrees n x fs f p (calc_psd_kind _ _ _ _ _ _ H) H). Qed.
Print Assumptions C31_fold_agrees.

Theorem C31_foldpsd : forall n p fs, (0 < n)%nat -> symmetric_psd n p ->
  foldpsd (mk n p) fs = Ok (mk (n / 2 + 1) (fun k => INR k * fs / INR n), mk (n / 2 + 1) (folded n p)).
Proof. exact foldpsd_spec. Qed.
Print Assumptions C31_foldpsd.

Theorem C31_total_power : forall n p fs f q, (0 < n)%nat -> symmetric_psd n p ->
  foldpsd (mk n p) fs = Ok (f, q) -> lsum q = rsum n p.
Proof. exact foldpsd_total. Qed.
Print Assumptions C31_total_power.

Theorem C31_parseval : forall n x fs f p, (0 < n)%nat -> fs <> 0 ->
  calc_psd n x fs false = Ok (f, P1 p) ->
  lsum p * (fs / INR n) =
  match x with Arr1 x => mean_square n x | Arr2 xs => lmean (map (mean_square n) xs) | Arr3 _ _ => 0 end.
Proof. exact psd_integral. Qed.
Print Assumptions C31_parseval.

Example C31_ex : symmetric_psd 3 (fun k => if (k =? 0)%nat then 5 else 2) /\
  exists f p, calc_psd 3 (Arr2 [fun j => INR j; fun j => INR j ^ 2]) 7 false = Ok (f, P1 p).
Proof.
  split.
  - intros k Hk. destruct k as [|[|[|k]]]; try lia; reflexivity.
  - do 2 eexists. reflexivity.
Qed.

(** ** C32: smooth_psd *)
Theorem C32_smooth_psd_partial : forall psd,
  let n := length psd in let h := firstn (n / 2 + 1) psd in
  (0 < n)%nat -> (forall v, In v h -> v <> 0) -> two_minima h ->
  exists out, smooth_psd psd = Ok out /\ length out = n /\
    (forall k, (0 < k < n)%nat -> nth (n - k) out 0 = nth k out 0) /\
    (forall i j, (i < j <= n / 2)%nat -> nth j out 0 < nth i out 0) /\
    (forall i, (i <= n / 2)%nat -> new_minimum h i -> nth i out 0 = nth i psd 0) /\
    (forall i, (i <= n / 2)%nat -> nth i out 0 <= nth i psd 0).
Proof. exact smooth_psd_spec. Qed.
Print Assumptions C32_smooth_psd_partial.

(** Missing from the claim: a psd whose first bin is not exceeded from below (for example a
    flat one) raises ValueError. *)
Theorem C32_flat_refuted : forall p0 r, (forall v, In v (firstn ((length r + 1) / 2) r) -> p0 <= v) ->
  smooth_psd (p0 :: r) = Err ValueError.
Proof. exact smooth_psd_error. Qed.
Print Assumptions C32_flat_refuted.

Example C32_ex : let psd := [4; 5; 1; 5] in let h := firstn (length psd / 2 + 1) psd in
  (forall v, In v h -> v <> 0) /\ two_minima h.
Proof.
  cbn. split.
  - intros v [<-|[<-|[<-|[]]]]; lra.
  - exists 2%nat. split; [lia|]. split; [cbn; lia|]. intros [|[|j]] Hj; cbn; try lra; lia.
Qed.
Example C32_flat_ex : smooth_psd [1; 1; 1] = Err ValueError.
Proof. apply C32_flat_refuted. intros v [<-|[]]. lra. Qed.

(** ** C33: gen_noise *)
Theorem C33_gen_noise : forall n psd fs draws,
  (0 < n)%nat -> 0 < fs -> symmetric_psd n psd -> (forall k, (k < n)%nat -> 0 <= psd k) ->
  exists trs, gen_noise (mk n (fun k => Some (psd k))) fs draws = Ok (mk n (fun k => Some (psd k)), map Some trs) /\
    length trs = length draws /\
    forall t k, (t < length draws)%nat -> (k < n)%nat ->
      psd_bin n fs (nth t trs (fun _ => 0)) k = psd_bin n 1 (nth t draws (fun _ => 0)) k * psd k.
Proof. exact gen_noise_full. Qed.
Print Assumptions C33_gen_noise.

(** An infinite first bin is overwritten in the caller's array. *)
Theorem C33_argument_refuted : forall r fs draws,
  exists tr, gen_noise (None :: r) fs draws = Ok (Some 0 :: r, tr) /\ Some 0 :: r <> None :: r.
Proof. intros r fs draws. destruct (gen_noise_mutates r fs draws) as [tr H]. exists tr. split; [exact H|discriminate]. Qed.
Print Assumptions C33_argument_refuted.

Example C33_ex : symmetric_psd 4 (fun k => INR k * (4 - INR k)) /\ (forall k, (k < 4)%nat -> 0 <= INR k * (4 - INR k)).
Proof.
  split.
  - intros k Hk. rewrite minus_INR by lia. cbn [INR]. ring.
  - intros k Hk. apply lt_INR in Hk. cbn [INR] in Hk. pose proof (pos_INR k). nra.
Qed.

(** ** C34: Noise.calculate_psd *)
Theorem C34_against_calc_psd_partial : forall o c q f k,
  (0 < nbins o)%nat -> (c < nchan o)%nat -> (k < nbins o / 2 + 1)%nat ->
  calc_psd (nbins o) (Arr2 (map (fun x => x c) (traces o))) (nfs o) true = Ok (f, P1 q) ->
  exists P, n_psd (calculate_psd o) = Some P /\ length P = nchan o /\ length (nth c P []) = length q /\
    nth k (nth c P []) 0 =
      (if (k =? 0)%nat || (2 * k =? nbins o)%nat then 2 * nth k q 0 else nth k q 0).
Proof. exact psd_against_calc. Qed.
Print Assumptions C34_against_calc_psd_partial.

(** The full claim fails: the DC and Nyquist bins are doubled. *)
Theorem C34_dc_refuted : exists o f q P,
  calc_psd (nbins o) (Arr2 (map (fun x => x 0%nat) (traces o))) (nfs o) true = Ok (f, P1 q) /\
  n_psd (calculate_psd o) = Some P /\ nth 0 P [] <> q.
Proof. exact dc_doubled. Qed.
Print Assumptions C34_dc_refuted.

Example C34_ex : exists f q, (0 < nbins wit_noise)%nat /\ (1 < nchan wit_noise)%nat /\ (1 < nbins wit_noise / 2 + 1)%nat /\
  calc_psd (nbins wit_noise) (Arr2 (map (fun x => x 1%nat) (traces wit_noise))) (nfs wit_noise) true = Ok (f, P1 q).
Proof. do 2 eexists. cbn [nbins nchan wit_noise fresh_noise]. repeat split; try (cbn; lia). Qed.

(** ** C35: histories *)
Theorem C35_current_traces : forall inv op o, op <> OpUncorr ->
  snd (run_noise inv op o) = snd (run_noise inv op (refreshed o)) /\
  (snd (run_noise inv op o) = Ok tt ->
   same_result op (fst (run_noise inv op o)) (fst (run_noise inv op (refreshed o)))).
Proof. exact fresh_result. Qed.
Print Assumptions C35_current_traces.

Theorem C35_uncorr_without_slope_partial : forall inv o post, n_csd o = None -> ~ In OpSlope post ->
  let h := run_noises inv post o in
  snd (run_noise inv OpUncorr h) = snd (run_noise inv OpUncorr (refreshed h)) /\
  (snd (run_noise inv OpUncorr h) = Ok tt ->
   same_result OpUncorr (fst (run_noise inv OpUncorr h)) (fst (run_noise inv OpUncorr (refreshed h)))).
Proof. exact uncorr_history0. Qed.
Print Assumptions C35_uncorr_without_slope_partial.

Theorem C35_uncorr_after_csd_partial : forall inv o pre post, n_csd o = None -> ~ In OpSlope post ->
  let h := run_noises inv (pre ++ OpCsd :: post) o in
  snd (run_noise inv OpUncorr h) = snd (run_noise inv OpUncorr (refreshed h)) /\
  (snd (run_noise inv OpUncorr h) = Ok tt ->
   same_result OpUncorr (fst (run_noise inv OpUncorr h)) (fst (run_noise inv OpUncorr (refreshed h)))).
Proof. exact uncorr_history. Qed.
Print Assumptions C35_uncorr_after_csd_partial.

(** The remaining histories break the claim: after remove_trace_slope the old cross spectral
    density is still used. *)
Theorem C35_stale_csd_refuted : forall inv, correct_inversion inv -> complete_inversion2 inv ->
  exists o, n_csd o = None /\ let h := run_noises inv [OpCsd; OpSlope] o in
  snd (run_noise inv OpUncorr h) = Ok tt /\ snd (run_noise inv OpUncorr (refreshed h)) = Err LinAlgError.
Proof. intros inv H1 H2. exists wit_noise. split; [reflexivity|]. exact (stale_csd inv H1 H2). Qed.
Print Assumptions C35_stale_csd_refuted.

Example C35_ex : correct_inversion inv2 /\ complete_inversion2 inv2 /\ n_csd wit_noise = None /\
  ~ In OpSlope [OpPsd; OpUncorr; OpCsd] /\ snd (run_noise inv2 OpUncorr wit_noise) = Ok tt.
Proof.
  split; [exact inv2_correct|]. split; [exact inv2_complete|]. split; [reflexivity|].
  split; [intros [H|[H|[H|[]]]]; discriminate|]. exact (wit_fresh_ok inv2 inv2_complete).
Qed.

(** ** C36: remove_trace_slope *)
Theorem C36_remove_trace_slope : forall o,
  (exists i j, (i < nbins o)%nat /\ (j < nbins o)%nat /\ ntime o i <> ntime o j) ->
  length (traces (remove_trace_slope o)) = length (traces o) /\
  forall i c, (i < length (traces o))%nat ->
    let x := nth i (traces o) (fun _ _ => 0) c in
    let z := nth i (traces (remove_trace_slope o)) (fun _ _ => 0) c in
    let z2 := nth i (traces (remove_trace_slope (remove_trace_slope o))) (fun _ _ => 0) c in
    (exists s, forall j, z j = x j - s * ntime o j) /\
    (forall a b, rsum (nbins o) (fun j => (z j - rsum (nbins o) z / INR (nbins o)) ^ 2)
                 <= rsum (nbins o) (fun j => (z j - (a + b * ntime o j)) ^ 2)) /\
    (forall j, z2 j = z j).
Proof. exact remove_slope_spec. Qed.
Print Assumptions C36_remove_trace_slope.
Example C36_ex : exists i j, (i < nbins wit_noise)%nat /\ (j < nbins wit_noise)%nat /\ ntime wit_noise i <> ntime wit_noise j.
Proof. exists 0%nat, 1%nat. cbn. repeat split; try lia. lra. Qed.

(** ** C37, C68: correlated and uncorrelated noise *)
Theorem C37_sum : forall inv o o',
  (forall real, n_csd o <> None -> n_real_csd o = Some real -> forall j, (j < nchan o)%nat -> length (real j j) = lenpsd (nbins o)) ->
  calculate_uncorr_noise inv o = (o', Ok tt) ->
  exists real un co,
    n_real_csd o' = Some real /\ n_uncorr o' = Some un /\ n_corr o' = Some co /\
    forall j k, (j < nchan o)%nat -> (k < lenpsd (nbins o))%nat ->
      nth k (nth j un []) 0 + nth k (nth j co []) 0 = nth k (real j j) 0.
Proof. exact noise_sum. Qed.
Print Assumptions C37_sum.

Theorem C68_bounds : forall inv o o',
  0 < nfs o -> correct_inversion inv -> n_csd o = None ->
  calculate_uncorr_noise inv o = (o', Ok tt) ->
  exists csd un co,
    n_csd o' = Some csd /\ n_uncorr o' = Some un /\ n_corr o' = Some co /\
    forall j k, (j < nchan o)%nat -> (k < lenpsd (nbins o))%nat ->
      let total := csd j j k in let u := nth k (nth j un []) 0 in let c := nth k (nth j co []) 0 in
      snd total = 0 /\ 0 < u <= fst total /\ 0 <= c /\ u + c = fst total.
Proof. exact noise_split. Qed.
Print Assumptions C68_bounds.

Example C68_ex : 0 < nfs wit_noise /\ correct_inversion inv2 /\ n_csd wit_noise = None /\
  exists o', calculate_uncorr_noise inv2 wit_noise = (o', Ok tt).
Proof.
  split; [cbn; lra|]. split; [exact inv2_correct|]. split; [reflexivity|].
  exists (fst (calculate_uncorr_noise inv2 wit_noise)). rewrite <- (wit_fresh_ok inv2 inv2_complete). apply surjective_pairing.
Qed.
Example C37_ex : (forall real, n_csd wit_noise <> None -> n_real_csd wit_noise = Some real ->
    forall j, (j < nchan wit_noise)%nat -> length (real j j) = lenpsd (nbins wit_noise)) /\
  exists o', calculate_uncorr_noise inv2 wit_noise = (o', Ok tt).
Proof. split; [discriminate|apply C68_ex]. Qed.

(** ** C67: calc_psd of several channels *)
Theorem C67_unfolded : forall n c xs fs f P, calc_psd n (Arr3 c xs) fs false = Ok (f, P2 P) ->
  length P = c /\ forall ch, (ch < c)%nat -> calc_psd n (Arr2 (map (fun x => x ch) xs)) fs false = Ok (f, P1 (nth ch P [])).
Proof. exact channels_unfolded. Qed.
Print Assumptions C67_unfolded.

(** The folded form doubles channels instead of frequency bins. *)
Theorem C67_folded_refuted : exists n c xs fs f P f1 q ch,
  calc_psd n (Arr3 c xs) fs true = Ok (f, P2 P) /\ (ch < c)%nat /\
  calc_psd n (Arr2 (map (fun x => x ch) xs)) fs true = Ok (f1, P1 q) /\ nth ch P [] <> q.
Proof. exact channels_doubled. Qed.
Print Assumptions C67_folded_refuted.
Example C67_ex : exists f P, calc_psd 4 (Arr3 2 [spike3]) 1 false = Ok (f, P2 P).
Proof. do 2 eexists. reflexivity. Qed.

(** ** C69: correlation coefficients *)
Theorem C69_corrcoeff : forall o, nchan o <> 1%nat ->
  snd (calculate_corrcoeff o) = Ok tt /\
  exists M, n_corrcoeff (fst (calculate_corrcoeff o)) = Some M /\
    let mag c k t := Cmod (dft (nbins o) (fun j => RtoC (nth t (traces o) (fun _ _ => 0) c j)) (Z.of_nat k)) in
    let varies c k := exists i j, (i < length (traces o))%nat /\ (j < length (traces o))%nat /\ mag c k i <> mag c k j in
    forall c1 c2 k, (c1 < nchan o)%nat -> (c2 < nchan o)%nat ->
      M c1 c2 k = pearson (length (traces o)) (mag c1 k) (mag c2 k) /\ M c1 c2 k = M c2 c1 k /\
      (varies c1 k -> M c1 c1 k = 1) /\ (varies c1 k -> varies c2 k -> -1 <= M c1 c2 k <= 1).
Proof. exact corrcoeff_spec. Qed.
Print Assumptions C69_corrcoeff.
Theorem C69_single_channel : forall o, nchan o = 1%nat -> calculate_corrcoeff o = (o, Err ValueError).
Proof. intros o H. unfold calculate_corrcoeff. now rewrite H. Qed.
Print Assumptions C69_single_channel.
Example C69_ex : nchan wit_noise <> 1%nat /\ nchan dc_noise = 1%nat /\
  let mag c k t := Cmod (dft 2 (fun j => RtoC (nth t (traces wit_noise) (fun _ _ => 0) c j)) (Z.of_nat k)) in
  mag 0%nat 0%nat 0%nat <> mag 0%nat 0%nat 1%nat.
Proof.
  split; [discriminate|]. split; [reflexivity|]. cbv zeta. cbn [traces wit_noise fresh_noise nth]. unfold dft, wit_trace. cbn [csum Nat.eqb].
  change (- (Z.of_nat 0 * Z.of_nat 0))%Z with 0%Z. change (- (Z.of_nat 1 * Z.of_nat 0))%Z with 0%Z. rewrite !tw_0.
  rewrite !Cmult_0_l, !Cplus_0_l, !Cmult_1_r, !Cmod_R, Rabs_R0, Rabs_pos_eq by lra. lra.
Qed.

(** ** C105: the constructor *)
Theorem C105_rejects : forall n inp fs nnames gain time,
  (match inp with In1 => True | In2 _ => nnames <> 1%nat | In3 c _ => nnames <> c end) <->
  noise_init n inp fs nnames gain time = Err ValueError.
Proof. exact init_fails. Qed.
Print Assumptions C105_rejects.

Theorem C105_zero : forall n inp fs nnames gain time,
  (match inp with In1 => False | In2 _ => nnames = 1%nat | In3 c _ => nnames = c end) /\ (fs = 0 \/ n = 0%nat) <->
  noise_init n inp fs nnames gain time = Err ZeroDivisionError.
Proof. exact init_zero. Qed.
Print Assumptions C105_zero.

Theorem C105_fields : forall n inp fs nnames gain time o, noise_init n inp fs nnames gain time = Ok o ->
  nbins o = n /\ nchan o = nnames /\ nfs o = fs /\ fs <> 0 /\ (0 < n)%nat /\
  (forall j, ntime o j = match time with Some t => t j | None => INR j / fs end) /\
  match inp with
  | In1 => False
  | In2 xs => nnames = 1%nat /\ length (traces o) = length xs /\
      forall t c j, (t < length xs)%nat -> nth t (traces o) (fun _ _ => 0) c j = nth t xs (fun _ => 0) j / gain
  | In3 c xs => nnames = c /\ length (traces o) = length xs /\
      forall t c j, (t < length xs)%nat -> nth t (traces o) (fun _ _ => 0) c j = nth t xs (fun _ _ => 0) c j / gain
  end /\
  o = refreshed o.
Proof. exact init_ok. Qed.
Print Assumptions C105_fields.

Theorem C105_gain : forall n inp fs nnames gain time o1 og, gain <> 0 ->
  noise_init n inp fs nnames 1 time = Ok o1 -> noise_init n inp fs nnames gain time = Ok og ->
  forall p1 pg, n_psd (calculate_psd o1) = Some p1 -> n_psd (calculate_psd og) = Some pg ->
  pg = map (map (fun v => v / gain ^ 2)) p1.
Proof. exact init_gain. Qed.
Print Assumptions C105_gain.

Example C105_ex : exists o1 og, noise_init 2 (In2 [fun _ => 6]) 1 1 1 None = Ok o1 /\
  noise_init 2 (In2 [fun _ => 6]) 1 1 2 None = Ok og /\ noise_init 2 (In2 [fun _ => 6]) 1 2 1 None = Err ValueError /\
  noise_init 2 (In2 [fun _ => 6]) 0 1 1 None = Err ZeroDivisionError.
Proof.
  do 2 eexists. unfold noise_init. cbn [fst snd Nat.eqb orb]. rewrite (Reqb_true 0 0 eq_refl).
  destruct (Reqb_spec 1 0); [lra|]. cbn [orb]. repeat split.
Qed.

(** ** C106: calculate_csd *)
Theorem C106_csd : forall o, nchan o <> 1%nat ->
  snd (calculate_csd o) = Ok tt /\
  exists c rc ic rs is,
    n_csd (fst (calculate_csd o)) = Some c /\
    n_real_csd (fst (calculate_csd o)) = Some rc /\ n_imag_csd (fst (calculate_csd o)) = Some ic /\
    n_real_csd_std (fst (calculate_csd o)) = Some rs /\ n_imag_csd_std (fst (calculate_csd o)) = Some is /\
    let m := length (traces o) in
    let bins := (nbins o / 2 + 1)%nat in
    forall i j,
      let S k t := welch (nbins o) (nfs o) (nth t (traces o) (fun _ _ => 0) i) (nth t (traces o) (fun _ _ => 0) j) k in
      (forall k, c i j k = (sample_mean m (fun t => fst (S k t)), sample_mean m (fun t => snd (S k t)))) /\
      rc i j = fill_negatives (mk bins (fun k => sample_mean m (fun t => fst (S k t)))) /\
      ic i j = fill_negatives (mk bins (fun k => sample_mean m (fun t => snd (S k t)))) /\
      rs i j = fill_negatives (mk bins (fun k => sample_std m (fun t => fst (S k t)))) /\
      is i j = fill_negatives (mk bins (fun k => sample_std m (fun t => snd (S k t)))).
Proof. exact csd_stored. Qed.
Print Assumptions C106_csd.

Theorem C106_matrix : forall o c, nchan o <> 1%nat -> 0 < nfs o -> n_csd (fst (calculate_csd o)) = Some c ->
  forall i j k, c j i k = Cconj (c i j k) /\ snd (c i i k) = 0 /\ 0 <= fst (c i i k) /\
    Cmod (c i j k) ^ 2 <= fst (c i i k) * fst (c j j k).
Proof. exact csd_matrix. Qed.
Print Assumptions C106_matrix.

Theorem C106_single_channel : forall o, nchan o = 1%nat -> calculate_csd o = (o, Err ValueError).
Proof. intros o H. unfold calculate_csd. now rewrite H. Qed.
Print Assumptions C106_single_channel.

Example C106_ex : nchan wit_noise <> 1%nat /\ 0 < nfs wit_noise /\ nchan dc_noise = 1%nat /\
  csd_mean wit_noise 0 0 1 = RtoC (1 / 2).
Proof. split; [discriminate|]. split; [cbn; lra|]. split; [reflexivity|]. now rewrite wit_csd by lia. Qed.

(** ** C107: real and imaginary noise *)
Theorem C107_psd_parts : forall o,
  exists p re im, n_psd (calculate_psd o) = Some p /\ n_real_psd (calculate_psd o) = Some re /\
    n_imag_psd (calculate_psd o) = Some im /\
    length p = nchan o /\ length re = nchan o /\ length im = nchan o /\
    forall c, (c < nchan o)%nat ->
      length (nth c p []) = (nbins o / 2 + 1)%nat /\ length (nth c re []) = (nbins o / 2 + 1)%nat /\
      length (nth c im []) = (nbins o / 2 + 1)%nat /\
      forall k, (k < nbins o / 2 + 1)%nat ->
        let m := length (traces o) in
        let F t := dft (nbins o) (fun j => RtoC (nth t (traces o) (fun _ _ => 0) c j)) (Z.of_nat k) in
        let norm := INR (nbins o) * nfs o in
        nth k (nth c re []) 0 = 2 * sample_mean m (fun t => fst (F t) ^ 2) / norm /\
        nth k (nth c im []) 0 = 2 * sample_mean m (fun t => snd (F t) ^ 2) / norm /\
        nth k (nth c p []) 0 = nth k (nth c re []) 0 + nth k (nth c im []) 0.
Proof. exact psd_parts. Qed.
Print Assumptions C107_psd_parts.
Example C107_ex : (0 < nchan wit_noise)%nat /\ (1 < nbins wit_noise / 2 + 1)%nat.
Proof. split; cbn; lia. Qed.

(** ** C108: fewer traces than channels *)
Theorem C108_too_few_traces : forall inv o, correct_inversion inv -> n_csd o = None -> (1 < nchan o)%nat ->
  (length (traces o) < nchan o)%nat ->
  snd (calculate_uncorr_noise inv o) = Err LinAlgError.
Proof. exact too_few_traces. Qed.
Print Assumptions C108_too_few_traces.

Example C108_ex : exists o, correct_inversion inv2 /\ n_csd o = None /\ (1 < nchan o)%nat /\ (length (traces o) < nchan o)%nat.
Proof.
  exists (fresh_noise 2 2 1 (fun j => INR j) [wit_trace 2 0]). split; [exact inv2_correct|]. split; [reflexivity|].
  split; cbn; lia.
Qed.
