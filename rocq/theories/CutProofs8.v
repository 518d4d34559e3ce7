(** * What the stage cuts look at; units and order of the traces *)
From Coq Require Import String Permutation.
From Verif Require Import Base ListLemmas UtilsModel Dft WindowModel WindowProofs OFModel OFFreeModel.
From Verif Require Import CutModel CutSpec CutProofs1 CutProofs2 CutProofs3 CutProofs4 CutProofs6 CutProofs7.
Local Open Scope R_scope.

(** ** the outlier algorithms on finite values *)
Lemma finites_map_Fin q : finites (map Fin q) = q.
Proof. induction q as [|v q IH]; [reflexivity|]. simpl. now rewrite IH. Qed.

Lemma outlier_mask_values skew algo nsig q : known_algo algo ->
  exists m, outlier_mask skew algo nsig (map Fin q) = Ok m /\ outliers_of skew algo nsig q m.
Proof.
  intros Hk. destruct (outlier_mask_ok skew algo nsig (map Fin q) Hk) as [m [E _]]. exists m. split; [exact E|].
  unfold outlier_mask in E. destruct Hk as [-> | ->]; cbn [String.eqb Ascii.eqb Bool.eqb] in E.
  - left. split; [reflexivity|]. exists 22%nat. destruct (removeoutliers 22 skew (map Fin q) 20 (5 / 100)); [now injection E as ->|discriminate].
  - right. split; [reflexivity|]. rewrite finites_map_Fin, map_length, Nat.eqb_refl in E.
    exists (iterstat_fuel (List.length q)). destruct (iterstat _ _ q nsig 10000 false) as [[r m']|]; [|discriminate].
    injection E as ->. eauto.
Qed.

Lemma outlier_mask_bad skew algo nsig {A} (l : list A) : known_algo algo -> l <> [] ->
  outlier_mask skew algo nsig (map (fun _ => Bad) l) = Ok (map (fun _ => true) l).
Proof.
  intros Hk Hl. unfold outlier_mask. destruct Hk as [-> | ->]; cbn [String.eqb Ascii.eqb Bool.eqb].
  - unfold removeoutliers. destruct l as [|a l]; [congruence|]. cbn [map existsb is_bad orb is_pinf negb]. rewrite map_map. reflexivity.
  - assert (E : finites (map (fun _ : A => Bad) l) = []) by (induction l; [reflexivity|simpl; destruct l; [reflexivity|apply IHl; discriminate]]).
    rewrite E. destruct l as [|a l]; [congruence|]. cbn [map List.length Nat.eqb]. rewrite map_map. reflexivity.
Qed.

(** ** the baseline bins *)
Lemma whole_trunc r k : whole r k -> int_trunc r = Z.of_nat k.
Proof.
  intros [H1 H2]. assert (0 <= r) by (pose proof (pos_INR k); lra). unfold int_trunc. rewrite Rltb_false by assumption.
  rewrite INR_IZR_INZ in H1, H2. destruct (base_Int_part r) as [G1 G2].
  assert (A : IZR (Int_part r) < IZR (Z.of_nat k + 1)) by (rewrite plus_IZR; lra).
  assert (B : IZR (Z.of_nat k) < IZR (Int_part r + 1)) by (rewrite plus_IZR; lra).
  apply lt_IZR in A. apply lt_IZR in B. lia.
Qed.

Lemma periods_gt n fs sg : 0 < fs -> 0 < sg -> (Int_part (INR n / fs * sg) >? 1)%Z = true <-> 2 * (fs / sg) <= INR n.
Proof.
  intros Hf Hs. assert (E : INR n = INR n / fs * sg * (fs / sg)) by (field; lra).
  assert (Hb : 0 < fs / sg) by (apply Rdiv_lt_0_compat; assumption).
  set (p := INR n / fs * sg) in *. destruct (base_Int_part p) as [G1 G2]. rewrite Z.gtb_lt. split.
  - intros H. assert (IZR 2 <= IZR (Int_part p)) by (apply IZR_le; lia). rewrite E. apply Rmult_le_compat_r; lra.
  - intros H. rewrite E in H. apply Rmult_le_reg_r in H; [|assumption]. apply lt_IZR. lra.
Qed.

Lemma baseline_range n fs sg d lo hi : 0 < fs -> 0 < sg -> baseline_bins n fs sg d lo hi ->
  begin_range n fs sg d = (Z.of_nat lo, Z.of_nat hi).
Proof.
  intros Hf Hs [H1 H2]. unfold begin_range. destruct d.
  - destruct (H2 eq_refl) as (Hlo & Ha & Hb). rewrite (whole_trunc _ _ Hlo).
    destruct (Int_part (INR n / fs * sg) >? 1)%Z eqn:E.
    + apply periods_gt in E; try assumption. specialize (Ha E). f_equal. apply whole_trunc.
      replace (3 * (fs / sg) / 8) with (fs / sg * (3 / 8)) by (field; lra). assumption.
    + assert (Hlt : INR n < 2 * (fs / sg)).
      { destruct (Rlt_le_dec (INR n) (2 * (fs / sg))) as [G|G]; [assumption|]. apply (periods_gt n fs sg Hf Hs) in G. congruence. }
      specialize (Hb Hlt). f_equal. apply whole_trunc.
      replace (5 * (fs / sg) / 16) with (fs / sg * (5 / 16)) by (field; lra). assumption.
  - destruct (H1 eq_refl) as [-> ->]. f_equal. rewrite Nat2Z.inj_div. reflexivity.
Qed.

Lemma whole_ex r : 0 <= r -> exists k, whole r k.
Proof.
  intros H. destruct (base_Int_part r) as [G1 G2]. exists (Z.to_nat (Int_part r)). unfold whole. rewrite INR_IZR_INZ.
  assert (A : -1 < IZR (Int_part r)) by lra. apply lt_IZR in A. rewrite Z2Nat.id by lia. lra.
Qed.

Lemma baseline_bins_ex n fs sg d : 0 < fs -> 0 < sg -> exists lo hi, baseline_bins n fs sg d lo hi.
Proof.
  intros Hf Hs. assert (Hb : 0 < fs / sg) by (apply Rdiv_lt_0_compat; assumption). destruct d.
  - destruct (whole_ex (fs / sg / 4)) as [lo Hlo]; [lra|].
    destruct (Rlt_le_dec (INR n) (2 * (fs / sg))) as [G|G].
    + destruct (whole_ex (fs / sg * (5 / 16))) as [hi Hhi]; [lra|]. exists lo, hi. split; [discriminate|]. intros _.
      split; [assumption|]. split; [lra|auto].
    + destruct (whole_ex (fs / sg * (3 / 8))) as [hi Hhi]; [lra|]. exists lo, hi. split; [discriminate|]. intros _.
      split; [assumption|]. split; [auto|lra].
  - exists 0%nat, (n / 10)%nat. split; [auto|discriminate].
Qed.

Lemma zrange_seq : forall k lo, zrange (Z.of_nat lo) k = map Z.of_nat (seq lo k).
Proof.
  induction k as [|k IH]; intros lo; [reflexivity|]. cbn [zrange seq map]. f_equal.
  rewrite <- IH. f_equal. lia.
Qed.

Lemma rsum_lsum (f : nat -> R) (n : nat) : rsum n f = lsum (map f (seq 0 n)).
Proof.
  induction n as [|n IH]; [reflexivity|]. rewrite seq_S, map_app, lsum_app. cbn [rsum map lsum fold_right Nat.add]. rewrite IH. ring.
Qed.

Lemma range_mean_value lo hi t : (hi <= List.length t)%nat ->
  range_mean (Z.of_nat lo) (Z.of_nat hi) t = Ok (if (lo <? hi)%nat then Fin (bin_mean lo hi t) else Bad).
Proof.
  intros Hl. unfold range_mean, arangeZ. replace (Z.to_nat (Z.of_nat hi - Z.of_nat lo)) with (hi - lo)%nat by lia.
  rewrite zrange_seq. rewrite (take_in _ 0).
  2:{ intros i Hi. apply in_map_iff in Hi. destruct Hi as (k & <- & Hk). apply in_seq in Hk. lia. }
  cbn [bind]. f_equal. rewrite map_map.
  destruct (Nat.ltb_spec lo hi) as [H|H].
  - unfold npmean. assert (E : map (fun x => nth (Z.to_nat (Z.of_nat x)) t 0) (seq lo (hi - lo)) = map (fun k => nth (lo + k) t 0) (seq 0 (hi - lo))).
    { rewrite <- (Nat.add_0_r lo) at 1. replace (seq (lo + 0) (hi - lo)) with (map (Nat.add lo) (seq 0 (hi - lo))).
      - rewrite map_map. apply map_ext. intros k. now rewrite Nat2Z.id.
      - clear. generalize 0%nat. induction (hi - lo)%nat as [|m IH]; intros s; [reflexivity|]. cbn [seq map]. f_equal.
        rewrite IH. f_equal. lia. }
    rewrite E. destruct (map (fun k => nth (lo + k) t 0) (seq 0 (hi - lo))) as [|v vs] eqn:Ev.
    + apply (f_equal (@List.length R)) in Ev. rewrite map_length, seq_length in Ev. simpl in Ev. lia.
    + f_equal. unfold bin_mean. rewrite rsum_lsum, Ev.
      apply (f_equal (@List.length R)) in Ev. rewrite map_length, seq_length in Ev. rewrite Ev. reflexivity.
  - replace (hi - lo)%nat with 0%nat by lia. reflexivity.
Qed.

Lemma sequence_map {A B} (f : A -> res B) (g : A -> B) l : (forall a, In a l -> f a = Ok (g a)) -> sequence (map f l) = Ok (map g l).
Proof.
  induction l as [|a l IH]; intros H; [reflexivity|]. cbn [map sequence]. rewrite (H a (or_introl eq_refl)). cbn [bind].
  rewrite IH by (intros x Hx; apply H; now right). reflexivity.
Qed.

Lemma baselinecut_values skew n traces fs algo nsig d sg lo hi :
  traces_of n traces -> 0 < fs -> 0 < sg -> didv_fits n fs sg d -> baseline_bins n fs sg d lo hi ->
  baselinecut skew traces fs algo nsig d sg =
  outlier_mask skew algo nsig (map (fun t => if (lo <? hi)%nat then Fin (bin_mean lo hi t) else Bad) traces).
Proof.
  intros Ht Hf Hs Hd Hb. unfold baselinecut. rewrite (traces_of_first n traces Ht). cbn [bind].
  rewrite range_checks_ok by assumption. cbn [bind].
  destruct (ranges_fit n fs sg d Hf Hs Hd) as [_ [R2 _]]. rewrite (baseline_range n fs sg d lo hi) in * by assumption. cbn [fst snd] in *.
  rewrite (sequence_map _ (fun t => if (lo <? hi)%nat then Fin (bin_mean lo hi t) else Bad)); [reflexivity|].
  intros t Hin. apply range_mean_value. rewrite (proj2 Ht t Hin). lia.
Qed.

Lemma baselinecut_looks skew n traces fs algo nsig d sg lo hi : known_algo algo ->
  traces_of n traces -> 0 < fs -> 0 < sg -> didv_fits n fs sg d -> baseline_bins n fs sg d lo hi ->
  exists m, baselinecut skew traces fs algo nsig d sg = Ok m /\
    ((lo < hi)%nat -> outliers_of skew algo nsig (map (bin_mean lo hi) traces) m) /\
    ((hi <= lo)%nat -> m = map (fun _ => true) traces).
Proof.
  intros Hk Ht Hf Hs Hd Hb. rewrite (baselinecut_values skew n traces fs algo nsig d sg lo hi) by assumption.
  destruct (Nat.ltb_spec lo hi) as [H|H].
  - rewrite <- (map_map (bin_mean lo hi) Fin). destruct (outlier_mask_values skew algo nsig (map (bin_mean lo hi) traces) Hk) as (m & E & O).
    exists m. split; [assumption|]. split; [auto|lia].
  - rewrite outlier_mask_bad; [|assumption|apply (proj1 Ht)]. eexists. split; [reflexivity|]. split; [lia|reflexivity].
Qed.

(** ** the fitted amplitudes and chi2 *)
Section Fitted.
Variables (n : nat) (fs : R).
Hypothesis Hn : (2 <= n)%nat.
Hypothesis Hf : 0 < fs.

Definition triple (t : list R) : R * R * R := match trace_of n fs t with Ok r => r | Err _ => (0, 0, 0) end.

Lemma triple_ok t : trace_of n fs t = Ok (triple t).
Proof. unfold triple. destruct (trace_of_ok n fs t ltac:(lia)) as [r E]. now rewrite E. Qed.

Lemma triple_best t : best_pulse n fs (dummy_template n fs) (fun j => nth j t 0) (fst (fst (triple t))) (snd (triple t)).
Proof.
  destruct (fit_best n fs Hn Hf (fun j => nth j t 0)) as (a & t0 & c & E & H). unfold triple.
  rewrite (trace_of_fit n fs Hn Hf), E. exact H.
Qed.

Lemma triple_offset t t' c : List.length t = n -> t' = map (fun v => v + c) t -> trace_of n fs t' = trace_of n fs t.
Proof.
  intros Hl ->. rewrite !(trace_of_fit n fs Hn Hf). apply (fit_shift n fs Hn Hf _ _ c). intros i Hi.
  rewrite (nth_indep _ 0 (0 + c)) by (rewrite map_length; lia). rewrite (map_nth (fun v => v + c)). reflexivity.
Qed.

Lemma triple_gain t a b : a <> 0 -> List.length t = n ->
  fst (fst (triple (map (lin a b) t))) = a * fst (fst (triple t)) /\ snd (triple (map (lin a b) t)) = a ^ 2 * snd (triple t).
Proof.
  intros Ha Hl. unfold triple. rewrite !(trace_of_fit n fs Hn Hf).
  destruct (fit_scale n fs Hn Hf (fun j => nth j t 0) a Ha) as (am & t0 & c & E1 & E2). rewrite E1.
  rewrite (fit_shift n fs Hn Hf (fun i => a * nth i t 0) (fun j => nth j (map (lin a b) t) 0) b).
  - rewrite E2. split; reflexivity.
  - intros i Hi. rewrite nth_lin by lia. reflexivity.
Qed.

Lemma pileupcut_values skew traces algo nsig rm : traces_of n traces ->
  pileupcut skew traces fs algo nsig rm = outlier_mask skew algo nsig (map Fin (map (fun t => Rabs (fst (fst (triple t)))) traces)).
Proof.
  intros Ht. unfold pileupcut. rewrite (traces_of_first n traces Ht). cbn [bind].
  rewrite template_checks_ok by (lia || assumption). cbn [bind].
  assert (E : sequence (map (trace_of n fs) (if rm then map (fun t => map (fun v => v - lmean t) t) traces else traces)) = Ok (map triple traces)).
  { destruct rm; [rewrite map_map|]; apply sequence_map; intros t Hin; [|apply triple_ok].
    rewrite <- triple_ok. apply (triple_offset t _ (- lmean t)); [now apply (proj2 Ht)|reflexivity]. }
  rewrite E. cbn [bind]. now rewrite !map_map.
Qed.

Lemma chi2cut_values skew traces algo nsig : traces_of n traces ->
  chi2cut skew traces fs algo nsig = outlier_mask skew algo nsig (map Fin (map (fun t => snd (triple t)) traces)).
Proof.
  intros Ht. unfold chi2cut. rewrite (traces_of_first n traces Ht). cbn [bind].
  rewrite template_checks_ok by (lia || assumption). cbn [bind].
  rewrite (sequence_map _ triple) by (intros t _; apply triple_ok). cbn [bind]. now rewrite !map_map.
Qed.
End Fitted.

Lemma pileupcut_looks skew n traces fs algo nsig rm : known_algo algo -> traces_of n traces -> (2 <= n)%nat -> 0 < fs ->
  exists m t amps, pileupcut skew traces fs algo nsig rm = Ok m /\ unit_pulse n fs t /\
    Forall2 (fun x a => exists c, best_pulse n fs t (fun j => nth j x 0) a c) traces amps /\
    outliers_of skew algo nsig (map Rabs amps) m.
Proof.
  intros Hk Ht Hn Hf. rewrite (pileupcut_values n fs Hn Hf) by assumption.
  destruct (outlier_mask_values skew algo nsig (map (fun t => Rabs (fst (fst (triple n fs t)))) traces) Hk) as (m & E & O).
  exists m, (dummy_template n fs), (map (fun t => fst (fst (triple n fs t))) traces).
  split; [exact E|]. split; [now apply template_pulse|]. split; [|now rewrite map_map].
  clear - Hn Hf. induction traces as [|x l IH]; constructor; [|assumption]. eexists. now apply triple_best.
Qed.

Lemma chi2cut_looks skew n traces fs algo nsig : known_algo algo -> traces_of n traces -> (2 <= n)%nat -> 0 < fs ->
  exists m t chis, chi2cut skew traces fs algo nsig = Ok m /\ unit_pulse n fs t /\
    Forall2 (fun x c => exists a, best_pulse n fs t (fun j => nth j x 0) a c) traces chis /\
    outliers_of skew algo nsig chis m.
Proof.
  intros Hk Ht Hn Hf. rewrite (chi2cut_values n fs Hn Hf) by assumption.
  destruct (outlier_mask_values skew algo nsig (map (fun t => snd (triple n fs t)) traces) Hk) as (m & E & O).
  exists m, (dummy_template n fs), (map (fun t => snd (triple n fs t)) traces).
  split; [exact E|]. split; [now apply template_pulse|]. split; [|assumption].
  clear - Hn Hf. induction traces as [|x l IH]; constructor; [|assumption]. eexists. now apply triple_best.
Qed.

(** ** units *)
Lemma outlier_mask_unit skew algo nsig a b x : unit_free skew -> 0 < a ->
  outlier_mask skew algo nsig (map (xlin a b) x) = outlier_mask skew algo nsig x.
Proof.
  intros Hs Ha. unfold outlier_mask. rewrite removeoutliers_unit by assumption.
  rewrite finites_xlin, !map_length, map_map, iterstat_unit by lra.
  destruct (String.eqb algo "removeoutliers"); [reflexivity|]. destruct (String.eqb algo "iterstat"); [|reflexivity].
  destruct (List.length (finites x) =? List.length x)%nat; [|reflexivity].
  destruct (iterstat _ _ (finites x) nsig 10000 false) as [[[[mu s]|] m]|]; reflexivity.
Qed.

Lemma rescaled_traces a n l l' : rescaled a l l' -> traces_of n l -> traces_of n l'.
Proof.
  intros H [H1 H2]. split.
  - intros ->. inversion H. congruence.
  - clear H1. induction H as [|t t' l l' [b ->] H IH]; intros u Hu; [destruct Hu|]. destruct Hu as [<-|Hu].
    + rewrite map_length. apply H2. now left.
    + apply IH; [|exact Hu]. intros v Hv. apply H2. now right.
Qed.

Lemma pileupcut_unit skew n traces traces' fs algo nsig rm rm' a : unit_free skew -> traces_of n traces -> (2 <= n)%nat -> 0 < fs ->
  a <> 0 -> rescaled a traces traces' ->
  pileupcut skew traces' fs algo nsig rm' = pileupcut skew traces fs algo nsig rm.
Proof.
  intros Hs Ht Hn Hf Ha Hr. assert (Ht' := rescaled_traces _ _ _ _ Hr Ht). rewrite !(pileupcut_values n fs Hn Hf) by assumption.
  rewrite <- (outlier_mask_unit skew algo nsig (Rabs a) 0 (map Fin (map _ traces))); [|assumption|now apply Rabs_pos_lt]. apply f_equal.
  destruct Ht as [_ H2]. clear Ht'. rewrite !map_map. induction Hr as [|t t' l l' [b ->] H IH]; [reflexivity|]. cbn [map]. f_equal.
  - cbn [xlin]. f_equal. change (fun v => a * v + b) with (lin a b). destruct (triple_gain n fs Hn Hf t a b Ha (H2 t (or_introl eq_refl))) as [-> _].
    rewrite Rabs_mult. unfold lin. ring.
  - apply IH. intros v Hv. apply H2. now right.
Qed.

Lemma chi2cut_unit skew n traces traces' fs algo nsig a : unit_free skew -> traces_of n traces -> (2 <= n)%nat -> 0 < fs ->
  a <> 0 -> rescaled a traces traces' ->
  chi2cut skew traces' fs algo nsig = chi2cut skew traces fs algo nsig.
Proof.
  intros Hs Ht Hn Hf Ha Hr. assert (Ht' := rescaled_traces _ _ _ _ Hr Ht). rewrite !(chi2cut_values n fs Hn Hf) by assumption.
  rewrite <- (outlier_mask_unit skew algo nsig (a ^ 2) 0 (map Fin (map _ traces))); [|assumption|nra]. apply f_equal.
  destruct Ht as [_ H2]. clear Ht'. rewrite !map_map. induction Hr as [|t t' l l' [b ->] H IH]; [reflexivity|]. cbn [map]. f_equal.
  - cbn [xlin]. f_equal. change (fun v => a * v + b) with (lin a b). destruct (triple_gain n fs Hn Hf t a b Ha (H2 t (or_introl eq_refl))) as [_ ->].
    unfold lin. ring.
  - apply IH. intros v Hv. apply H2. now right.
Qed.

Lemma bin_mean_lin a b lo hi t : (lo < hi)%nat -> (hi <= List.length t)%nat -> bin_mean lo hi (map (lin a b) t) = lin a b (bin_mean lo hi t).
Proof.
  intros H1 H2. unfold bin_mean. rewrite (rsum_ext _ _ (fun k => a * nth (lo + k) t 0 + b)).
  - rewrite rsum_plus, rsum_scal_l, rsum_const. unfold lin. field. apply not_0_INR. lia.
  - intros k Hk. rewrite nth_lin by lia. reflexivity.
Qed.

Lemma map_traces n f traces : traces_of n traces -> traces_of n (map (map f) traces).
Proof.
  intros [H1 H2]. split; [destruct traces; [congruence|discriminate]|]. intros t Hin. apply in_map_iff in Hin.
  destruct Hin as (u & <- & Hu). rewrite map_length. auto.
Qed.

Lemma baselinecut_unit skew n traces fs algo nsig d sg a b : unit_free skew -> traces_of n traces ->
  0 < fs -> 0 < sg -> didv_fits n fs sg d -> 0 < a ->
  baselinecut skew (map (map (lin a b)) traces) fs algo nsig d sg = baselinecut skew traces fs algo nsig d sg.
Proof.
  intros Hu Ht Hf Hs Hd Ha. destruct (baseline_bins_ex n fs sg d Hf Hs) as (lo & hi & Hb).
  assert (Ht' := map_traces n (lin a b) traces Ht). rewrite !(baselinecut_values skew n _ fs algo nsig d sg lo hi) by assumption.
  rewrite <- (outlier_mask_unit skew algo nsig a b (map _ traces)) by assumption. f_equal. rewrite !map_map. apply map_ext_in. intros t Hin.
  destruct (Nat.ltb_spec lo hi) as [H|H]; [|reflexivity]. cbn [xlin]. f_equal. apply bin_mean_lin; [assumption|].
  destruct (ranges_fit n fs sg d Hf Hs Hd) as [_ [R2 _]]. rewrite (baseline_range n fs sg d lo hi) in R2 by assumption.
  cbn [snd] in R2. rewrite (proj2 Ht t Hin). lia.
Qed.

Lemma slopecut_unit skew choose n traces traces' fs algo nsig d sym sg : List.length traces' = List.length traces ->
  traces_of n traces -> traces_of n traces' -> (0 < n)%nat -> 0 < fs -> 0 < sg -> didv_fits n fs sg d ->
  slopecut skew choose traces' fs algo nsig d sym sg = slopecut skew choose traces fs algo nsig d sym sg.
Proof.
  intros El Ht Ht' Hn Hf Hs Hd. assert (Dk : known_algo algo \/ ~ known_algo algo).
  { unfold known_algo. destruct (string_dec algo "removeoutliers"); [auto|]. destruct (string_dec algo "iterstat"); [auto|]. right. intros [|]; contradiction. }
  destruct Dk as [Hk|Hk].
  - rewrite !(slopecut_keeps_all skew choose n) by assumption. f_equal. revert El. clear. revert traces'.
    induction traces as [|t l IH]; intros [|t' l'] E; try discriminate; [reflexivity|]. cbn [map]. f_equal. apply IH. now injection E.
  - destruct (stage_unknown skew choose n traces fs algo nsig d sym false sg Hk Ht Hn Hf Hs Hd) as (_ & -> & _).
    destruct (stage_unknown skew choose n traces' fs algo nsig d sym false sg Hk Ht' Hn Hf Hs Hd) as (_ & -> & _). reflexivity.
Qed.

(** ** autocuts by its chain of stages *)
Lemma kept_eq (m m' : list bool) : List.length m = List.length m' -> (forall i, kept m i <-> kept m' i) -> m = m'.
Proof.
  revert m'. induction m as [|b m IH]; intros [|b' m'] E H; try discriminate; [reflexivity|]. f_equal.
  - specialize (H 0%nat). unfold kept in H. cbn in H. destruct b, b'; try reflexivity; [destruct H as [H _]|destruct H as [_ H]]; specialize (H eq_refl); congruence.
  - apply IH; [now injection E|]. intros i. exact (H (S i)).
Qed.

Lemma chain_det {A} fs : forall (l : list A) ms ms', chain fs l ms -> chain fs l ms' -> ms = ms'.
Proof.
  induction fs as [|f fs IH]; intros l ms ms' H H'; inversion H; inversion H'; subst; [reflexivity|].
  assert (m = m0) by congruence. subst m0. f_equal. eapply IH; eassumption.
Qed.
Lemma chain_no_err {A} fs : forall (l : list A) ms e, chain fs l ms -> chain_err fs l e -> False.
Proof.
  induction fs as [|f fs IH]; intros l ms e H H'; inversion H'; subst; inversion H; subst; [congruence|].
  assert (m = m0) by congruence. subst m0. eapply IH; eassumption.
Qed.
Lemma chain_err_det {A} fs : forall (l : list A) e e', chain_err fs l e -> chain_err fs l e' -> e = e'.
Proof.
  induction fs as [|f fs IH]; intros l e e' H H'; inversion H; subst; inversion H'; subst; try congruence.
  assert (m = m0) by congruence. subst m0. eapply IH; eassumption.
Qed.

Lemma autocuts_chain skew choose traces a ms : chain (auto_stages skew choose a) traces ms ->
  exists m, autocuts skew choose traces a = Ok m /\ List.length m = List.length traces /\ forall i, kept m i <-> survives ms i.
Proof.
  intros H. assert (S := autocuts_spec skew choose traces a). destruct (autocuts skew choose traces a) as [m|e].
  - destruct S as (ms' & H' & L & K). exists m. rewrite (chain_det _ _ _ _ H H'). auto.
  - exfalso. eapply chain_no_err; eassumption.
Qed.
Lemma autocuts_chain_err skew choose traces a e : chain_err (auto_stages skew choose a) traces e ->
  autocuts skew choose traces a = Err e.
Proof.
  intros H. assert (S := autocuts_spec skew choose traces a). destruct (autocuts skew choose traces a) as [m|e'].
  - destruct S as (ms' & H' & _). exfalso. eapply chain_no_err; eassumption.
  - f_equal. eapply chain_err_det; eassumption.
Qed.

(** Stages that only look at [g] of each element. *)
Lemma pick_map {A B} (f : A -> B) m l : pick m (map f l) = map f (pick m l).
Proof. rewrite !pick_select. apply select_map. Qed.

Lemma chain_map {A B} (f : A -> B) (P : list A -> Prop) (HP : forall l m, P l -> P (pick m l)) fs fs' :
  Forall2 (fun (s : list A -> res (list bool)) (s' : list B -> res (list bool)) => forall l, P l -> s' (map f l) = s l) fs fs' ->
  forall l, P l -> (forall ms, chain fs l ms -> chain fs' (map f l) ms) /\ (forall e, chain_err fs l e -> chain_err fs' (map f l) e).
Proof.
  induction 1 as [|s s' fs fs' H HF IH]; intros l Hl; split.
  - intros ms Hc. inversion Hc; subst. constructor.
  - intros e He. inversion He.
  - intros ms Hc. inversion Hc; subst. constructor; [now rewrite H|now rewrite map_length|]. rewrite pick_map. apply IH; [now apply HP|assumption].
  - intros e He. inversion He; subst; [apply chain_fail; now rewrite H|]. eapply chain_later; [rewrite H by assumption; eassumption|].
    rewrite pick_map. apply IH; [now apply HP|assumption].
Qed.

Definition maybe_traces (n : nat) (l : list (list R)) : Prop := l = [] \/ traces_of n l.
Lemma maybe_pick n l m : maybe_traces n l -> maybe_traces n (pick m l).
Proof.
  intros H. rewrite pick_select. destruct H as [-> | [H1 H2]]; [left; now destruct m|].
  destruct (mask_select m l) as [|t ts] eqn:E; [now left|]. right. split; [discriminate|]. rewrite <- E. intros u Hu. apply H2. eapply select_incl; exact Hu.
Qed.

Lemma enabled_map {A B} (f : A -> B) on s s' l : s' (map f l) = s l -> enabled on s' (map f l) = enabled on s l.
Proof. intros H. unfold enabled. destruct on; [exact H|]. now rewrite map_map. Qed.

Lemma autocuts_unit skew choose n traces a g b : unit_free skew -> traces_of n traces -> (2 <= n)%nat ->
  0 < a_fs a -> 0 < a_sgfreq a -> didv_fits n (a_fs a) (a_sgfreq a) (a_didv a) -> 0 < g ->
  autocuts skew choose (map (map (lin g b)) traces) a = autocuts skew choose traces a.
Proof.
  intros Hu Ht Hn Hf Hs Hd Hg. set (F := map (lin g b)).
  assert (C : Forall2 (fun s s' => forall l, maybe_traces n l -> s' (map F l) = s l) (auto_stages skew choose a) (auto_stages skew choose a)).
  { assert (Hr : forall l, rescaled g l (map F l)).
    { intros l. induction l; constructor; [|assumption]. exists b. reflexivity. }
    unfold auto_stages. repeat constructor; intros l [->|Hl]; (apply enabled_map || idtac); try reflexivity; cbn beta.
    - apply (pileupcut_unit skew n _ _ _ _ _ _ _ g); auto; lra.
    - apply (slopecut_unit skew choose n); auto; [apply map_length|now apply map_traces|lia].
    - apply (baselinecut_unit skew n); auto.
    - apply (pileupcut_unit skew n _ _ _ _ _ _ _ g); auto; lra.
    - apply (chi2cut_unit skew n _ _ _ _ _ g); auto; lra. }
  destruct (chain_map F (maybe_traces n) (fun l m => maybe_pick n l m) _ _ C traces (or_intror Ht)) as [C1 C2].
  assert (S := autocuts_spec skew choose traces a). destruct (autocuts skew choose traces a) as [m|e].
  - destruct S as (ms & Hc & L & K). destruct (autocuts_chain skew choose (map F traces) a ms (C1 ms Hc)) as (m' & E' & L' & K').
    rewrite E'. f_equal. apply kept_eq; [rewrite L', map_length; auto|]. intros i. rewrite K, K'. reflexivity.
  - apply autocuts_chain_err. auto.
Qed.

(** ** order of the traces *)
Lemma finites_all y : List.length (finites y) = List.length y -> y = map Fin (finites y).
Proof.
  induction y as [|v y IH]; [reflexivity|]. intros H. assert (L := finites_length y). destruct v as [r| |]; simpl in *; [|lia|lia].
  f_equal. apply IH. lia.
Qed.

Lemma outlier_mask_order skew algo nsig x : order_free skew -> by_value (outlier_mask skew algo nsig) x.
Proof.
  intros Hs. unfold outlier_mask. destruct (String.eqb algo "removeoutliers").
  - left. destruct (removeoutliers_order skew x 20 (5 / 100) 22 Hs ltac:(simpl; lia)) as [keep H]. exists keep.
    intros y Hy. now rewrite H.
  - destruct (String.eqb algo "iterstat").
    + left. destruct (Nat.eq_dec (List.length (finites x)) (List.length x)) as [E|E].
      * destruct (iterstat_order (fun _ _ _ p => p) (finites x) nsig 10000 (iterstat_fuel (List.length x))) as (r & keep & H); [lra|unfold iterstat_fuel; rewrite E; lia|].
        exists (fun v => match v with Fin r => keep r | _ => true end). intros y Hy.
        assert (Hl := Permutation_length Hy). assert (Hl' := Permutation_length (perm_finites _ _ Hy)).
        replace (List.length (finites y) =? List.length y)%nat with true by (symmetry; apply Nat.eqb_eq; lia).
        rewrite <- Hl, H by now apply perm_finites. f_equal. rewrite (finites_all y) at 2 by lia. now rewrite map_map.
      * exists (fun _ => true). intros y Hy. assert (Hl := Permutation_length Hy). assert (Hl' := Permutation_length (perm_finites _ _ Hy)).
        replace (List.length (finites y) =? List.length y)%nat with false by (symmetry; apply Nat.eqb_neq; lia). reflexivity.
    + right. exists NameError. reflexivity.
Qed.

Lemma by_value_map {A B} (q : A -> B) f (g : list A -> res (list bool)) l :
  by_value f (map q l) -> (forall l', Permutation l l' -> g l' = f (map q l')) -> by_value g l.
Proof.
  intros [[keep H]|[e H]] E.
  - left. exists (fun a => keep (q a)). intros l' Hl. rewrite E, H by (try apply Permutation_map; assumption). now rewrite map_map.
  - right. exists e. intros l' Hl. rewrite E, H by (try apply Permutation_map; assumption). reflexivity.
Qed.

Lemma perm_traces n l l' : Permutation l l' -> traces_of n l -> traces_of n l'.
Proof.
  intros H [H1 H2]. split.
  - intros ->. apply Permutation_sym, Permutation_nil in H. contradiction.
  - intros t Ht. apply H2. eapply Permutation_in; [apply Permutation_sym; exact H|exact Ht].
Qed.

Lemma by_value_empty {A} (f : list A -> res (list bool)) e : f [] = Err e -> by_value f [].
Proof. intros H. right. exists e. intros l' Hl. apply Permutation_nil in Hl. now subst. Qed.

Lemma pileupcut_order skew n traces fs algo nsig rm : order_free skew -> maybe_traces n traces -> (2 <= n)%nat -> 0 < fs ->
  by_value (fun l => pileupcut skew l fs algo nsig rm) traces.
Proof.
  intros Ho [->|Ht] Hn Hf; [now apply (by_value_empty _ IndexError)|].
  eapply (by_value_map (fun t => Fin (Rabs (fst (fst (triple n fs t)))))); [apply (outlier_mask_order skew algo nsig), Ho|].
  intros l' Hl. rewrite (pileupcut_values n fs Hn Hf), map_map by (eapply perm_traces; eassumption). reflexivity.
Qed.
Lemma chi2cut_order skew n traces fs algo nsig : order_free skew -> maybe_traces n traces -> (2 <= n)%nat -> 0 < fs ->
  by_value (fun l => chi2cut skew l fs algo nsig) traces.
Proof.
  intros Ho [->|Ht] Hn Hf; [now apply (by_value_empty _ IndexError)|].
  eapply (by_value_map (fun t => Fin (snd (triple n fs t)))); [apply (outlier_mask_order skew algo nsig), Ho|].
  intros l' Hl. rewrite (chi2cut_values n fs Hn Hf), map_map by (eapply perm_traces; eassumption). reflexivity.
Qed.
Lemma baselinecut_order skew n traces fs algo nsig d sg : order_free skew -> maybe_traces n traces -> 0 < fs -> 0 < sg -> didv_fits n fs sg d ->
  by_value (fun l => baselinecut skew l fs algo nsig d sg) traces.
Proof.
  intros Ho [->|Ht] Hf Hs Hd; [now apply (by_value_empty _ IndexError)|].
  destruct (baseline_bins_ex n fs sg d Hf Hs) as (lo & hi & Hb).
  eapply (by_value_map (fun t => if (lo <? hi)%nat then Fin (bin_mean lo hi t) else Bad)); [apply (outlier_mask_order skew algo nsig), Ho|].
  intros l' Hl. apply (baselinecut_values skew n); try assumption. eapply perm_traces; eassumption.
Qed.
Lemma slopecut_order skew choose n traces fs algo nsig d sym sg : maybe_traces n traces -> (0 < n)%nat -> 0 < fs -> 0 < sg -> didv_fits n fs sg d ->
  by_value (fun l => slopecut skew choose l fs algo nsig d sym sg) traces.
Proof.
  intros [->|Ht] Hn Hf Hs Hd; [now apply (by_value_empty _ IndexError)|].
  assert (Dk : known_algo algo \/ ~ known_algo algo).
  { unfold known_algo. destruct (string_dec algo "removeoutliers"); [auto|]. destruct (string_dec algo "iterstat"); [auto|]. right. intros [|]; contradiction. }
  destruct Dk as [Hk|Hk].
  - left. exists (fun _ => true). intros l' Hl. apply (slopecut_keeps_all skew choose n); try assumption. eapply perm_traces; eassumption.
  - right. exists NameError. intros l' Hl.
    now destruct (stage_unknown skew choose n l' fs algo nsig d sym false sg Hk (perm_traces _ _ _ Hl Ht) Hn Hf Hs Hd) as (_ & -> & _).
Qed.
Lemma enabled_order {A} on (f : list A -> res (list bool)) l : by_value f l -> by_value (enabled on f) l.
Proof. intros H. destruct on; [exact H|]. left. exists (fun _ => true). reflexivity. Qed.

Lemma keep_rank {A} (keep : A -> bool) : forall l i a, nth_error l i = Some a -> keep a = true ->
  nth_error (filter keep l) (List.length (filter (fun b => b) (firstn i (map keep l)))) = Some a.
Proof.
  induction l as [|x l IH]; intros [|i] a H K; try discriminate.
  - injection H as ->. cbn. rewrite K. reflexivity.
  - cbn [nth_error] in H. cbn [map firstn filter]. destruct (keep x); cbn [List.length nth_error]; now apply IH.
Qed.

Lemma chain_order {A} (P : list A -> Prop) (HP : forall l m, P l -> P (pick m l)) fs :
  Forall (fun f => forall l, P l -> by_value f l) fs ->
  forall l, P l ->
  (exists keep, forall l', Permutation l l' -> exists ms, chain fs l' ms /\
     forall i a, nth_error l' i = Some a -> (survives ms i <-> keep a = true)) \/
  (exists e, forall l', Permutation l l' -> chain_err fs l' e).
Proof.
  induction 1 as [|f fs Hf _ IH]; intros l Hl.
  - left. exists (fun _ => true). intros l' _. exists []. split; [constructor|]. simpl. tauto.
  - destruct (Hf l Hl) as [[k1 H1]|[e H1]]; [|right; exists e; intros l' Hp; apply chain_fail; auto].
    assert (Pk : forall l', pick (map k1 l') l' = filter k1 l') by (intros l'; rewrite pick_select; apply select_keep).
    destruct (IH (filter k1 l)) as [[k2 H2]|[e H2]].
    + rewrite <- Pk. now apply HP.
    + left. exists (fun a => k1 a && k2 a)%bool. intros l' Hp. destruct (H2 (filter k1 l') (perm_filter _ _ _ Hp)) as (ms & C & S).
      exists (map k1 l' :: ms). split.
      * constructor; [auto|apply map_length|]. now rewrite Pk.
      * intros i a Hi. cbn [survives]. unfold kept. rewrite nth_error_map, Hi. cbn [option_map].
        destruct (k1 a) eqn:K; cbn [andb].
        -- rewrite (S _ a (keep_rank k1 l' i a Hi K)). tauto.
        -- split; [intros [G _]; discriminate|discriminate].
    + right. exists e. intros l' Hp. eapply chain_later; [apply H1, Hp|]. rewrite Pk. apply H2, perm_filter, Hp.
Qed.

Lemma autocuts_order skew choose n traces a : order_free skew -> maybe_traces n traces -> (2 <= n)%nat ->
  0 < a_fs a -> 0 < a_sgfreq a -> didv_fits n (a_fs a) (a_sgfreq a) (a_didv a) ->
  by_value (fun l => autocuts skew choose l a) traces.
Proof.
  intros Ho Ht Hn Hf Hs Hd.
  destruct (chain_order (maybe_traces n) (fun l m => maybe_pick n l m) (auto_stages skew choose a)) with (l := traces) as [[keep H]|[e H]]; [|exact Ht| |].
  - unfold auto_stages. repeat match goal with |- Forall _ (_ :: _) => apply Forall_cons; [intros l Hl; apply enabled_order|] | |- Forall _ [] => apply Forall_nil end.
    + now apply (pileupcut_order skew n).
    + apply (slopecut_order skew choose n); auto; lia.
    + now apply (baselinecut_order skew n).
    + now apply (pileupcut_order skew n).
    + now apply (chi2cut_order skew n).
  - left. exists keep. intros l' Hp. destruct (H l' Hp) as (ms & C & S). destruct (autocuts_chain skew choose l' a ms C) as (m & E & L & K).
    rewrite E. f_equal. apply kept_eq; [now rewrite map_length|]. intros i. rewrite K. unfold kept. rewrite nth_error_map.
    destruct (nth_error l' i) as [t|] eqn:Ei; cbn [option_map].
    + rewrite (S i t Ei). split; [intros ->; reflexivity|congruence].
    + split; [|discriminate]. intros G. exfalso. apply K in G. unfold kept in G. apply nth_error_None in Ei. assert (i < List.length m)%nat by (apply nth_error_Some; congruence). rewrite L in H0. lia.
  - right. exists e. intros l' Hp. now apply autocuts_chain_err, H.
Qed.

(** ** the sign of the values matters *)
Lemma negated_keeps_all flat :
  removeoutliers 22 (skew_biased flat) (map Fin [-1; -1; -1; -5]) 20 (5 / 100) = Some [true; true; true; true].
Proof.
  assert (Hm : lmean [-1; -1; -1; -5] = -2) by (unfold lmean, lsum; simpl; lra).
  assert (H2 : moment 2 [-1; -1; -1; -5] = 3).
  { unfold moment. rewrite Hm. unfold lmean, lsum; simpl; lra. }
  assert (H3 : moment 3 [-1; -1; -1; -5] = -6).
  { unfold moment. rewrite Hm. unfold lmean, lsum; simpl; lra. }
  unfold removeoutliers. cbn [map existsb is_bad orb negb is_pinf ro_loop].
  assert (T : too_skew (skew_biased flat) (5/100) [Fin (-1); Fin (-1); Fin (-1); Fin (-5)] [true; true; true; true] = false).
  { unfold too_skew, selected. cbn [mask_select finites flat_map app]. unfold skew_biased.
    rewrite H2, H3, Reqb_false by lra. apply Rltb_false.
    assert (0 < sqrt 3) by (apply sqrt_lt_R0; lra).
    assert (0 < / (3 * sqrt 3)) by (apply Rinv_0_lt_compat; lra). unfold Rdiv at 1. nra. }
  now rewrite T.
Qed.

Lemma polarity_matters flat : exists x m, removeoutliers 22 (skew_biased flat) (map Fin x) 20 (5 / 100) = Some m /\
  removeoutliers 22 (skew_biased flat) (map Fin (map Ropp x)) 20 (5 / 100) = Some (map negb m) /\ x <> [].
Proof.
  destruct (rejects_all flat) as (m & E & H). exists [1; 1; 1; 5], m. split; [exact E|]. split; [|discriminate].
  cbn [map]. rewrite negated_keeps_all. f_equal.
  destruct (removeoutliers_basic (skew_biased flat) (map Fin [1; 1; 1; 5]) 20 (5 / 100) 22 ltac:(simpl; lia)) as (m' & E' & L & _).
  rewrite E in E'. injection E' as <-. cbn [map List.length] in L.
  do 4 (destruct m as [|[] m]; [discriminate| |]; try (exfalso; match goal with H : forall i, ~ kept ?l i |- _ =>
    first [apply (H 0%nat); reflexivity|apply (H 1%nat); reflexivity|apply (H 2%nat); reflexivity|apply (H 3%nat); reflexivity] end)).
  destruct m; [reflexivity|discriminate].
Qed.

(** The array of the caller. *)
Lemma pileupcut_arg_means traces : Forall2 (fun t t' => exists mu, t' = map (fun v => v - mu) t /\ lsum t' = 0 /\ List.length t' = List.length t)
  traces (pileupcut_arg traces true).
Proof.
  unfold pileupcut_arg. induction traces as [|t l IH]; constructor; [|assumption]. exists (lmean t). split; [reflexivity|]. split; [|apply map_length].
  change (fun v => v - lmean t) with (fun v => v - lmean t). destruct t as [|v t]; [reflexivity|]. set (t' := v :: t).
  rewrite (map_ext _ (lin 1 (- lmean t'))) by (intros; unfold lin; ring). rewrite lsum_lin. unfold lmean, t'. field. apply not_0_INR. discriminate.
Qed.

Lemma removeoutliers_fuel_unique skew x maxiter target fuel fuel' m m' :
  removeoutliers fuel skew x maxiter target = Some m -> removeoutliers fuel' skew x maxiter target = Some m' -> m = m'.
Proof.
  unfold removeoutliers. destruct (existsb is_bad x); [congruence|]. generalize 1%Z (map (fun v => negb (is_pinf v)) x). revert fuel'.
  induction fuel as [|fuel IH]; intros [|fuel'] i inds E E'; try discriminate. cbn [ro_loop] in E, E'.
  destruct (too_skew skew target x inds); [|congruence]. destruct (i >? maxiter)%Z; [congruence|]. eapply IH; eassumption.
Qed.
