(** * Properties of the background-template helpers *)
From Coq Require Import Reals ZArith List Lia Lra Bool Sorted.
From Verif Require Import Base WindowModel FloatModel FloatBridge NsmbTtlModel NsmbTtlProofs1 NsmbTtlProofs2 NsmbTtlProofs3.
Import ListNotations.
Local Open Scope R_scope.

(** ** C56: slope and dc templates *)

(** For every [nbin] up to 2^51 the function raises ValueError or returns two columns of exactly
    [nbin] entries, the slope t/nbin and the constant 1, both with shift nan.  Missing: success for
    every nbin, which is false ([C56_length_refuted]). *)
Theorem C56_templates_partial : forall n, (1 <= n <= 2 ^ 51)%Z ->
  get_slope_dc_template_nsmb n = Err ValueError \/
  exists sl dc, get_slope_dc_template_nsmb n = Ok ([sl; dc], [None; None]) /\
    length sl = Z.to_nat n /\ length dc = Z.to_nat n /\
    forall t, (t < Z.to_nat n)%nat -> nth t sl 0 = INR t / IZR n /\ nth t dc 0 = 1.
Proof.
  intros n Hn. unfold get_slope_dc_template_nsmb. replace (n <? 0)%Z with false by (symmetry; apply Z.ltb_ge; lia).
  destruct (slope_column_spec n Hn) as [[_ E]|[_ E]]; [right|left; now rewrite E].
  rewrite E. cbn [bind]. eexists _, _. split; [reflexivity|].
  split; [now rewrite map_length, seq_length|]. split; [apply repeat_length|].
  intros t Ht. split; [exact (slope_column_value n _ Hn E t Ht)|]. now apply nth_repeat_lt.
Qed.
Print Assumptions C56_templates_partial.

(** It succeeds for all lengths up to 48 and for all powers of two. *)
Theorem C56_succeeds_partial : forall n, (1 <= n <= 48)%Z \/ (exists k, (k <= 51)%nat /\ n = (2 ^ Z.of_nat k)%Z) ->
  exists r, get_slope_dc_template_nsmb n = Ok r.
Proof.
  intros n H.
  assert (A : (1 <= n <= 2 ^ 51)%Z /\ arange01_len n = Some n).
  { destruct H as [H|[k [Hk ->]]]; [split; [lia|now apply arange01_small]|]. split; [|now apply arange01_pow2].
    split; [assert (0 < 2 ^ Z.of_nat k)%Z by (apply Z.pow_pos_nonneg; lia); lia|apply Z.pow_le_mono_r; lia]. }
  destruct A as [Hn HA]. unfold get_slope_dc_template_nsmb. replace (n <? 0)%Z with false by (symmetry; apply Z.ltb_ge; lia).
  destruct (slope_column_spec n Hn) as [[_ E]|[E _]]; [rewrite E; cbn [bind]; eauto|]. rewrite HA in E. injection E. lia.
Qed.
Print Assumptions C56_succeeds_partial.

(** 49 bins, and 49 times any power of two: ValueError. *)
Theorem C56_length_refuted : forall k, (k <= 45)%nat -> get_slope_dc_template_nsmb (49 * 2 ^ Z.of_nat k) = Err ValueError.
Proof.
  intros k Hk. set (n := (49 * 2 ^ Z.of_nat k)%Z).
  assert (P : (1 <= 2 ^ Z.of_nat k)%Z) by (assert (0 < 2 ^ Z.of_nat k)%Z by (apply Z.pow_pos_nonneg; lia); lia).
  assert (P2 : (2 ^ Z.of_nat k <= 2 ^ 45)%Z) by (apply Z.pow_le_mono_r; lia).
  assert (P3 : (49 * 2 ^ 45 <= 2 ^ 51)%Z) by (vm_compute; discriminate).
  unfold get_slope_dc_template_nsmb. replace (n <? 0)%Z with false by (symmetry; apply Z.ltb_ge; unfold n; lia).
  destruct (slope_column_spec n ltac:(unfold n; lia)) as [[E _]|[_ E]]; [|now rewrite E].
  unfold n in E at 1. rewrite arange01_49 in E by assumption. fold n in E. injection E. lia.
Qed.
Print Assumptions C56_length_refuted.
(** No bins, or a negative number of bins. *)
Theorem C56_rejects : get_slope_dc_template_nsmb 0 = Err ZeroDivisionError /\
  forall n, (n < 0)%Z -> get_slope_dc_template_nsmb n = Err ValueError.
Proof.
  split; [reflexivity|]. intros n Hn. unfold get_slope_dc_template_nsmb.
  now replace (n <? 0)%Z with true by (symmetry; now apply Z.ltb_lt).
Qed.
Print Assumptions C56_rejects.
Example C56_ex : exists r, get_slope_dc_template_nsmb 32768 = Ok r.
Proof. apply C56_succeeds_partial. right. exists 15%nat. split; [lia|reflexivity]. Qed.
Example C56_ex49 : get_slope_dc_template_nsmb 49 = Err ValueError.
Proof. apply (C56_length_refuted 0). lia. Qed.

(** ** C57: templates and window of the periodic triggers *)

(** Integer sample rate and trigger rate.  Trigger [i] is the nearest bin to i*fs/rate; the first
    template is rolled back by half the span of the triggers, the others are delayed copies filled up
    with zeros; the window is exactly the complement of the notches, taken modulo the length. *)
Theorem C57_ttl_partial : forall template fs rate con pos notch out,
  let n := Z.of_nat (length template) in
  (1 <= n <= 2 ^ 23)%Z -> (1 <= fs <= 2 ^ 24)%Z -> (1 <= rate <= 2 ^ 24)%Z ->
  maketemplate_ttlfit_nsmb template (fl fs) (fl rate) con pos notch = Ok out ->
  exists (count : nat) (k : Z) (shift : nat -> Z),
    (Z.of_nat count = n * rate / fs \/ ((n * rate) mod fs = 0 /\ Z.of_nat count = n * rate / fs - 1))%Z /\
    ((0 < count)%nat -> (k <= 0 /\ 2 * rate * - k <= Z.of_nat count * fs <= 2 * rate * (- k + 1))%Z) /\
    (forall i, (i < count)%nat -> (2 * Z.abs (rate * shift i - Z.of_nat i * fs) <= rate)%Z) /\
    length (t_templates out) = (count + 2)%nat /\
    t_shifts out = map (fun i => IZR (shift i)) (seq 0 count) ++ [0; 0] /\
    t_polarity out = repeat (if con then (if pos then 1 else -1) else 0) count ++ [0; 0] /\
    (forall c, In c (t_templates out) -> length c = length template) /\
    (forall i t, (i < count)%nat -> (t < length template)%nat ->
       nth t (nth i (t_templates out) []) 0 =
       if (Z.of_nat t <? shift i)%Z then 0
       else nth (Z.to_nat ((Z.of_nat t - shift i - k) mod n)) template 0) /\
    (forall t, (t < length template)%nat ->
       nth t (nth count (t_templates out) []) 0 = INR t / IZR n /\
       nth t (nth (count + 1) (t_templates out) []) 0 = 1) /\
    StronglySorted Z.lt (t_window out) /\
    (forall j, In j (t_window out) <-> (0 <= j < n)%Z /\
       forall i r, (i < count)%nat -> (Z.abs (r - shift i) <= notch)%Z -> (r mod n <> j)%Z).
Proof.
  intros template fs rate con pos notch out n Hn Hf Hr H.
  assert (Hne : template <> []) by (intros ->; cbn in n; lia).
  destruct (ttl_correct _ _ _ _ _ _ _ Hne H) as (count & k & shift & EC & EK & ES & L & TS & TP & TL & T0 & TI & TS1 & TD & WS & WI).
  fold n in EC, T0, TS1, WI.
  destruct (count_bound fs rate Hf Hr n ltac:(lia)) as [c [EC' HC]]. rewrite EC in EC'. injection EC' as <-.
  assert (NZ : (0 <= n * rate / fs)%Z) by (apply Z.div_pos; nia).
  assert (S1 : (1 < count)%nat -> (rate <= 2 * fs)%Z).
  { intros H1. destruct (TI 1%nat ltac:(lia)) as [P _]. destruct (shift_nearest fs rate Hf Hr 1 ltac:(lia)) as [z [Ez Bz]].
    rewrite (ES 1%nat H1) in Ez. injection Ez as <-. change (Z.of_nat 1) with 1%Z in Bz. nia. }
  assert (CB : (Z.of_nat count <= 2 ^ 24)%Z).
  { destruct (Nat.le_gt_cases count 1); [lia|]. specialize (S1 ltac:(lia)).
    assert (n * rate / fs <= 2 * n)%Z by (apply Z.div_le_upper_bound; nia). lia. }
  assert (SN : forall i, (i < count)%nat -> (2 * Z.abs (rate * shift i - Z.of_nat i * fs) <= rate)%Z).
  { intros i Hi. destruct (shift_nearest fs rate Hf Hr i ltac:(lia)) as [z [Ez Bz]]. rewrite (ES i Hi) in Ez. injection Ez as <-. exact Bz. }
  exists count, k, shift. split; [exact HC|].
  split; [intros _; destruct (roll_bound fs rate Hf Hr (Z.of_nat count) ltac:(lia)) as [k' [Ek B]]; rewrite EK in Ek; injection Ek as <-; exact B|].
  split; [exact SN|]. split; [exact L|]. split; [exact TS|]. split; [exact TP|]. split; [exact TL|].
  split.
  { intros i t Hi Ht. assert (T0' := T0 ltac:(lia)). destruct i as [|i].
    - rewrite T0' by exact Ht. specialize (SN 0%nat Hi). change (Z.of_nat 0) with 0%Z in SN. assert (shift 0%nat = 0)%Z by nia. rewrite H0.
      replace (Z.of_nat t <? 0)%Z with false by (symmetry; apply Z.ltb_ge; lia). do 2 f_equal. f_equal. lia.
    - destruct (TI (S i) ltac:(lia)) as [P TIi]. rewrite TIi by exact Ht.
      destruct (Z.ltb_spec (Z.of_nat t) (shift (S i))); [reflexivity|]. rewrite T0' by lia. do 2 f_equal. f_equal. lia. }
  split; [intros t Ht; split; [apply TS1; [lia|exact Ht]|now apply TD]|].
  split; [exact WS|exact WI].
Qed.
Print Assumptions C57_ttl_partial.

(** It succeeds if the slope template exists, triggers are at least half a bin apart and every notch
    ends inside the trace. *)
Theorem C57_succeeds_partial : forall template fs rate con pos notch,
  let n := Z.of_nat (length template) in
  (1 <= n <= 2 ^ 23)%Z -> (1 <= fs <= 2 ^ 24)%Z -> (1 <= rate < 2 * fs)%Z -> (rate <= 2 ^ 24)%Z -> (0 <= notch)%Z ->
  (exists r, get_slope_dc_template_nsmb n = Ok r) ->
  (2 * fs * (n * rate / fs - 1) + rate + 2 * rate * notch < 2 * rate * n)%Z -> (notch < n)%Z ->
  exists out, maketemplate_ttlfit_nsmb template (fl fs) (fl rate) con pos notch = Ok out.
Proof.
  intros template fs rate con pos notch n Hn Hf Hr Hr2 H0 [r Hs] HW HN.
  assert (Hne : template <> []) by (intros ->; cbn in n; lia).
  destruct (count_bound fs rate Hf ltac:(lia) n ltac:(lia)) as [c [EC HC]].
  assert (NZ : (0 <= n * rate / fs)%Z) by (apply Z.div_pos; nia).
  assert (C0 : (0 <= c)%Z).
  { destruct HC as [->|[HM ->]]; [exact NZ|]. assert (0 < n * rate / fs)%Z; [|lia].
    apply Z.mod_divide in HM; [|lia]. destruct HM as [q Hq]. rewrite Hq, Z.div_mul by lia. nia. }
  assert (CB : (c <= n * rate / fs)%Z) by lia. assert (DB : (n * rate / fs <= 2 * n)%Z) by (apply Z.div_le_upper_bound; nia).
  set (shift := fun i => match ttl_shift (fl fs) (fl rate) i with Some z => z | None => 0%Z end).
  assert (SH : forall i, (i < Z.to_nat c)%nat -> ttl_shift (fl fs) (fl rate) i = Some (shift i) /\ (2 * Z.abs (rate * shift i - Z.of_nat i * fs) <= rate)%Z).
  { intros i Hi. destruct (shift_nearest fs rate Hf ltac:(lia) i ltac:(lia)) as [z [Ez Bz]]. unfold shift. rewrite Ez. now split. }
  apply (ttl_ok template (fl fs) (fl rate) con pos notch (Z.to_nat c) shift Hne).
  - fold n. split; [|split; [|split; [|split]]].
    + destruct (SFeqb (fl rate) (fl 0)) eqn:E; [exfalso|reflexivity]. revert E. apply fl_nonzero. lia.
    + destruct (SFeqb (fl fs) (fl 0)) eqn:E; [exfalso|reflexivity]. revert E. apply fl_nonzero. lia.
    + rewrite Z2Nat.id by exact C0. exact EC.
    + rewrite Z2Nat.id by exact C0. destruct (roll_bound fs rate Hf ltac:(lia) c ltac:(lia)) as [k [Ek _]]. now exists k.
    + intros i Hi. now apply SH.
  - fold n. unfold get_slope_dc_template_nsmb in Hs. destruct (n <? 0)%Z; [discriminate|].
    destruct (slope_column n) as [sl|]; [now exists sl|discriminate].
  - intros i Hi. destruct (SH i ltac:(lia)) as [_ B]. nia.
  - fold n. intros i Hi. destruct (SH i Hi) as [_ B]. split.
    + assert (0 <= shift i)%Z by nia. lia.
    + assert (rate * shift i <= Z.of_nat i * fs + rate / 2)%Z by (assert (2 * (rate / 2) <= rate)%Z by (apply Z.mul_div_le; lia); assert (rate < 2 * (rate / 2) + 2)%Z by (pose proof (Z.mod_pos_bound rate 2 ltac:(lia)); pose proof (Z.div_mod rate 2 ltac:(lia)); lia); lia).
      assert (2 * (rate / 2) <= rate)%Z by (apply Z.mul_div_le; lia).
      assert (Z.of_nat i * fs <= (n * rate / fs - 1) * fs)%Z by (apply Z.mul_le_mono_nonneg_r; lia). nia.
Qed.
Print Assumptions C57_succeeds_partial.
Example C57_ex : exists out, maketemplate_ttlfit_nsmb [0; 0; 0; 0; 5; 2; 1; 0] (fl 8) (fl 2) true false 1 = Ok out /\
  t_shifts out = [0; 4; 0; 0] /\ t_polarity out = [-1; -1; 0; 0] /\ length (t_templates out) = 4%nat /\
  forall j, In j (t_window out) <-> (j = 2 \/ j = 6)%Z.
Proof.
  destruct (C57_succeeds_partial [0; 0; 0; 0; 5; 2; 1; 0] 8 2 true false 1) as [out E]; cbn [length]; try lia.
  - apply C56_succeeds_partial. left. cbn. lia.
  - change (Z.of_nat 8) with 8%Z. reflexivity.
  - exists out. split; [exact E|].
    assert (Hne : [0; 0; 0; 0; 5; 2; 1; 0] <> []) by (intros X; clear E; discriminate X).
    destruct (ttl_correct _ _ _ _ _ _ _ Hne E) as (c & k & shift & EC & _ & ES & L & TS & TP & _ & _ & _ & _ & _ & _ & WI).
    assert (EC' : ttl_count (Z.of_nat 8) (fl 8) (fl 2) = Some 2%Z) by (vm_compute; reflexivity).
    cbn [length] in EC. rewrite EC' in EC. injection EC as EC. assert (c = 2%nat) by lia. subst c.
    assert (S0 : shift 0%nat = 0%Z) by (assert (X := ES 0%nat ltac:(lia)); assert (Y : ttl_shift (fl 8) (fl 2) 0 = Some 0%Z) by (vm_compute; reflexivity); congruence).
    assert (S1 : shift 1%nat = 4%Z) by (assert (X := ES 1%nat ltac:(lia)); assert (Y : ttl_shift (fl 8) (fl 2) 1 = Some 4%Z) by (vm_compute; reflexivity); congruence).
    rewrite TS, TP, L. cbn [seq map app repeat]. rewrite S0, S1. split; [reflexivity|]. split; [reflexivity|]. split; [reflexivity|].
    intros j. rewrite WI. cbn [length]. change (Z.of_nat 8) with 8%Z. split.
    + intros [Hj A]. assert (X : forall r, (-1 <= r <= 1)%Z -> (r mod 8 <> j)%Z) by (intros r Hr; apply (A 0%nat r); [lia|rewrite S0; lia]).
      assert (Y : forall r, (3 <= r <= 5)%Z -> (r mod 8 <> j)%Z) by (intros r Hr; apply (A 1%nat r); [lia|rewrite S1; lia]).
      assert (X1 := X (-1)%Z ltac:(lia)). assert (X2 := X 0%Z ltac:(lia)). assert (X3 := X 1%Z ltac:(lia)).
      assert (Y1 := Y 3%Z ltac:(lia)). assert (Y2 := Y 4%Z ltac:(lia)). assert (Y3 := Y 5%Z ltac:(lia)). cbn in X1, X2, X3, Y1, Y2, Y3. lia.
    + intros Hj. split; [lia|]. intros i r Hi Hr He.
      assert (r mod 8 = r + 8 * (if (r <? 0)%Z then 1 else 0))%Z.
      { symmetry. apply (Z.mod_unique_pos _ _ (if (r <? 0)%Z then -1 else 0)); destruct i as [|[|i]]; try lia; rewrite ?S0, ?S1 in Hr; destruct (Z.ltb_spec r 0); lia. }
      destruct i as [|[|i]]; try lia; rewrite ?S0, ?S1 in Hr; destruct (Z.ltb_spec r 0); lia.
Qed.

(** A notch reaching past the end of the trace is not wrapped: IndexError, for every template of
    eight bins with triggers at 0 and 4 and a notch of four bins. *)
Theorem C57_notch_refuted : forall template con pos, length template = 8%nat ->
  maketemplate_ttlfit_nsmb template (fl 8) (fl 2) con pos 4 = Err IndexError.
Proof.
  intros template con pos HL. assert (Hne : template <> []) by (intros ->; discriminate).
  apply (ttl_notch_err template (fl 8) (fl 2) con pos 4 2 (fun i => (4 * Z.of_nat i)%Z) 1); rewrite ?HL; try lia; auto.
  - split; [reflexivity|]. split; [reflexivity|]. split; [vm_compute; reflexivity|]. split; [eexists; vm_compute; reflexivity|].
    intros [|[|i]] Hi; [vm_compute; reflexivity|vm_compute; reflexivity|lia].
  - destruct (C56_succeeds_partial 8 ltac:(left; lia)) as [r H]. unfold get_slope_dc_template_nsmb in H. cbn [Z.ltb Z.compare] in H.
    change (Z.of_nat 8) with 8%Z. destruct (slope_column 8) as [sl|]; [now exists sl|discriminate].
Qed.
Print Assumptions C57_notch_refuted.
(** Triggers less than half a bin apart: ValueError. *)
Theorem C57_dense_refuted : forall template con pos notch, length template = 8%nat ->
  maketemplate_ttlfit_nsmb template (fl 1) (fl 4) con pos notch = Err ValueError.
Proof.
  intros template con pos notch HL. assert (Hne : template <> []) by (intros ->; discriminate).
  apply (ttl_zero_shift template (fl 1) (fl 4) con pos notch 32 (fun i => match ttl_shift (fl 1) (fl 4) i with Some z => z | None => 0%Z end) 1); rewrite ?HL; try lia; auto.
  - split; [reflexivity|]. split; [reflexivity|]. split; [vm_compute; reflexivity|]. split; [eexists; vm_compute; reflexivity|].
    intros i Hi. destruct (shift_nearest 1 4 ltac:(lia) ltac:(lia) i ltac:(lia)) as [z [-> _]]. reflexivity.
  - vm_compute. discriminate.
Qed.
Print Assumptions C57_dense_refuted.

(** A rate of zero, and negative rates: an exception, never an empty result. *)
Theorem C57_rejects : forall template con pos notch,
  (forall fs, maketemplate_ttlfit_nsmb template fs (fl 0) con pos notch = Err ZeroDivisionError) /\
  (forall k, (1 <= k <= 1024)%Z -> maketemplate_ttlfit_nsmb template (fl 0) (fl k) con pos notch = Err ZeroDivisionError) /\
  (length template = 8%nat -> maketemplate_ttlfit_nsmb template (fl 8) (fl (-1)) con pos notch = Err IndexError /\
     maketemplate_ttlfit_nsmb template (fl 8) (fl (-2)) con pos notch = Err IndexError /\
     maketemplate_ttlfit_nsmb template (fl 8) (fl (-4)) con pos notch = Err ValueError).
Proof.
  intros template con pos notch. split; [reflexivity|]. split.
  - intros k Hk. unfold maketemplate_ttlfit_nsmb.
    assert (A : forallb (fun k => negb (SFeqb (fl (Z.of_nat k)) (fl 0))) (seq 1 1024) = true) by (vm_compute; reflexivity).
    rewrite forallb_forall in A. specialize (A (Z.to_nat k) ltac:(apply in_seq; lia)). rewrite Z2Nat.id in A by lia.
    apply negb_true_iff in A. rewrite A. reflexivity.
  - intros L. unfold maketemplate_ttlfit_nsmb. rewrite L. repeat split; vm_compute; reflexivity.
Qed.
Print Assumptions C57_rejects.

(** ** C90: number of triggers *)

(** The number of triggers is floor(n*rate/fs), or one less if the length is a whole number of periods. *)
Theorem C90_count_partial : forall template fs rate con pos notch out,
  let n := Z.of_nat (length template) in
  (1 <= n <= 2 ^ 23)%Z -> (1 <= fs <= 2 ^ 24)%Z -> (1 <= rate <= 2 ^ 24)%Z ->
  maketemplate_ttlfit_nsmb template (fl fs) (fl rate) con pos notch = Ok out ->
  let count := (Z.of_nat (length (t_templates out)) - 2)%Z in
  (count = n * rate / fs \/ ((n * rate) mod fs = 0 /\ count = n * rate / fs - 1))%Z /\
  length (t_shifts out) = length (t_templates out) /\ length (t_polarity out) = length (t_templates out).
Proof.
  intros template fs rate con pos notch out n Hn Hf Hr H count.
  destruct (C57_ttl_partial template fs rate con pos notch out Hn Hf Hr H) as (c & k & shift & HC & _ & _ & L & TS & TP & _).
  fold n in HC. unfold count. rewrite L, TS, TP, !app_length, map_length, seq_length, repeat_length. cbn [length].
  split; [|split; reflexivity]. replace (Z.of_nat (c + 2) - 2)%Z with (Z.of_nat c) by lia. exact HC.
Qed.
Print Assumptions C90_count_partial.
(** One trigger is lost: six bins at 10 Hz hold three triggers of 5 Hz (bins 0, 2 and 4), only two
    get a template. *)
Theorem C90_count_refuted : forall template con pos, length template = 6%nat ->
  exists out, maketemplate_ttlfit_nsmb template (fl 10) (fl 5) con pos 0 = Ok out /\
    t_shifts out = [0; 2; 0; 0] /\ (6 * 5 / 10 = 3)%Z.
Proof.
  intros template con pos HL. assert (Hne : template <> []) by (intros ->; discriminate).
  assert (N : ttl_nums (Z.of_nat 6) (fl 10) (fl 5) 2 (fun i => (2 * Z.of_nat i)%Z)).
  { split; [reflexivity|]. split; [reflexivity|]. split; [vm_compute; reflexivity|]. split; [eexists; vm_compute; reflexivity|].
    intros [|[|i]] Hi; [vm_compute; reflexivity|vm_compute; reflexivity|lia]. }
  destruct (ttl_ok template (fl 10) (fl 5) con pos 0 2 (fun i => (2 * Z.of_nat i)%Z) Hne) as [out E].
  - rewrite HL. exact N.
  - rewrite HL. destruct (C56_succeeds_partial 6 ltac:(left; lia)) as [r H]. unfold get_slope_dc_template_nsmb in H. cbn [Z.ltb Z.compare] in H.
    change (Z.of_nat 6) with 6%Z. destruct (slope_column 6) as [sl|]; [now exists sl|discriminate].
  - intros i Hi. lia.
  - rewrite HL. intros i Hi. lia.
  - exists out. split; [exact E|]. split; [|reflexivity].
    destruct (ttl_correct _ _ _ _ _ _ _ Hne E) as (c & k & shift & EC & _ & ES & _ & TS & _). rewrite HL in EC.
    destruct N as [_ [_ [EC' [_ ES']]]]. rewrite EC in EC'. injection EC' as EC'. assert (c = 2%nat) by lia. subst c. rewrite TS. cbn [seq map app].
    assert (S0 := ES 0%nat ltac:(lia)). rewrite (ES' 0%nat ltac:(lia)) in S0. injection S0 as <-.
    assert (S1 := ES 1%nat ltac:(lia)). rewrite (ES' 1%nat ltac:(lia)) in S1. injection S1 as <-. reflexivity.
Qed.
Print Assumptions C90_count_refuted.
Example C90_ex : exists out, maketemplate_ttlfit_nsmb [0; 0; 0; 0; 5; 2; 1; 0] (fl 8) (fl 2) true false 1 = Ok out /\ length (t_templates out) = 4%nat.
Proof. destruct C57_ex as [out [E [_ [_ [L _]]]]]. exists out. split; [exact E|exact L]. Qed.

(** ** C91: shifts of the slope and dc templates *)

(** Documented as nan and returned as nan by [get_slope_dc_template_nsmb] ([C56_templates_partial]),
    but 0 here, the shift of the first trigger. *)
Theorem C91_nan_refuted : forall template fs rate con pos notch out, template <> [] ->
  maketemplate_ttlfit_nsmb template fs rate con pos notch = Ok out ->
  (2 <= length (t_shifts out))%nat /\
  nth (length (t_shifts out) - 2) (t_shifts out) 1 = 0 /\ nth (length (t_shifts out) - 1) (t_shifts out) 1 = 0.
Proof.
  intros template fs rate con pos notch out Hne H.
  destruct (ttl_correct _ _ _ _ _ _ _ Hne H) as (c & k & shift & _ & _ & _ & _ & TS & _). rewrite TS.
  rewrite app_length, map_length, seq_length. cbn [length]. split; [lia|].
  rewrite !app_nth2 by (rewrite map_length, seq_length; lia). rewrite map_length, seq_length.
  replace (c + 2 - 2 - c)%nat with 0%nat by lia. replace (c + 2 - 1 - c)%nat with 1%nat by lia. split; reflexivity.
Qed.
Print Assumptions C91_nan_refuted.
Example C91_ex : exists out, maketemplate_ttlfit_nsmb [0; 0; 0; 0; 5; 2; 1; 0] (fl 8) (fl 2) true false 1 = Ok out /\ t_shifts out = [0; 4; 0; 0].
Proof. destruct C57_ex as [out [E [S _]]]. exists out. split; [exact E|exact S]. Qed.
