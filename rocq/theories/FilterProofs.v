(** * Proofs about resampling, filtering and aligning *)
From Verif Require Import Base ListLemmas UtilsModel UtilsSpec UtilsProofs1 UtilsProofs5 FilterModel FilterSpec.
From Coq Require Import Rtrigo1 Znumtheory.
From Coquelicot Require Import Coquelicot.
From Coq Require Import Reals Lra.
Local Open Scope R_scope.

(** ** shift *)

Lemma Int_part_frac x k f : x = IZR k + f -> 0 <= f < 1 -> Int_part x = k.
Proof.
  intros -> Hf. unfold Int_part. symmetry.
  rewrite <- (tech_up (IZR k + f) (k + 1)); [lia| |]; rewrite plus_IZR; lra.
Qed.

Lemma Int_part_IZR k : Int_part (IZR k) = k.
Proof. apply Int_part_frac with 0; lra. Qed.

(** A whole number of bins: the integer shift. *)
Theorem shift_any_whole arr (k : Z) fill : shift_any arr (IZR k) fill = shift arr k fill.
Proof. unfold shift_any. rewrite Int_part_IZR, Reqb_true by reflexivity. reflexivity. Qed.

Lemma shift_any_frac arr k f fill : 0 < f < 1 ->
  shift_any arr (IZR k + f) fill = Ok (ndshift1 arr (IZR k + f) fill).
Proof.
  intros Hf. unfold shift_any. rewrite (Int_part_frac _ k f) by lra.
  rewrite Reqb_false by lra. reflexivity.
Qed.

Lemma ndshift1_nth arr k f fill i : 0 < f < 1 -> (i < length arr)%nat ->
  nth i (ndshift1 arr (IZR k + f) fill) 0 =
  (let j := (Z.of_nat i - k)%Z in
   if ((1 <=? j)%Z && (j <? Z.of_nat (length arr))%Z)%bool
   then (1 - f) * nth (Z.to_nat j) arr 0 + f * nth (Z.to_nat (j - 1)) arr 0 else fill).
Proof.
  intros Hf Hi. unfold ndshift1. rewrite mk_nth by exact Hi. cbv zeta.
  set (j := (Z.of_nat i - k)%Z).
  assert (Hx : INR i - (IZR k + f) = IZR (j - 1) + (1 - f)).
  { unfold j. rewrite INR_IZR_INZ, minus_IZR, minus_IZR. ring. }
  rewrite Hx. rewrite (Int_part_frac (IZR (j - 1) + (1 - f)) (j - 1) (1 - f)) by lra.
  replace (IZR (j - 1) + (1 - f) - IZR (j - 1)) with (1 - f) by ring.
  rewrite (Reqb_false (1 - f) 0) by lra.
  assert (Hn : INR (length arr - 1) = IZR (Z.of_nat (length arr) - 1)).
  { rewrite INR_IZR_INZ. f_equal. lia. }
  rewrite Hn.
  destruct (Z.leb_spec 1 j) as [H1|H1].
  - rewrite (Rleb_true 0) by (assert (0 <= IZR (j - 1)) by (apply IZR_le; lia); lra).
    destruct (Z.ltb_spec j (Z.of_nat (length arr))) as [H2|H2]; cbn [andb].
    + rewrite Rleb_true.
      * replace (S (Z.to_nat (j - 1))) with (Z.to_nat j) by lia. ring.
      * assert (IZR (j - 1) + 1 <= IZR (Z.of_nat (length arr) - 1)).
        { rewrite <- plus_IZR. apply IZR_le. lia. } lra.
    + rewrite Rleb_false; [reflexivity|].
      assert (IZR (Z.of_nat (length arr) - 1) <= IZR (j - 1)) by (apply IZR_le; lia). lra.
  - cbn [andb]. rewrite (Rleb_false 0); [reflexivity|].
    assert (IZR (j - 1) <= -1) by (apply IZR_le; lia). lra.
Qed.

(** A fractional shift is the weighted mean of the two neighbouring whole shifts, except that a
    bin for which one of the two is filled is filled. *)
Theorem shift_any_between arr (k : Z) f fill : 0 < f < 1 ->
  exists out lo hi,
    shift_any arr (IZR k + f) fill = Ok out /\
    shift_any arr (IZR k) fill = Ok lo /\ shift_any arr (IZR (k + 1)) fill = Ok hi /\
    length out = length arr /\
    forall i, (i < length arr)%nat ->
      let src := (Z.of_nat i - k)%Z in
      nth i out 0 = if ((0 <=? src - 1)%Z && (src <? Z.of_nat (length arr))%Z)%bool
                    then (1 - f) * nth i lo 0 + f * nth i hi 0 else fill.
Proof.
  intros Hf. rewrite (shift_any_frac arr k f fill Hf), !shift_any_whole.
  destruct (shift_correct arr k fill) as (lo & -> & Ll & Hlo).
  destruct (shift_correct arr (k + 1) fill) as (hi & -> & Lh & Hhi).
  exists (ndshift1 arr (IZR k + f) fill), lo, hi.
  split; [reflexivity|]. split; [reflexivity|]. split; [reflexivity|].
  split; [unfold ndshift1; apply mk_length|].
  intros i Hi. cbv zeta. rewrite ndshift1_nth by assumption. cbv zeta.
  set (j := (Z.of_nat i - k)%Z).
  replace (0 <=? j - 1)%Z with (1 <=? j)%Z by (destruct (Z.leb_spec 1 j), (Z.leb_spec 0 (j - 1)); lia).
  destruct (Z.leb_spec 1 j) as [H1|H1]; [|reflexivity].
  destruct (Z.ltb_spec j (Z.of_nat (length arr))) as [H2|H2]; [|reflexivity]. cbn [andb].
  destruct (Hlo i Hi) as [Elo _]. destruct (Hhi i Hi) as [Ehi _]. cbv zeta in Elo, Ehi.
  fold j in Elo. replace (Z.of_nat i - (k + 1))%Z with (j - 1)%Z in Ehi by (unfold j; lia).
  specialize (Elo ltac:(lia)). specialize (Ehi ltac:(lia)).
  f_equal; f_equal.
  - rewrite (nth_error_nth' arr 0) in Elo by lia. symmetry. now apply nth_error_nth.
  - rewrite (nth_error_nth' arr 0) in Ehi by lia. symmetry. now apply nth_error_nth.
Qed.

(** Straight lines are moved exactly. *)
Theorem shift_any_line (a b : R) n (k : Z) f fill i : 0 < f < 1 -> (i < n)%nat ->
  (1 <= Z.of_nat i - k < Z.of_nat n)%Z ->
  exists out, shift_any (mk n (fun j => a + b * INR j)) (IZR k + f) fill = Ok out /\
    nth i out 0 = a + b * (INR i - (IZR k + f)).
Proof.
  intros Hf Hi Hr. eexists. split; [apply shift_any_frac; exact Hf|].
  rewrite ndshift1_nth; [|exact Hf|now rewrite mk_length]. cbv zeta. rewrite mk_length.
  destruct (Z.leb_spec 1 (Z.of_nat i - k)) as [H1|H1]; [|lia].
  destruct (Z.ltb_spec (Z.of_nat i - k) (Z.of_nat n)) as [H2|H2]; [|lia]. cbn [andb].
  rewrite !mk_nth by lia. rewrite !INR_IZR_INZ, !Z2Nat.id by lia. rewrite !minus_IZR. ring.
Qed.

(** ** resample_data *)

Lemma resampled_length_bounds n up down : (0 < up)%Z -> (0 < down)%Z ->
  (Z.of_nat n * up <= Z.of_nat (resampled_length n up down) * down < Z.of_nat n * up + down)%Z.
Proof.
  intros Hu Hd. unfold resampled_length. cbv zeta. set (m := (Z.of_nat n * up)%Z).
  assert (0 <= m)%Z by (unfold m; nia).
  assert (Hm := Z.div_mod m down ltac:(lia)). assert (Hb := Z.mod_pos_bound m down Hd).
  assert (0 <= m / down)%Z by (apply Z.div_pos; lia).
  destruct (Z.eqb_spec (m mod down) 0) as [E|E]; rewrite Z2Nat.id by lia; nia.
Qed.

Theorem resample_data_spec poly x fs sg :
  (0 < fs)%Z -> (0 < sg)%Z ->
  exists y fs' up down,
    resample_data poly x (PyInt fs) (PyInt sg) (IZR fs) = Ok (y, fs') /\
    resample_factors (PyInt fs) (PyInt sg) = Ok (up, down) /\ (0 < up)%Z /\ (0 < down)%Z /\
    fs' = IZR fs * IZR up / IZR down /\
    INR (length x) / IZR fs <= INR (length y) / fs' < INR (length x) / IZR fs + 1 / fs' /\
    ((sg | fs)%Z -> y = x /\ fs' = IZR fs).
Proof.
  intros Hf Hs. unfold resample_data, resample_factors. cbn [bind].
  destruct (resample_core fs sg) as [up down] eqn:E.
  destruct (resample_core_facts fs sg up down Hf Hs E) as (Hu & Hd & _ & H11 & _).
  set (y := if (up =? down)%Z then x else _).
  exists y, (IZR fs * IZR up / IZR down), up, down.
  split; [reflexivity|]. split; [reflexivity|]. split; [exact Hu|]. split; [exact Hd|]. split; [reflexivity|].
  assert (HF : 0 < IZR fs) by now apply IZR_lt.
  assert (HU : 0 < IZR up) by now apply IZR_lt.
  assert (HD : 0 < IZR down) by now apply IZR_lt.
  assert (Hlen : (Z.of_nat (length x) * up <= Z.of_nat (length y) * down < Z.of_nat (length x) * up + down)%Z).
  { unfold y. destruct (Z.eqb_spec up down) as [->|Hne]; [lia|]. rewrite mk_length.
    now apply resampled_length_bounds. }
  split.
  - assert (H1 : INR (length x) * IZR up <= INR (length y) * IZR down).
    { rewrite !INR_IZR_INZ, <- !mult_IZR. apply IZR_le. lia. }
    assert (H2 : INR (length y) * IZR down < INR (length x) * IZR up + IZR down).
    { rewrite !INR_IZR_INZ, <- !mult_IZR, <- plus_IZR. apply IZR_lt. lia. }
    assert (E1 : INR (length y) / (IZR fs * IZR up / IZR down) = INR (length y) * IZR down * / (IZR fs * IZR up)).
    { field. lra. }
    assert (E2 : INR (length x) / IZR fs = INR (length x) * IZR up * / (IZR fs * IZR up)).
    { field. lra. }
    assert (E3 : INR (length x) / IZR fs + 1 / (IZR fs * IZR up / IZR down) =
                 (INR (length x) * IZR up + IZR down) * / (IZR fs * IZR up)).
    { field. lra. }
    rewrite E3, E2, E1. assert (0 < / (IZR fs * IZR up)) by (apply Rinv_0_lt_compat; nra).
    split; [apply Rmult_le_compat_r; lra|apply Rmult_lt_compat_r; lra].
  - intros Hdv. destruct (H11 Hdv) as [-> ->]. split; [reflexivity|]. field.
Qed.

Theorem resample_data_rejects poly x fsval n :
  resample_data poly x PyFrac n fsval = Err ValueError /\ resample_data poly x n PyFrac fsval = Err ValueError.
Proof. split; destruct n; reflexivity. Qed.
