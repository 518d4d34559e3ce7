(** * Sharper statements about the utils functions *)
From Verif Require Import Base ListLemmas UtilsModel UtilsSpec UtilsProofs1 UtilsProofs2 UtilsProofs3.
From Coq Require Import Znumtheory.
Local Open Scope R_scope.

(** ** resample_factors *)

Lemma fold_mul_squarefree l :
  NoDup l -> (forall x, In x l -> prime x) ->
  forall r, prime r -> ~ (r * r | fold_left Z.mul l 1)%Z.
Proof.
  induction l as [|a l IH]; intros Hnd Hp r Hr; cbn [fold_left].
  - intros H. apply Z.divide_1_r_nonneg in H; [|nia]. apply prime_ge_2 in Hr. nia.
  - rewrite fold_mul_scal. rewrite Z.mul_1_l.
    inversion Hnd as [|x y Hna Hnd']; subst.
    assert (Hpa : prime a) by (apply Hp; now left).
    assert (IH' := IH Hnd' (fun x Hx => Hp x (or_intror Hx)) r Hr).
    assert (Hr2 := prime_ge_2 r Hr).
    intros H. destruct (Z.eq_dec r a) as [->|Hne].
    + assert (Hd : (a | fold_left Z.mul l 1)%Z).
      { destruct H as [z Hz]. exists z.
        apply Z.mul_reg_l with a; [lia|]. rewrite Hz. ring. }
      assert (G : forall l, (forall x, In x l -> prime x) -> (a | fold_left Z.mul l 1)%Z -> In a l).
      { clear - Hpa. induction l as [|b l IH]; intros Hp Hd; cbn [fold_left] in Hd.
        - apply Z.divide_1_r_nonneg in Hd; apply prime_ge_2 in Hpa; lia.
        - rewrite fold_mul_scal, Z.mul_1_l in Hd. apply prime_mult in Hd; [|exact Hpa].
          destruct Hd as [Hd|Hd].
          + left. symmetry. apply prime_div_prime; auto. apply Hp. now left.
          + right. apply IH; auto. intros; apply Hp; now right. }
      apply Hna. apply G; [|exact Hd]. intros; apply Hp; now right.
    + apply IH'. apply Gauss with a; [exact H|].
      assert (Hra : rel_prime r a).
      { apply prime_rel_prime; [exact Hr|]. intros Hd. apply Hne. apply prime_div_prime; auto. }
      apply rel_prime_sym. apply rel_prime_mult; now apply rel_prime_sym.
Qed.

Lemma round_closest dn m :
  (0 < dn)%Z -> (2 <= m)%Z ->
  let up := (round_div dn m * m)%Z in
  let up := if (up =? 0)%Z then (ceil_div dn m * m)%Z else up in
  closest_multiple m dn up.
Proof.
  intros Hd Hm. cbv zeta.
  assert (Hmod := Z.mod_pos_bound dn m ltac:(lia)).
  assert (Hdm := Z.div_mod dn m ltac:(lia)).
  assert (Hq : (0 <= dn / m)%Z) by (apply Z.div_pos; lia).
  assert (Hcase : exists u,
    (if (round_div dn m * m =? 0)%Z then (ceil_div dn m * m)%Z else (round_div dn m * m)%Z) = (u * m)%Z /\
    (0 < u)%Z /\
    (((2 * (dn mod m) < m)%Z /\ (0 < dn / m)%Z /\ u = (dn / m)%Z) \/
     ((m < 2 * (dn mod m))%Z /\ u = (dn / m + 1)%Z) \/
     ((2 * (dn mod m) = m)%Z /\ (0 < dn / m)%Z /\ Z.even (dn / m) = true /\ u = (dn / m)%Z) \/
     ((2 * (dn mod m) = m)%Z /\ Z.even (dn / m) = false /\ u = (dn / m + 1)%Z) \/
     ((2 * (dn mod m) <= m)%Z /\ (dn / m = 0)%Z /\ u = 1%Z))).
  { assert (Hceil : (dn / m = 0)%Z -> ceil_div dn m = 1%Z).
    { intros E. unfold ceil_div. rewrite E in Hdm.
      replace (- dn / m)%Z with (-1)%Z; [reflexivity|].
      apply Z.div_unique with (m - dn)%Z; [left; lia|ring_simplify; lia]. }
    unfold round_div.
    set (q := (dn / m)%Z) in *. set (r := (dn mod m)%Z) in *. clearbody q r.
    assert (Hq0 : (q * m = 0 -> q = 0)%Z) by nia.
    destruct (Z.ltb_spec (2 * r) m) as [H1|H1].
    - destruct (Z.eqb_spec (q * m) 0) as [E|E].
      + exists 1%Z. rewrite Hceil by auto. split; [reflexivity|]. split; [lia|].
        right; right; right; right. repeat split; auto; lia.
      + exists q. split; [reflexivity|]. assert (0 < q)%Z by (assert (q <> 0)%Z by (intros ->; apply E; ring); lia). split; [lia|]. left. auto.
    - destruct (Z.ltb_spec m (2 * r)) as [H2|H2].
      + destruct (Z.eqb_spec ((q + 1) * m) 0) as [E|E]; [nia|].
        exists (q + 1)%Z. split; [reflexivity|]. split; [lia|]. right; left. auto.
      + destruct (Z.even q) eqn:Ev.
        * destruct (Z.eqb_spec (q * m) 0) as [E|E].
          -- exists 1%Z. rewrite Hceil by auto. split; [reflexivity|]. split; [lia|].
             right; right; right; right. repeat split; auto; lia.
          -- exists q. split; [reflexivity|]. assert (0 < q)%Z by (assert (q <> 0)%Z by (intros ->; apply E; ring); lia). split; [lia|]. right; right; left.
             repeat split; auto; lia.
        * destruct (Z.eqb_spec ((q + 1) * m) 0) as [E|E]; [nia|].
          exists (q + 1)%Z. split; [reflexivity|]. split; [lia|].
          right; right; right; left. repeat split; auto. lia. }
  destruct Hcase as (u & -> & Hu & Hc).
  set (q := (dn / m)%Z) in *. set (r := (dn mod m)%Z) in *.
  assert (Habs : forall j, Z.abs (j * m - dn) = Z.abs ((j - q) * m - r)) by (intros; f_equal; nia).
  split; [exists u; reflexivity|]. split; [nia|]. split.
  - intros k [j ->] Hk. assert (0 < j)%Z by nia. rewrite !Habs.
    assert (Hj : (j <= q \/ q + 1 <= j)%Z) by lia.
    destruct Hc as [(?&?&->)|[(?&->)|[(?&?&?&->)|[(?&?&->)|(?&E0&->)]]]];
      destruct Hj; try nia.
  - intros k [j ->] Hk Hne. assert (0 < j)%Z by nia. assert (j <> u) by (intros ->; now apply Hne).
    rewrite !Habs. intros E.
    assert (Hj : (j < q \/ j = q \/ j = q + 1 \/ q + 1 < j)%Z) by lia.
    destruct Hc as [(?&?&->)|[(?&->)|[(?&?&Ev&->)|[(?&Ev&->)|(?&E0&->)]]]].
    + exfalso. destruct Hj as [?|[?|[?|?]]]; nia.
    + exfalso. destruct Hj as [?|[?|[?|?]]]; nia.
    + apply Z.even_spec in Ev. destruct Ev as [w ->]. exists w. ring.
    + destruct (Z.Even_or_Odd (q + 1)) as [[w ->]|[w Hw]]; [exists w; ring|].
      exfalso. assert (Z.even q = true) by (apply Z.even_spec; exists w; lia). congruence.
    + exfalso. destruct Hj as [?|[?|[?|?]]]; nia.
Qed.

Theorem resample_factors_exact fs sg up down :
  (0 < fs)%Z -> (0 < sg)%Z -> ~ (sg | fs)%Z ->
  resample_factors (PyInt fs) (PyInt sg) = Ok (up, down) ->
  is_radical (fs / Z.gcd fs sg) down /\
  exists m, smallest_prime_factor (sg / Z.gcd fs sg) m /\ closest_multiple m down up.
Proof.
  intros Hf Hs Hnd [= E].
  destruct (resample_core_facts fs sg up down Hf Hs E) as (Hup & Hdn & Hdiv & _ & Hpr).
  destruct (Hpr Hnd) as [_ Hrad].
  assert (Hg : (0 < Z.gcd fs sg)%Z).
  { assert (0 <= Z.gcd fs sg)%Z by apply Z.gcd_nonneg.
    assert (Z.gcd fs sg <> 0%Z) by (intros E'; apply Z.gcd_eq_0 in E'; lia). lia. }
  assert (Hp : (0 < fs / Z.gcd fs sg)%Z).
  { destruct (Z.gcd_divide_l fs sg) as [a Ha]. rewrite Ha at 1. rewrite Z.div_mul by lia. nia. }
  assert (Hq : (0 < sg / Z.gcd fs sg)%Z).
  { destruct (Z.gcd_divide_r fs sg) as [a Ha]. rewrite Ha at 1. rewrite Z.div_mul by lia. nia. }
  unfold resample_core in E.
  destruct (prime_factors (sg / Z.gcd fs sg)) as [|d0 ds] eqn:Eden.
  - exfalso. apply Hnd.
    assert (Hq1 : (sg / Z.gcd fs sg = 1)%Z).
    { destruct (Z.eq_dec (sg / Z.gcd fs sg) 1) as [|Hne]; [assumption|].
      exfalso. destruct (prime_divisor_exists (sg / Z.gcd fs sg)) as [r [Hr1 Hr2]]; [lia|].
      assert (Hin : In r (prime_factors (sg / Z.gcd fs sg))) by (apply prime_factors_In; auto).
      rewrite Eden in Hin. exact Hin. }
    destruct (Z.gcd_divide_r fs sg) as [a Ha]. rewrite Ha in Hq1 at 1.
    rewrite Z.div_mul in Hq1 by lia. rewrite Hq1 in Ha. rewrite Ha at 1.
    rewrite Z.mul_1_l. apply Z.gcd_divide_l.
  - cbv zeta in E. injection E as Eup0 Edown0.
    assert (Hdown : down = fold_left Z.mul (prime_factors (fs / Z.gcd fs sg)) 1%Z) by now symmetry.
    assert (Eup : (let up := (round_div down (zmin_list d0 ds) * zmin_list d0 ds)%Z in
       if (up =? 0)%Z then (ceil_div down (zmin_list d0 ds) * zmin_list d0 ds)%Z else up) = up)
      by (cbv zeta; rewrite Hdown; exact Eup0).
    assert (Hmin : prime (zmin_list d0 ds) /\ (zmin_list d0 ds | sg / Z.gcd fs sg)%Z).
    { apply prime_factors_In; [lia|]. rewrite Eden. apply zmin_list_In. }
    split.
    + split; [exact Hdn|]. split; [exact Hrad|]. rewrite Hdown. apply fold_mul_squarefree.
      * apply NoDup_prime_factors.
      * intros x Hx. now apply prime_factors_In in Hx.
    + exists (zmin_list d0 ds). split.
      * split; [tauto|]. split; [tauto|]. intros r Hr Hd. apply zmin_list_le. rewrite <- Eden.
        apply prime_factors_In; auto.
      * rewrite <- Eup. apply round_closest; [exact Hdn|]. destruct Hmin as [Hm _].
        apply prime_ge_2 in Hm. lia.
Qed.

(** ** calc_offset *)

Lemma calc_offset_std x fs sgfreq is_didv n m off std :
  x <> [] -> (forall tr, In tr x -> length tr = n) -> (0 < m <= n)%nat ->
  calc_offset_bins fs sgfreq is_didv n = Z.of_nat m ->
  calc_offset x fs sgfreq is_didv = Some (off, std) ->
  off = lmean (map (fun tr => lmean (firstn m tr)) x) /\
  std = standard_error (map (fun tr => lmean (firstn m tr)) x).
Proof.
  intros Hne Hlen Hm Hb.
  assert (Hcut : map (fun tr => pyslice tr 0 (calc_offset_bins fs sgfreq is_didv (length tr))) x
                 = map (firstn m) x).
  { apply map_ext_in. intros tr Htr. rewrite (Hlen tr Htr), Hb, pyslice_prefix by lia.
    now rewrite Nat2Z.id. }
  unfold calc_offset. rewrite Hcut. destruct x as [|c xs]; [congruence|].
  set (X := c :: xs) in *. cbn [map] in *. change (map (firstn m) X) with (firstn m c :: map (firstn m) xs).
  assert (Hc : length (firstn m c) = m).
  { rewrite firstn_length, (Hlen c) by now left. lia. }
  destruct (firstn m c) as [|c0 cr] eqn:Ec; [simpl in Hc; lia|]. rewrite <- Ec.
  change (firstn m c :: map (firstn m) xs) with (map (firstn m) X).
  rewrite map_map. set (M := map (fun tr => lmean (firstn m tr)) X). intros [= <- <-].
  split; [reflexivity|]. unfold standard_error.
  assert (HL : length M = length X) by (unfold M; apply map_length). rewrite map_length.
  f_equal; [|now rewrite HL]. f_equal. unfold lvar.
  rewrite (lsum_map_nth _ M 0). f_equal. apply rsum_ext. intros k _. ring.
Qed.

Theorem calc_offset_didv_exact x fs sgfreq n :
  x <> [] -> (forall tr, In tr x -> length tr = n) -> 0 < sgfreq ->
  1 <= fs / sgfreq <= INR n ->
  exists (k m : nat) off std,
    calc_offset x fs sgfreq true = Some (off, std) /\
    INR k * (fs / sgfreq) <= INR n < (INR k + 1) * (fs / sgfreq) /\
    INR m <= INR k * (fs / sgfreq) < INR m + 1 /\
    off = lmean (concat (map (firstn m) x)) /\
    off = lmean (map (fun tr => lmean (firstn m tr)) x) /\
    std = standard_error (map (fun tr => lmean (firstn m tr)) x) /\
    (std = 0 <-> forall a b, In a x -> In b x -> lmean (firstn m a) = lmean (firstn m b)).
Proof.
  intros Hne Hlen Hsg HP.
  destruct (calc_offset_didv_correct x fs sgfreq n Hne Hlen Hsg HP)
    as (k & m & off & std & E & Hk & Hm & Ho & Hs).
  set (P := fs / sgfreq) in *.
  assert (EP : 1 / sgfreq * fs = P) by (unfold P; field; lra).
  assert (Hk1 : (1 <= k)%nat).
  { destruct k as [|k]; [|lia]. simpl in Hk. lra. }
  assert (HkR : 1 <= INR k) by (apply (le_INR 1); exact Hk1).
  assert (Hbins : calc_offset_bins fs sgfreq true n = Z.of_nat m).
  { unfold calc_offset_bins. cbv zeta. rewrite EP.
    rewrite (int_of_R_spec (INR n / P) (Z.of_nat k)).
    - apply int_of_R_spec. rewrite <- !INR_IZR_INZ. exact Hm.
    - rewrite <- INR_IZR_INZ.
      assert (INR n / P * P = INR n) by (field; lra). split.
      + apply Rmult_le_reg_r with P; lra.
      + apply Rmult_lt_reg_r with P; lra. }
  assert (Hmn : (0 < m <= n)%nat).
  { assert (0 < INR m) by nra. split; [apply INR_lt; simpl; lra|].
    apply INR_le. lra. }
  destruct (calc_offset_std x fs sgfreq true n m off std Hne Hlen Hmn Hbins E) as [H1 H2].
  exists k, m, off, std. tauto.
Qed.

Theorem calc_offset_plain_exact x fs sgfreq n :
  x <> [] -> (forall tr, In tr x -> length tr = n) -> (0 < n)%nat ->
  exists off std,
    calc_offset x fs sgfreq false = Some (off, std) /\
    off = lmean (concat x) /\ off = lmean (map lmean x) /\ std = standard_error (map lmean x) /\
    (std = 0 <-> forall a b, In a x -> In b x -> lmean a = lmean b).
Proof.
  intros Hne Hlen Hn.
  destruct (calc_offset_plain_correct x fs sgfreq n Hne Hlen Hn) as (off & std & E & Ho & Hs).
  destruct (calc_offset_std x fs sgfreq false n n off std Hne Hlen ltac:(lia) eq_refl E) as [H1 H2].
  assert (EM : map (fun tr => lmean (firstn n tr)) x = map lmean x).
  { apply map_ext_in. intros tr Htr. f_equal. apply firstn_all2. now rewrite (Hlen tr Htr). }
  rewrite EM in *. exists off, std. tauto.
Qed.

(** ** energy_absorbed *)

Lemma pairsums_nth y k : (S k < length y)%nat -> nth k (pairsums y) 0 = nth (S k) y 0 + nth k y 0.
Proof.
  revert k. induction y as [|y0 y IH]; intros k Hk; [simpl in Hk; lia|].
  destruct y as [|y1 yt]; [simpl in Hk; lia|]. destruct k as [|k]; [reflexivity|].
  change (pairsums (y0 :: y1 :: yt)) with ((y1 + y0) :: pairsums (y1 :: yt)).
  cbn [nth]. rewrite IH; [reflexivity|simpl in Hk |- *; lia].
Qed.

Lemma npdiff_nth y k : (S k < length y)%nat -> nth k (npdiff y) 0 = nth (S k) y 0 - nth k y 0.
Proof.
  revert k. induction y as [|y0 y IH]; intros k Hk; [simpl in Hk; lia|].
  destruct y as [|y1 yt]; [simpl in Hk; lia|]. destruct k as [|k]; [reflexivity|].
  change (npdiff (y0 :: y1 :: yt)) with ((y1 - y0) :: npdiff (y1 :: yt)).
  cbn [nth]. rewrite IH; [reflexivity|simpl in Hk |- *; lia].
Qed.

Lemma trapz_rsum y :
  trapz y = rsum (length y - 1) (fun k => (nth k y 0 + nth (S k) y 0) / 2).
Proof.
  unfold trapz. rewrite (lsum_map_nth _ (pairsums y) 0), length_pairsums.
  apply rsum_ext. intros k Hk. rewrite pairsums_nth by lia. field.
Qed.

Lemma trapz_x_rsum x y : length x = length y ->
  trapz_x x y = Ok (rsum (length y - 1)
    (fun k => (nth (S k) x 0 - nth k x 0) * (nth k y 0 + nth (S k) y 0) / 2)).
Proof.
  intros HL. unfold trapz_x, bmul. rewrite length_npdiff, length_pairsums, HL, Nat.eqb_refl.
  cbn [bind]. f_equal. rewrite map_map.
  rewrite (lsum_map_nth _ (combine (npdiff x) (pairsums y)) (0, 0)).
  rewrite combine_length, length_npdiff, length_pairsums, HL, Nat.min_id.
  apply rsum_ext. intros k Hk.
  rewrite combine_nth by (rewrite length_npdiff, length_pairsums; lia).
  cbn [fst snd]. rewrite npdiff_nth, pairsums_nth by lia. field.
Qed.

Lemma pyslice_suffix {A} (l : list A) (z : nat) : (z <= length l)%nat ->
  pyslice l (Z.of_nat z) (Z.of_nat (length l)) = skipn z l.
Proof.
  intros Hz. unfold pyslice, slice_bound.
  destruct (Z.ltb_spec (Z.of_nat z) 0) as [H|H]; [lia|].
  destruct (Z.ltb_spec (Z.of_nat (length l)) 0) as [H'|H']; [lia|].
  rewrite !Z.min_l by lia. rewrite Nat2Z.id.
  apply firstn_all2. rewrite skipn_length. lia.
Qed.

Theorem energy_value e trace io q rl rs fs baseline time pre post b :
  baseline_of trace baseline pre post b ->
  (forall t, time = Some t -> length t = length trace) ->
  energy_absorbed e trace io q rl rs fs baseline time
    (option_map Z.of_nat pre) (option_map Z.of_nat post) =
  match fs, time with
  | Some f, _ => Ok (trapezoid (length trace) INR
      (fun k => joule_power io (q * rs) rl b - joule_power io (q * rs) rl (nth k trace 0)) / (f * e))
  | None, Some t => Ok (trapezoid (length trace) (fun k => nth k t 0)
      (fun k => joule_power io (q * rs) rl b - joule_power io (q * rs) rl (nth k trace 0)) / e)
  | None, None => Err ValueError
  end.
Proof.
  intros Hb Ht. unfold energy_absorbed.
  match goal with |- bind ?X _ = _ => assert (E : X = Ok b) end.
  { unfold baseline_of in Hb. destruct baseline as [v|]; [now subst|].
    destruct Hb as (p & -> & Hp & Hpost). cbn [option_map]. cbv zeta.
    rewrite pyslice_prefix, Nat2Z.id by lia.
    destruct post as [z|]; cbn [option_map].
    - destruct Hpost as [Hz ->]. now rewrite pyslice_suffix.
    - now subst. }
  rewrite E. cbn [bind]. clear E Hb.
  set (d := map (fun p => power1 io q rl rs b - p) (powertrace_simple trace io q rl rs)).
  assert (Hl : length d = length trace) by (unfold d, powertrace_simple; now rewrite !map_length).
  assert (Hd : forall k, (k < length trace)%nat -> nth k d 0 =
     joule_power io (q * rs) rl b - joule_power io (q * rs) rl (nth k trace 0)).
  { intros k Hk. unfold d. rewrite (nth_indep _ 0 (power1 io q rl rs b - 0))
      by (unfold powertrace_simple; now rewrite !map_length).
    rewrite (map_nth (fun p => power1 io q rl rs b - p)).
    rewrite powertrace_nth by exact Hk. unfold power1, joule_power. ring. }
  destruct fs as [f|].
  - f_equal. f_equal. rewrite trapz_rsum, Hl. unfold trapezoid. apply rsum_ext. intros k Hk.
    rewrite !Hd by lia. rewrite S_INR. field.
  - destruct time as [t|]; [|reflexivity].
    rewrite trapz_x_rsum by (rewrite Hl; now apply Ht). cbn [bind]. f_equal. f_equal.
    rewrite Hl. unfold trapezoid. apply rsum_ext. intros k Hk. rewrite !Hd by lia. reflexivity.
Qed.

(** ** get_offset_from_muon *)

Lemma argmax_from_spec l : forall pre best bv,
  (best < length pre)%nat -> nth best pre 0 = bv ->
  (forall i, (i < length pre)%nat -> nth i pre 0 <= bv /\ ((i < best)%nat -> nth i pre 0 < bv)) ->
  first_maximum (pre ++ l) (argmax_from (length pre) best bv l).
Proof.
  induction l as [|v l IH]; intros pre best bv Hb Hv Hpre; cbn [argmax_from].
  - rewrite app_nil_r. split; [exact Hb|]. intros i Hi. rewrite Hv. now apply Hpre.
  - replace (pre ++ v :: l) with ((pre ++ [v]) ++ l) by now rewrite <- app_assoc.
    assert (HL : length (pre ++ [v]) = S (length pre)) by (rewrite app_length; simpl; lia).
    destruct (Rltb_spec bv v) as [Hlt|Hge].
    + rewrite <- HL. apply IH; [lia| |].
      * rewrite app_nth2, Nat.sub_diag by lia. reflexivity.
      * intros i Hi. rewrite HL in Hi. destruct (Nat.eq_dec i (length pre)) as [->|Hne].
        -- rewrite app_nth2, Nat.sub_diag by lia. simpl. split; [lra|lia].
        -- rewrite app_nth1 by lia. destruct (Hpre i ltac:(lia)) as [Hi1 _]. split; [lra|]. intros _. lra.
    + rewrite <- HL. apply IH; [lia| |].
      * now rewrite app_nth1 by lia.
      * intros i Hi. rewrite HL in Hi. destruct (Nat.eq_dec i (length pre)) as [->|Hne].
        -- rewrite app_nth2, Nat.sub_diag by lia. simpl. split; [lra|lia].
        -- rewrite app_nth1 by lia. apply Hpre; lia.
Qed.

Lemma pyslice_mid {A} (l : list A) (p w : nat) : (p <= length l)%nat ->
  pyslice l (Z.of_nat p) (Z.of_nat p + Z.of_nat w) = firstn w (skipn p l).
Proof.
  intros Hp. unfold pyslice, slice_bound.
  destruct (Z.ltb_spec (Z.of_nat p) 0) as [H|H]; [lia|].
  destruct (Z.ltb_spec (Z.of_nat p + Z.of_nat w) 0) as [H'|H']; [lia|].
  rewrite (Z.min_l (Z.of_nat p)) by lia. rewrite Nat2Z.id.
  destruct (le_lt_dec (p + w) (length l)) as [Hc|Hc].
  - rewrite Z.min_l by lia. f_equal. lia.
  - rewrite Z.min_r by lia. rewrite !firstn_all2; [reflexivity| |]; rewrite skipn_length; lia.
Qed.

Theorem muon_offset_full avemuon qetbias rn rload rsh (nbaseline : nat) ioffset r0 i0 p0 :
  (0 < nbaseline)%nat -> rload + rn <> 0 ->
  get_offset_from_muon avemuon qetbias rn rload rsh (Z.of_nat nbaseline) = Ok (ioffset, r0, i0, p0) ->
  i0 <> 0 ->
  exists peak,
    first_maximum avemuon peak /\
    let baseline := lmean (firstn nbaseline avemuon) in
    let sat := lmean (firstn 200 (skipn peak avemuon)) in
    i0 * (r0 + rload) = qetbias * rsh /\ p0 = i0 ^ 2 * r0 /\
    baseline - ioffset = i0 /\ (sat - ioffset) * (rn + rload) = qetbias * rsh.
Proof.
  intros Hn Hr E Hi. unfold get_offset_from_muon in E.
  destruct avemuon as [|v l]; [discriminate|].
  assert (Hpk := argmax_from_spec l [v] 0 v ltac:(simpl; lia) eq_refl).
  cbn [app length] in Hpk.
  assert (Hfm : first_maximum (v :: l) (argmax_from 1 0 v l)).
  { apply Hpk. intros [|i] H; [simpl; split; [lra|lia]|lia]. }
  clear Hpk. exists (argmax_from 1 0 v l). split; [exact Hfm|].
  set (p := argmax_from 1 0 v l) in *. cbv zeta in E.
  assert (Hpl : (p <= length (v :: l))%nat) by (destruct Hfm; lia).
  change 200%Z with (Z.of_nat 200) in E. rewrite pyslice_mid in E by exact Hpl.
  assert (Hbase : pyslice (v :: l) 0 (Z.of_nat nbaseline) = firstn nbaseline (v :: l)).
  { assert (G := pyslice_mid (v :: l) 0 nbaseline ltac:(lia)). exact G. }
  rewrite Hbase in E.
  destruct (firstn nbaseline (v :: l)) as [|b0 br] eqn:Eb; [discriminate|].
  rewrite <- Eb in *. cbv zeta.
  set (sat := lmean (firstn 200 (skipn p (v :: l)))) in *. clearbody sat.
  assert (G : forall a b : R * R * R * R, Ok a = Ok b -> a = b) by (intros; congruence).
  apply G in E. exact (muon_offset_correct _ _ _ _ _ _ _ _ _ _ E Hr Hi).
Qed.

(** The call succeeds on every non-empty trace. *)
Theorem muon_offset_succeeds avemuon qetbias rn rload rsh (nbaseline : nat) :
  (0 < nbaseline)%nat -> avemuon <> [] ->
  exists r, get_offset_from_muon avemuon qetbias rn rload rsh (Z.of_nat nbaseline) = Ok r.
Proof.
  intros Hn Hne. unfold get_offset_from_muon. destruct avemuon as [|v l]; [congruence|].
  assert (Hbase : pyslice (v :: l) 0 (Z.of_nat nbaseline) = firstn nbaseline (v :: l)).
  { assert (G := pyslice_mid (v :: l) 0 nbaseline ltac:(lia)). exact G. }
  rewrite Hbase. destruct nbaseline as [|k]; [lia|]. cbn [firstn]. eauto.
Qed.
