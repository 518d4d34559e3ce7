(** * Proofs about [shift] and [resample_factors] *)
From Verif Require Import Base ListLemmas UtilsModel UtilsSpec.
From Coq Require Import Znumtheory.

(** ** shift *)
Lemma shift_correct {A} (arr : list A) num fill :
  exists out, shift arr num fill = Ok out /\ is_shift_of arr num fill out.
Proof.
  unfold shift. destruct (Z.gtb_spec num 0) as [Hp|Hp].
  - set (n := Z.of_nat (length arr)).
    assert (L1 : length (pyslice arr 0 num) = Z.to_nat (Z.min num n)).
    { rewrite length_pyslice. fold n. unfold slice_bound.
      destruct (Z.ltb_spec num 0), (Z.ltb_spec 0 0); lia. }
    assert (L2 : length (pyslice arr num n) = Z.to_nat (n - Z.min num n)).
    { rewrite length_pyslice. fold n. unfold slice_bound.
      destruct (Z.ltb_spec num 0), (Z.ltb_spec n 0); lia. }
    assert (L3 : length (pyslice arr 0 (- num)) = Z.to_nat (n - Z.min num n)).
    { rewrite length_pyslice. fold n. unfold slice_bound.
      destruct (Z.ltb_spec (- num) 0), (Z.ltb_spec 0 0); lia. }
    rewrite L2, L3, Nat.eqb_refl. eexists; split; [reflexivity|]. split.
    + rewrite app_length, map_length, L1, L3. lia.
    + intros i Hi. cbv zeta. fold n.
      rewrite nth_error_app, map_length, nth_error_map_const, L1.
      split; intros H.
      * destruct (Nat.ltb_spec i (Z.to_nat (Z.min num n))) as [h|h]; [lia|].
        rewrite nth_error_pyslice. fold n.
        replace (slice_bound n 0) with 0%Z by (unfold slice_bound; simpl; lia).
        replace (slice_bound n (- num)) with (Z.max 0 (n - num))%Z
          by (unfold slice_bound; destruct (Z.ltb_spec (- num) 0); lia).
        destruct (Z.ltb_spec (Z.of_nat (i - Z.to_nat (Z.min num n))) (Z.max 0 (n - num) - 0)) as [h'|h'];
          [|lia].
        f_equal. lia.
      * destruct (Nat.ltb_spec i (Z.to_nat (Z.min num n))) as [h|h]; [reflexivity|lia].
  - destruct (Z.ltb_spec num 0) as [Hn|Hn].
    + set (n := Z.of_nat (length arr)).
      assert (L1 : length (pyslice arr num n) = Z.to_nat (Z.min (- num) n)).
      { rewrite length_pyslice. fold n. unfold slice_bound.
        destruct (Z.ltb_spec num 0), (Z.ltb_spec n 0); lia. }
      assert (L2 : length (pyslice arr 0 num) = Z.to_nat (n - Z.min (- num) n)).
      { rewrite length_pyslice. fold n. unfold slice_bound.
        destruct (Z.ltb_spec num 0), (Z.ltb_spec 0 0); lia. }
      assert (L3 : length (pyslice arr (- num) n) = Z.to_nat (n - Z.min (- num) n)).
      { rewrite length_pyslice. fold n. unfold slice_bound.
        destruct (Z.ltb_spec (- num) 0), (Z.ltb_spec n 0); lia. }
      rewrite L2, L3, Nat.eqb_refl. eexists; split; [reflexivity|]. split.
      * rewrite app_length, map_length, L1, L3. lia.
      * intros i Hi. cbv zeta. fold n.
        rewrite nth_error_app, nth_error_map_const, L1, L3.
        split; intros H.
        -- destruct (Nat.ltb_spec i (Z.to_nat (n - Z.min (- num) n))) as [h|h]; [|lia].
           rewrite nth_error_pyslice. fold n.
           replace (slice_bound n n) with n
             by (unfold slice_bound; destruct (Z.ltb_spec n 0); lia).
           replace (slice_bound n (- num)) with (Z.min (- num) n)
             by (unfold slice_bound; destruct (Z.ltb_spec (- num) 0); lia).
           destruct (Z.ltb_spec (Z.of_nat i) (n - Z.min (- num) n)) as [h'|h']; [|lia].
           f_equal. lia.
        -- destruct (Nat.ltb_spec i (Z.to_nat (n - Z.min (- num) n))) as [h|h]; [lia|].
           destruct (Nat.ltb_spec (i - Z.to_nat (n - Z.min (- num) n)) (Z.to_nat (Z.min (- num) n)));
             [reflexivity|lia].
    + assert (num = 0)%Z by lia. subst num. eexists; split; [reflexivity|].
      split; [reflexivity|]. intros i Hi. cbv zeta. split; intros H.
      * f_equal. lia.
      * lia.
Qed.

Lemma is_shift_of_unique {A} (arr : list A) num fill o1 o2 :
  is_shift_of arr num fill o1 -> is_shift_of arr num fill o2 -> o1 = o2.
Proof.
  intros [L1 H1] [L2 H2]. apply nth_error_ext. intros i.
  destruct (Nat.lt_ge_cases i (length arr)) as [Hi|Hi].
  - destruct (H1 i Hi) as [A1 B1], (H2 i Hi) as [A2 B2]. cbv zeta in *.
    destruct (Z_le_dec 0 (Z.of_nat i - num)), (Z_lt_dec (Z.of_nat i - num) (Z.of_nat (length arr)));
      try (rewrite A1, A2 by lia; reflexivity); rewrite B1, B2 by lia; reflexivity.
  - rewrite (proj2 (nth_error_None o1 i)), (proj2 (nth_error_None o2 i)) by lia. reflexivity.
Qed.

(** ** resample_factors *)
Local Open Scope Z_scope.

Lemma zrange_In lo n x : In x (zrange lo n) <-> lo <= x < lo + Z.of_nat n.
Proof.
  revert lo. induction n as [|n IH]; intros lo; simpl.
  - split; [tauto|lia].
  - rewrite IH. split; [intros [->|H]; lia|intros H].
    destruct (Z.eq_dec lo x); [auto|right; lia].
Qed.

Lemma isprime_prime d : isprime d = true <-> prime d.
Proof.
  unfold isprime. rewrite andb_true_iff, Z.ltb_lt, forallb_forall. split.
  - intros [H1 H]. apply prime_alt. split; [lia|].
    intros n Hn Hd.
    assert (Hin : In n (zrange 2 (Z.to_nat (d - 2)))) by (apply zrange_In; lia).
    specialize (H n Hin). apply negb_true_iff, Z.eqb_neq in H. apply H.
    apply Z.mod_divide; [lia|exact Hd].
  - intros Hp. apply prime_alt in Hp. destruct Hp as [H1 H]. split; [lia|].
    intros x Hx. apply zrange_In in Hx. apply negb_true_iff, Z.eqb_neq. intros E.
    apply (H x); [lia|]. apply Z.mod_divide; [lia|exact E].
Qed.

Lemma prime_factors_In m d : 0 < m -> (In d (prime_factors m) <-> prime d /\ (d | m)).
Proof.
  intros Hm. unfold prime_factors. rewrite filter_In, zrange_In.
  destruct (Z.eqb_spec (m mod d) 0) as [E|E].
  - rewrite isprime_prime. split.
    + intros [Hr Hp]. split; [exact Hp|]. apply Z.mod_divide; [lia|exact E].
    + intros [Hp Hd]. split; [|exact Hp].
      assert (1 < d) by (now apply prime_ge_2 in Hp; lia).
      apply Z.divide_pos_le in Hd; lia.
  - split; [intros [_ H]; discriminate|]. intros [Hp Hd]. exfalso. apply E.
    apply Z.mod_divide; [|exact Hd]. apply prime_ge_2 in Hp. lia.
Qed.

Lemma zmin_list_In d l : In (zmin_list d l) (d :: l).
Proof.
  unfold zmin_list. revert d. induction l as [|a l IH]; intros d; simpl; [auto|].
  destruct (IH (Z.min d a)) as [H|H].
  - rewrite <- H. destruct (Z.min_spec d a) as [[_ ->]|[_ ->]]; auto.
  - auto.
Qed.
Lemma zmin_list_le d l x : In x (d :: l) -> zmin_list d l <= x.
Proof.
  assert (G : forall l d, fold_left Z.min l d <= d /\ forall x, In x l -> fold_left Z.min l d <= x).
  { clear. induction l as [|a l IH]; intros d; cbn [fold_left]; [split; [lia|intros x []]|].
    destruct (IH (Z.min d a)) as [H1 H2]. split; [lia|].
    intros x [->|H]; [lia|]. now apply H2. }
  destruct (G l d) as [H1 H2]. unfold zmin_list. intros [->|H]; auto.
Qed.

Lemma prime_divisor_exists q : 1 < q -> exists r, prime r /\ (r | q).
Proof.
  intros Hq. assert (H0 : 0 <= q) by lia. revert Hq. pattern q.
  apply Zlt_0_ind; [|exact H0]. clear q H0. intros q IH _ Hq.
  destruct (prime_dec q) as [Hp|Hp]; [exists q; split; [exact Hp|apply Z.divide_refl]|].
  destruct (not_prime_divide q Hq Hp) as [m [Hm Hd]].
  destruct (IH m) as [r [Hr Hrd]]; try lia.
  exists r. split; [exact Hr|]. now apply Z.divide_trans with m.
Qed.

Lemma fold_mul_scal l c : fold_left Z.mul l c = c * fold_left Z.mul l 1.
Proof.
  revert c. induction l as [|a l IH]; intros c; cbn [fold_left]; [ring|].
  rewrite (IH (c * a)), (IH (1 * a)). ring.
Qed.
Lemma fold_mul_pos l : (forall x, In x l -> 0 < x) -> 0 < fold_left Z.mul l 1.
Proof.
  induction l as [|a l IH]; intros H; cbn [fold_left]; [lia|].
  rewrite fold_mul_scal.
  assert (0 < a) by (apply H; now left).
  assert (0 < fold_left Z.mul l 1) by (apply IH; intros; apply H; now right). nia.
Qed.

(** A product of distinct primes, each dividing [m], divides [m]. *)
Lemma fold_mul_divide l m :
  NoDup l -> (forall x, In x l -> prime x /\ (x | m)) -> (fold_left Z.mul l 1 | m).
Proof.
  revert m. induction l as [|a l IH]; intros m Hnd H; cbn [fold_left].
  - apply Z.divide_1_l.
  - rewrite fold_mul_scal. destruct (H a (or_introl eq_refl)) as [Hpa [q Hq]].
    inversion Hnd as [|x y Hna Hnd']; subst.
    assert (Hq' : (fold_left Z.mul l 1 | q)).
    { apply IH; [exact Hnd'|]. intros x Hx.
      destruct (H x (or_intror Hx)) as [Hpx Hdx]. split; [exact Hpx|].
      apply prime_mult in Hdx; [|exact Hpx]. destruct Hdx as [Hd|Hd]; [exact Hd|].
      exfalso. apply Hna. apply prime_div_prime in Hd; try assumption. now subst. }
    destruct Hq' as [r Hr]. exists r. rewrite Hr. ring.
Qed.

Lemma NoDup_zrange lo n : NoDup (zrange lo n).
Proof.
  revert lo. induction n as [|n IH]; intros lo; simpl; constructor.
  - rewrite zrange_In. lia.
  - apply IH.
Qed.
Lemma NoDup_prime_factors m : NoDup (prime_factors m).
Proof. apply NoDup_filter, NoDup_zrange. Qed.

Lemma ceil_div_pos a b : 0 < a -> 0 < b -> 0 < ceil_div a b.
Proof.
  intros Ha Hb. unfold ceil_div.
  assert (- a / b < 0) by (apply Z.div_lt_upper_bound; lia). lia.
Qed.
Lemma round_div_nonneg a b : 0 < a -> 0 < b -> 0 <= round_div a b.
Proof.
  intros Ha Hb. unfold round_div. assert (0 <= a / b) by (apply Z.div_pos; lia).
  repeat match goal with |- context [if ?c then _ else _] => destruct c end; lia.
Qed.

(** Facts about the returned factors. *)
Lemma resample_core_facts fs sg up down :
  0 < fs -> 0 < sg -> resample_core fs sg = (up, down) ->
  0 < up /\ 0 < down /\ (down | fs / Z.gcd fs sg) /\
  ((sg | fs) -> up = 1 /\ down = 1) /\
  (~ (sg | fs) ->
     (forall p, prime p -> (p | sg / Z.gcd fs sg) ->
        (forall p', prime p' -> (p' | sg / Z.gcd fs sg) -> p <= p') -> (p | up)) /\
     (forall p, prime p -> ((p | down) <-> (p | fs / Z.gcd fs sg)))).
Proof.
  intros Hf Hs. unfold resample_core.
  set (g := Z.gcd fs sg).
  assert (Hg : 0 < g).
  { assert (0 <= g) by apply Z.gcd_nonneg.
    assert (g <> 0) by (intros E; apply Z.gcd_eq_0 in E; lia). lia. }
  assert (Hdf : (g | fs)) by apply Z.gcd_divide_l.
  assert (Hds : (g | sg)) by apply Z.gcd_divide_r.
  destruct Hdf as [p Hp], Hds as [q Hq].
  assert (Ep : fs / g = p) by (rewrite Hp; apply Z.div_mul; lia).
  assert (Eq : sg / g = q) by (rewrite Hq; apply Z.div_mul; lia).
  rewrite Ep, Eq.
  assert (0 < p) by nia. assert (0 < q) by nia.
  assert (Hcop : Z.gcd p q = 1).
  { rewrite <- Ep, <- Eq. apply Z.gcd_div_gcd; [lia|reflexivity]. }
  assert (Hint : (sg | fs) <-> q = 1).
  { split.
    - intros [z Hz].
      assert (E : p = z * q) by (rewrite Hp, Hq in Hz; nia).
      assert ((q | 1)). { rewrite <- Hcop. apply Z.gcd_greatest; [exists z; exact E|apply Z.divide_refl]. }
      apply Z.divide_1_r_nonneg in H1; lia.
    - intros ->. exists p. rewrite Hp, Hq. ring. }
  assert (Hdown : (fold_left Z.mul (prime_factors p) 1 | p)).
  { apply fold_mul_divide; [apply NoDup_prime_factors|].
    intros x Hx. now apply prime_factors_In in Hx. }
  assert (Hdpos : 0 < fold_left Z.mul (prime_factors p) 1).
  { apply fold_mul_pos. intros x Hx. apply prime_factors_In in Hx; [|lia].
    destruct Hx as [Hx _]. apply prime_ge_2 in Hx. lia. }
  destruct (prime_factors q) as [|d0 ds] eqn:Eden.
  - intros E. injection E as <- <-.
    assert (Hq1 : q = 1).
    { destruct (Z.eq_dec q 1) as [|Hne]; [assumption|].
      exfalso. destruct (prime_divisor_exists q) as [r [Hr1 Hr2]]; [lia|].
      assert (Hin : In r (prime_factors q)) by (apply prime_factors_In; auto).
      rewrite Eden in Hin. exact Hin. }
    split; [lia|]. split; [lia|]. split; [apply Z.divide_1_l|].
    split; [auto|]. intros Hn. exfalso. apply Hn, Hint, Hq1.
  - set (m := zmin_list d0 ds). set (dn := fold_left Z.mul (prime_factors p) 1) in *.
    assert (Hm : prime m /\ (m | q)).
    { apply prime_factors_In; [lia|]. rewrite Eden. apply zmin_list_In. }
    destruct Hm as [Hmp Hmq].
    assert (Hm2 := prime_ge_2 m Hmp).
    intros E. injection E as Eu Ed.
    assert (Hround := round_div_nonneg dn m Hdpos ltac:(lia)).
    assert (Hceil := ceil_div_pos dn m Hdpos ltac:(lia)).
    assert (Hup : 0 < up /\ (m | up)).
    { rewrite <- Eu. destruct (Z.eqb_spec (round_div dn m * m) 0) as [E0|E0].
      - split; [nia|]. exists (ceil_div dn m). reflexivity.
      - split; [nia|]. exists (round_div dn m). reflexivity. }
    destruct Hup as [Hup Hmu].
    split; [exact Hup|]. split; [lia|]. split; [now rewrite <- Ed|].
    assert (Hq1 : q <> 1).
    { intros ->. apply Z.divide_1_r_nonneg in Hmq; lia. }
    split; [intros Hi; exfalso; apply Hq1, Hint, Hi|].
    intros _. split.
    + intros r Hr Hrq Hmin.
      replace r with m; [exact Hmu|].
      apply Z.le_antisymm.
      * apply zmin_list_le. rewrite <- Eden. apply prime_factors_In; [lia|auto].
      * now apply Hmin.
    + intros r Hr. rewrite <- Ed. split.
      * intros Hd. now apply Z.divide_trans with dn.
      * intros Hd.
        assert (Hin : In r (prime_factors p)) by (apply prime_factors_In; [lia|auto]).
        unfold dn. revert Hin. generalize (prime_factors p). clear.
        induction l as [|a l IH]; intros Hin; [destruct Hin|].
        cbn [fold_left]. rewrite fold_mul_scal. destruct Hin as [->|Hin].
        -- rewrite Z.mul_1_l. apply Z.divide_factor_l.
        -- apply Z.divide_trans with (fold_left Z.mul l 1); [now apply IH|].
           rewrite Z.mul_1_l. apply Z.divide_factor_r.
Qed.

(** Exact criterion: the resampled ratio is an integer iff the reduced denominator
    divides [up]. *)
Lemma resample_integer_iff fs sg up down :
  0 < fs -> 0 < sg -> resample_core fs sg = (up, down) ->
  (is_integer (IZR fs * IZR up / IZR down / IZR sg)%R <-> (sg / Z.gcd fs sg | up)).
Proof.
  intros Hf Hs E. destruct (resample_core_facts fs sg up down Hf Hs E) as (Hup & Hdn & Hdiv & _ & Hprimes).
  set (g := Z.gcd fs sg) in *.
  assert (Hg : 0 < g).
  { assert (0 <= g) by apply Z.gcd_nonneg.
    assert (g <> 0) by (intros E'; apply Z.gcd_eq_0 in E'; lia). lia. }
  destruct (Z.gcd_divide_l fs sg) as [p Hp]. destruct (Z.gcd_divide_r fs sg) as [q Hq].
  fold g in Hp, Hq.
  assert (Ep : fs / g = p) by (rewrite Hp; apply Z.div_mul; lia).
  assert (Eq : sg / g = q) by (rewrite Hq; apply Z.div_mul; lia).
  assert (0 < p) by nia. assert (0 < q) by nia.
  assert (Hcop : Z.gcd p q = 1).
  { rewrite <- Ep, <- Eq. apply Z.gcd_div_gcd; [lia|reflexivity]. }
  rewrite Ep in Hdiv. rewrite Eq. destruct Hdiv as [c Hc].
  assert (Hcpos : 0 < c) by nia.
  (* ratio = c*up/q *)
  assert (Hr : (IZR fs * IZR up / IZR down / IZR sg)%R = (IZR (c * up) / IZR q)%R).
  { rewrite Hp, Hq, Hc, !mult_IZR. field.
    repeat split; apply IZR_neq; lia. }
  rewrite Hr. split.
  - intros [z Hz].
    assert (E1 : c * up = z * q).
    { apply eq_IZR. rewrite (mult_IZR z q). rewrite <- Hz. field. apply IZR_neq; lia. }
    apply Gauss with c.
    + exists z. rewrite E1. reflexivity.
    + apply Zgcd_1_rel_prime.
      assert (Hx : (Z.gcd q c | 1)).
      { rewrite <- Hcop. apply Z.gcd_greatest.
        - apply Z.divide_trans with c; [apply Z.gcd_divide_r|]. exists down. rewrite Hc. ring.
        - apply Z.gcd_divide_l. }
      apply Z.divide_1_r_nonneg in Hx; [exact Hx|apply Z.gcd_nonneg].
  - intros [k Hk]. exists (c * k). rewrite Hk, !mult_IZR. field. apply IZR_neq; lia.
Qed.

Lemma resample_prime_denominator fs sg up down :
  0 < fs -> 0 < sg -> prime (sg / Z.gcd fs sg) -> resample_core fs sg = (up, down) ->
  is_integer (IZR fs * IZR up / IZR down / IZR sg)%R.
Proof.
  intros Hf Hs Hp E. apply (resample_integer_iff fs sg up down Hf Hs E).
  destruct (resample_core_facts fs sg up down Hf Hs E) as (_ & _ & _ & _ & Hpr).
  destruct Hpr as [Hmin _].
  - intros [z Hz].
    assert (Hg : Z.gcd fs sg = sg).
    { rewrite Hz, Z.gcd_comm. apply Z.divide_gcd_iff; [lia|]. exists z. reflexivity. }
    rewrite Hg, Z.div_same in Hp by lia. apply prime_ge_2 in Hp. lia.
  - apply Hmin; [exact Hp|apply Z.divide_refl|].
    intros p' Hp' Hd. apply prime_div_prime in Hd; try assumption. lia.
Qed.
