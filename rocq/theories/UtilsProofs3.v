(** * Proofs about slope, calc_offset, power, energy, estimate_g, make_template *)
From Verif Require Import Base ListLemmas UtilsModel UtilsSpec UtilsProofs1.
From Coquelicot Require Import Coquelicot.
From Coq Require Import Reals Lra.
Local Open Scope R_scope.

Lemma sq0 x : x ^ 2 = 0 -> x = 0.
Proof. intros H. apply Rsqr_0_uniq. unfold Rsqr. simpl in H. lra. Qed.
Lemma mul0 x : x * x = 0 -> x = 0.
Proof. intros H. now apply Rsqr_0_uniq. Qed.

(** ** slope *)

Section Lsq.
  Variables (n : nat) (f g : nat -> R).
  Let sx := rsum n f.
  Let sy := rsum n g.

  Lemma centered_sum m : m * INR n = sx -> rsum n (fun k => f k - m) = 0.
  Proof.
    intros H. rewrite rsum_minus, rsum_const. fold sx. lra.
  Qed.

  (** Expansion of the sum of squares around the least-squares line. *)
  Lemma lsq_line mx my s a b :
    mx * INR n = sx -> my * INR n = sy ->
    s * rsum n (fun k => (f k - mx) ^ 2) = rsum n (fun k => (f k - mx) * (g k - mx)) ->
    rsum n (fun k => (g k - (a * f k + b)) ^ 2)
    = rsum n (fun k => (g k - (s * f k + (my - s * mx))) ^ 2)
      + (s - a) ^ 2 * rsum n (fun k => (f k - mx) ^ 2)
      + INR n * (my - a * mx - b) ^ 2.
  Proof.
    intros Hx Hy Hs.
    assert (Cx : rsum n (fun k => f k - mx) = 0) by (apply centered_sum; exact Hx).
    assert (Cy : rsum n (fun k => g k - my) = 0).
    { rewrite rsum_minus, rsum_const. fold sy. lra. }
    set (X := fun k => f k - mx). set (Y := fun k => g k - my).
    assert (CX : rsum n X = 0) by exact Cx. assert (CY : rsum n Y = 0) by exact Cy.
    assert (Hxy : rsum n (fun k => (f k - mx) * (g k - mx)) = rsum n (fun k => X k * Y k)).
    { rewrite (rsum_ext n _ (fun k => X k * Y k + (my - mx) * X k)).
      - rewrite rsum_plus, rsum_scal_l, CX. ring.
      - intros k _. unfold X, Y. ring. }
    rewrite Hxy in Hs.
    assert (E : forall a' b', rsum n (fun k => (g k - (a' * f k + b')) ^ 2)
        = rsum n (fun k => Y k ^ 2) - 2 * a' * rsum n (fun k => X k * Y k)
          + a' ^ 2 * rsum n (fun k => X k ^ 2) + INR n * (my - a' * mx - b') ^ 2).
    { intros a' b'. set (c := my - a' * mx - b').
      rewrite (rsum_ext n _ (fun k => (Y k ^ 2 - 2 * a' * (X k * Y k)) + (a' ^ 2 * X k ^ 2
          + (2 * c * Y k + (- 2 * c * a') * X k + c ^ 2)))).
      - rewrite rsum_plus, rsum_minus, rsum_scal_l, rsum_plus, rsum_scal_l, rsum_plus, rsum_plus,
          rsum_scal_l, rsum_scal_l, rsum_const, CX, CY. clearbody c. lra.
      - intros k _. unfold X, Y, c. ring. }
    change (rsum n (fun k => (f k - mx) ^ 2)) with (rsum n (fun k => X k ^ 2)) in *.
    rewrite !E, <- Hs.
    replace (my - s * mx - (my - s * mx)) with 0 by ring. ring.
  Qed.
End Lsq.

Lemma lsum_combine (h : R * R -> R) x y :
  length x = length y ->
  lsum (map h (combine x y)) = rsum (length x) (fun k => h (nth k x 0, nth k y 0)).
Proof.
  intros Hl. rewrite (lsum_map_nth h _ (0, 0)), combine_length, <- Hl, Nat.min_id.
  apply rsum_ext. intros k Hk. now rewrite combine_nth.
Qed.

Lemma sxx_pos x : two_values x ->
  0 < rsum (length x) (fun k => (nth k x 0 - lmean x) ^ 2).
Proof.
  intros (i & j & Hi & Hj & Hne).
  destruct (Rle_lt_dec (rsum (length x) (fun k => (nth k x 0 - lmean x) ^ 2)) 0) as [H|H]; [|exact H].
  exfalso.
  assert (Hnn : forall k, (k < length x)%nat -> 0 <= (nth k x 0 - lmean x) ^ 2) by (intros; apply pow2_ge_0).
  assert (H0 : rsum (length x) (fun k => (nth k x 0 - lmean x) ^ 2) = 0)
    by (apply Rle_antisym; [exact H|now apply rsum_nonneg]).
  assert (Ei := rsum_nonneg_zero _ _ Hnn H0 i Hi). assert (Ej := rsum_nonneg_zero _ _ Hnn H0 j Hj).
  apply sq0 in Ei, Ej. apply Hne. lra.
Qed.

Lemma two_values_len x : two_values x -> 0 < INR (length x).
Proof. intros (i & _ & Hi & _). apply (lt_INR 0). lia. Qed.

Lemma lmean_n x : (0 < length x)%nat -> lmean x * INR (length x) = lsum x.
Proof. intros H. unfold lmean. field. apply not_0_INR. lia. Qed.

Theorem slope_least_squares x y :
  length x = length y -> two_values x ->
  exists b0, forall a b,
    ssr x y (slope x y true) b0 <= ssr x y a b /\
    (ssr x y a b = ssr x y (slope x y true) b0 -> a = slope x y true /\ b = b0).
Proof.
  intros Hl H2. set (n := length x).
  assert (Hn := two_values_len x H2).
  assert (Hnn : (0 < n)%nat) by (destruct H2 as (i & _ & Hi & _); unfold n; lia).
  set (f := fun k => nth k x 0). set (g := fun k => nth k y 0).
  assert (Hsxx : 0 < rsum n (fun k => (f k - lmean x) ^ 2)) by exact (sxx_pos x H2).
  set (s := slope x y true).
  assert (Hs : s * rsum n (fun k => (f k - lmean x) ^ 2) = rsum n (fun k => (f k - lmean x) * (g k - lmean x))).
  { unfold s, slope. rewrite lsum_combine by exact Hl. rewrite (lsum_map_nth _ x 0).
    fold n. cbn [fst snd]. unfold f, g. field. unfold f in Hsxx. lra. }
  assert (Hx : lmean x * INR n = rsum n f) by (unfold n; rewrite lmean_n by exact Hnn; apply lsum_nth).
  assert (Hy : lmean y * INR n = rsum n g).
  { unfold n, g. rewrite Hl, lmean_n by (rewrite <- Hl; exact Hnn). apply lsum_nth. }
  exists (lmean y - s * lmean x). intros a b.
  assert (E := lsq_line n f g (lmean x) (lmean y) s a b Hx Hy Hs).
  unfold ssr. rewrite !lsum_combine by exact Hl. fold n. cbn [fst snd]. fold (f : nat -> R) (g : nat -> R).
  change (fun k : nat => (nth k y 0 - (a * nth k x 0 + b)) ^ 2) with (fun k => (g k - (a * f k + b)) ^ 2).
  change (fun k : nat => (nth k y 0 - (s * nth k x 0 + (lmean y - s * lmean x))) ^ 2)
    with (fun k => (g k - (s * f k + (lmean y - s * lmean x))) ^ 2).
  set (SS := rsum n (fun k => (f k - lmean x) ^ 2)) in *.
  assert (P1 : 0 <= (s - a) ^ 2 * SS) by (apply Rmult_le_pos; [apply pow2_ge_0|lra]).
  assert (P2 : 0 <= INR n * (lmean y - a * lmean x - b) ^ 2).
  { apply Rmult_le_pos; [unfold n; lra|apply pow2_ge_0]. }
  split; [lra|]. intros Heq.
  assert (Q1 : (s - a) ^ 2 * SS = 0) by lra.
  assert (Q2 : INR n * (lmean y - a * lmean x - b) ^ 2 = 0) by lra.
  assert (Hsa : s - a = 0).
  { apply Rmult_integral in Q1. destruct Q1 as [Q1|Q1]; [|lra]. now apply sq0. }
  assert (Hb : lmean y - a * lmean x - b = 0).
  { apply Rmult_integral in Q2. destruct Q2 as [Q2|Q2]; [unfold n in Q2; lra|now apply sq0]. }
  replace s with a by lra. split; lra.
Qed.

Theorem slope_shift_y x y c :
  length x = length y -> two_values x ->
  slope x (map (fun v => v + c) y) true = slope x y true.
Proof.
  intros Hl H2. unfold slope.
  assert (Hnn : (0 < length x)%nat) by (destruct H2 as (i & _ & Hi & _); lia).
  f_equal. rewrite !lsum_combine by (rewrite ?map_length; exact Hl).
  rewrite (rsum_ext _ _ (fun k => (nth k x 0 - lmean x) * (nth k y 0 - lmean x) + c * (nth k x 0 - lmean x))).
  - rewrite rsum_plus, rsum_scal_l.
    rewrite (centered_sum (length x) (fun k => nth k x 0) (lmean x)).
    + cbn [fst snd]. ring.
    + rewrite lmean_n by exact Hnn. apply lsum_nth.
  - intros k Hk. cbn [fst snd].
    rewrite (nth_indep (map (fun v => v + c) y) 0 (0 + c)) by (rewrite map_length; lia).
    rewrite (map_nth (fun v => v + c)). ring.
Qed.

(** Without mean removal: the best line through the origin. *)
Theorem slope_through_origin x y :
  length x = length y -> (exists i, (i < length x)%nat /\ nth i x 0 <> 0) ->
  forall a, ssr x y (slope x y false) 0 <= ssr x y a 0.
Proof.
  intros Hl (i & Hi & Hne) a. set (n := length x).
  set (f := fun k => nth k x 0). set (g := fun k => nth k y 0).
  assert (Hpos : 0 < rsum n (fun k => f k ^ 2)).
  { destruct (Rle_lt_dec (rsum n (fun k => f k ^ 2)) 0) as [H|H]; [|exact H]. exfalso.
    assert (Hnn : forall k, (k < n)%nat -> 0 <= f k ^ 2) by (intros; apply pow2_ge_0).
    assert (H0 : rsum n (fun k => f k ^ 2) = 0) by (apply Rle_antisym; [exact H|now apply rsum_nonneg]).
    assert (Ei := rsum_nonneg_zero _ _ Hnn H0 i Hi). cbv beta in Ei.
    apply Hne. now apply sq0. }
  set (s := slope x y false).
  assert (Hs : s * rsum n (fun k => f k ^ 2) = rsum n (fun k => f k * g k)).
  { unfold s, slope. rewrite lsum_combine by exact Hl. rewrite (lsum_map_nth _ x 0).
    fold n. cbn [fst snd].
    rewrite (rsum_ext n (fun k => (nth k x 0 - 0) * (nth k y 0 - 0)) (fun k => f k * g k))
      by (intros; unfold f, g; ring).
    rewrite (rsum_ext n (fun k => (nth k x 0 - 0) ^ 2) (fun k => f k ^ 2))
      by (intros; unfold f; ring).
    field. lra. }
  assert (E : forall a', ssr x y a' 0 = rsum n (fun k => g k ^ 2) - 2 * a' * rsum n (fun k => f k * g k)
               + a' ^ 2 * rsum n (fun k => f k ^ 2)).
  { intros a'. unfold ssr. rewrite lsum_combine by exact Hl. fold n. cbn [fst snd].
    rewrite (rsum_ext n _ (fun k => (g k ^ 2 - 2 * a' * (f k * g k)) + a' ^ 2 * f k ^ 2))
      by (intros; unfold f, g; ring).
    now rewrite rsum_plus, rsum_minus, !rsum_scal_l. }
  rewrite !E, <- Hs. set (SS := rsum n (fun k => f k ^ 2)) in *.
  assert (0 <= (s - a) ^ 2 * SS) by (apply Rmult_le_pos; [apply pow2_ge_0|lra]). nra.
Qed.

(** ** calc_offset *)

Lemma int_of_R_spec r z : IZR z <= r < IZR z + 1 -> int_of_R r = z.
Proof.
  intros H. unfold int_of_R. destruct (base_Int_part r) as [H1 H2].
  assert (IZR (Int_part r) < IZR (z + 1)) by (rewrite plus_IZR; lra).
  assert (IZR z < IZR (Int_part r + 1)) by (rewrite plus_IZR; lra).
  apply lt_IZR in H0, H3. lia.
Qed.
Lemma int_of_R_bounds r : IZR (int_of_R r) <= r < IZR (int_of_R r) + 1.
Proof. unfold int_of_R. destruct (base_Int_part r). lra. Qed.

Lemma lsum_nonneg_zero l : (forall v, In v l -> 0 <= v) -> lsum l = 0 -> forall v, In v l -> v = 0.
Proof.
  induction l as [|a l IH]; intros Hp H0 v Hv; [destruct Hv|].
  simpl in H0. assert (0 <= a) by (apply Hp; now left).
  assert (Hl : 0 <= lsum l).
  { clear - Hp. induction l as [|b l IH]; simpl; [lra|].
    assert (0 <= b) by (apply Hp; right; now left).
    assert (0 <= lsum l) by (apply IH; intros w Hw; apply Hp; destruct Hw; [now left|right; now right]). lra. }
  destruct Hv as [<-|Hv]; [lra|]. apply IH; auto; [intros; apply Hp; now right|lra].
Qed.

Lemma lsum_const c l : (forall v, In v l -> v = c) -> lsum l = INR (length l) * c.
Proof.
  induction l as [|a l IH]; intros H; simpl lsum; [simpl; ring|].
  rewrite IH by (intros; apply H; now right). rewrite (H a (or_introl eq_refl)).
  simpl length. rewrite S_INR. ring.
Qed.

Lemma lsum_nonneg l : (forall v, In v l -> 0 <= v) -> 0 <= lsum l.
Proof.
  induction l as [|a l IH]; intros H; simpl; [lra|].
  assert (0 <= a) by (apply H; now left). assert (0 <= lsum l) by (apply IH; intros; apply H; now right). lra.
Qed.

Lemma lvar_zero_iff l : l <> [] -> (lvar l = 0 <-> forall u v, In u l -> In v l -> u = v).
Proof.
  intros Hne. assert (Hn : INR (length l) <> 0) by (apply not_0_INR; destruct l; [congruence|discriminate]).
  unfold lvar. split.
  - intros H0 u v Hu Hv.
    assert (S0 : lsum (map (fun v => (v - lmean l) * (v - lmean l)) l) = 0).
    { apply Rmult_eq_reg_r with (/ INR (length l)); [|now apply Rinv_neq_0_compat].
      unfold Rdiv in H0. rewrite H0. ring. }
    assert (Hall : forall w, In w l -> w = lmean l).
    { intros w Hw.
      assert ((w - lmean l) * (w - lmean l) = 0).
      { apply (lsum_nonneg_zero _) with (2 := S0).
        - intros z Hz. apply in_map_iff in Hz. destruct Hz as (z' & <- & _). apply sqr_nonneg.
        - apply in_map_iff. now exists w. }
      apply mul0 in H. lra. }
    now rewrite (Hall u), (Hall v).
  - intros H. destruct l as [|a l']; [congruence|]. set (l := a :: l') in *.
    assert (Hm : lmean l = a).
    { unfold lmean. rewrite (lsum_const a l) by (intros v Hv; apply H; [exact Hv|now left]). field. exact Hn. }
    rewrite (lsum_const 0).
    + rewrite map_length. field. exact Hn.
    + intros z Hz. apply in_map_iff in Hz. destruct Hz as (z' & <- & Hz'). rewrite Hm.
      rewrite (H z' a Hz' (or_introl eq_refl)). ring.
Qed.

Lemma lvar_nonneg l : l <> [] -> 0 <= lvar l.
Proof.
  intros Hne. assert (0 < INR (length l)) by (apply (lt_INR 0); destruct l; [congruence|simpl; lia]).
  unfold lvar. apply Rmult_le_pos; [|left; now apply Rinv_0_lt_compat].
  apply lsum_nonneg. intros z Hz. apply in_map_iff in Hz. destruct Hz as (z' & <- & _). apply sqr_nonneg.
Qed.

(** Mean of means of equally long lists is the mean of all samples. *)
Lemma lmean_concat ls m :
  ls <> [] -> (0 < m)%nat -> (forall l, In l ls -> length l = m) ->
  lmean (map lmean ls) = lmean (concat ls).
Proof.
  intros Hne Hm Hlen.
  assert (H : lsum (map lmean ls) = lsum (concat ls) / INR m /\ length (concat ls) = (length ls * m)%nat).
  { clear Hne. induction ls as [|l ls IH]; simpl; [split; [field; apply not_0_INR; lia|reflexivity]|].
    destruct IH as [I1 I2]; [intros; apply Hlen; now right|].
    rewrite lsum_app, I1, app_length, I2, (Hlen l) by now left.
    split; [|lia]. unfold lmean. rewrite (Hlen l) by now left. field. apply not_0_INR. lia. }
  destruct H as [H1 H2]. unfold lmean at 1 3. rewrite map_length, H1, H2, mult_INR.
  assert (INR (length ls) <> 0) by (apply not_0_INR; destruct ls; [congruence|discriminate]).
  assert (INR m <> 0) by (apply not_0_INR; lia).
  field. split; assumption.
Qed.

Lemma pyslice_prefix {A} (l : list A) (z : Z) :
  (0 <= z)%Z -> pyslice l 0 z = firstn (Z.to_nat z) l.
Proof.
  intros Hz. unfold pyslice, slice_bound.
  destruct (Z.ltb_spec z 0); [lia|]. destruct (Z.ltb_spec 0 0); [lia|].
  rewrite (Z.min_l 0) by lia. simpl skipn. rewrite Z.sub_0_r.
  destruct (Z.le_gt_cases z (Z.of_nat (length l))).
  - now rewrite Z.min_l by lia.
  - rewrite Z.min_r by lia. rewrite Nat2Z.id.
    rewrite !firstn_all2 by lia. reflexivity.
Qed.

(** Shared part: the traces are cut to [m] bins. *)
Lemma calc_offset_cut x fs sgfreq is_didv n m :
  x <> [] -> (forall tr, In tr x -> length tr = n) -> (0 < m <= n)%nat ->
  calc_offset_bins fs sgfreq is_didv n = Z.of_nat m ->
  exists off std, calc_offset x fs sgfreq is_didv = Some (off, std) /\
    off = lmean (concat (map (firstn m) x)) /\
    (std = 0 <-> forall a b, In a x -> In b x -> lmean (firstn m a) = lmean (firstn m b)).
Proof.
  intros Hne Hlen Hm Hb.
  assert (Hcut : map (fun tr => pyslice tr 0 (calc_offset_bins fs sgfreq is_didv (length tr))) x
                 = map (firstn m) x).
  { apply map_ext_in. intros tr Htr. rewrite (Hlen tr Htr), Hb, pyslice_prefix by lia.
    now rewrite Nat2Z.id. }
  unfold calc_offset. rewrite Hcut. destruct x as [|c xs]; [congruence|].
  set (X := c :: xs) in *. cbn [map] in *. change (map (firstn m) X) with (firstn m c :: map (firstn m) xs).
  assert (Hc : length (firstn m c) = m).
  { rewrite firstn_length, (Hlen c) by now left. lia. }
  destruct (firstn m c) as [|c0 cr] eqn:Ec; [simpl in Hc; lia|]. rewrite <- Ec.
  change (firstn m c :: map (firstn m) xs) with (map (firstn m) X).
  eexists _, _. split; [reflexivity|]. split.
  - apply lmean_concat with m; [discriminate|lia|].
    intros l Hl. apply in_map_iff in Hl. destruct Hl as (tr & <- & Htr).
    rewrite firstn_length, (Hlen tr Htr). lia.
  - rewrite map_map. rewrite map_length.
    assert (HX : 0 < INR (length X)) by (apply (lt_INR 0); simpl; lia).
    assert (Hs : 0 < sqrt (INR (length X))) by now apply sqrt_lt_R0.
    set (means := map (fun tr => lmean (firstn m tr)) X).
    assert (Hmne : means <> []) by discriminate.
    transitivity (lvar means = 0).
    + split.
      * intros H0. assert (sqrt (lvar means) = 0).
        { apply Rmult_eq_reg_r with (/ sqrt (INR (length X))); [|apply Rinv_neq_0_compat; lra].
          unfold Rdiv in H0. rewrite H0. ring. }
        apply sqrt_eq_0; [now apply lvar_nonneg|assumption].
      * intros ->. rewrite sqrt_0. unfold Rdiv. ring.
    + rewrite (lvar_zero_iff means Hmne). split.
      * intros H a b Ha Hb'. apply H; unfold means; apply in_map_iff; eauto.
      * intros H u v Hu Hv. unfold means in Hu, Hv. apply in_map_iff in Hu, Hv.
        destruct Hu as (a & <- & Ha), Hv as (b & <- & Hb'). now apply H.
Qed.

Theorem calc_offset_didv_correct x fs sgfreq n :
  x <> [] -> (forall tr, In tr x -> length tr = n) -> 0 < sgfreq ->
  1 <= fs / sgfreq <= INR n ->
  exists (k m : nat) off std,
    calc_offset x fs sgfreq true = Some (off, std) /\
    INR k * (fs / sgfreq) <= INR n < (INR k + 1) * (fs / sgfreq) /\
    INR m <= INR k * (fs / sgfreq) < INR m + 1 /\
    off = lmean (concat (map (firstn m) x)) /\
    (std = 0 <-> forall a b, In a x -> In b x -> lmean (firstn m a) = lmean (firstn m b)).
Proof.
  intros Hne Hlen Hsg HP. set (P := fs / sgfreq) in *.
  assert (EP : 1 / sgfreq * fs = P) by (unfold P; field; lra).
  set (k := int_of_R (INR n / P)).
  assert (Hk := int_of_R_bounds (INR n / P)). fold k in Hk.
  assert (Hdiv : INR n / P * P = INR n) by (field; lra).
  assert (K1 : IZR k * P <= INR n) by nra.
  assert (K2 : INR n < (IZR k + 1) * P) by nra.
  assert (Hk1 : (1 <= k)%Z).
  { assert (0 < IZR k) by nra. apply lt_IZR in H. lia. }
  set (m := int_of_R (IZR k * P)).
  assert (Hm := int_of_R_bounds (IZR k * P)). fold m in Hm.
  assert (Hk1' : 1 <= IZR k) by (apply (IZR_le 1); lia).
  assert (Hm1 : (1 <= m)%Z).
  { assert (0 < IZR m) by nra. apply lt_IZR in H. lia. }
  assert (Hmn : (m <= Z.of_nat n)%Z).
  { apply le_IZR. rewrite <- INR_IZR_INZ. lra. }
  assert (EK : INR (Z.to_nat k) = IZR k) by (rewrite INR_IZR_INZ, Z2Nat.id by lia; reflexivity).
  assert (EM : INR (Z.to_nat m) = IZR m) by (rewrite INR_IZR_INZ, Z2Nat.id by lia; reflexivity).
  destruct (calc_offset_cut x fs sgfreq true n (Z.to_nat m) Hne Hlen ltac:(lia)) as (off & std & E1 & E2 & E3).
  { unfold calc_offset_bins. cbv zeta. rewrite EP. fold k. fold m. lia. }
  exists (Z.to_nat k), (Z.to_nat m), off, std. rewrite EK, EM. repeat split; auto; try lra; apply E3.
Qed.

Theorem calc_offset_plain_correct x fs sgfreq n :
  x <> [] -> (forall tr, In tr x -> length tr = n) -> (0 < n)%nat ->
  exists off std,
    calc_offset x fs sgfreq false = Some (off, std) /\
    off = lmean (concat x) /\
    (std = 0 <-> forall a b, In a x -> In b x -> lmean a = lmean b).
Proof.
  intros Hne Hlen Hn.
  destruct (calc_offset_cut x fs sgfreq false n n Hne Hlen ltac:(lia)) as (off & std & E1 & E2 & E3).
  { reflexivity. }
  assert (Hf : forall tr, In tr x -> firstn n tr = tr) by (intros tr Htr; apply firstn_all2; now rewrite (Hlen tr Htr)).
  exists off, std. split; [exact E1|]. split.
  - rewrite E2. f_equal. f_equal. rewrite <- (map_id x) at 2. now apply map_ext_in.
  - rewrite E3. split; intros H a b Ha Hb; specialize (H a b Ha Hb);
      rewrite ?(Hf a Ha), ?(Hf b Hb) in *; exact H.
Qed.

(** ** Power *)

Theorem power_ohm ioffset qetbias rload rsh i :
  i - ioffset <> 0 ->
  power1 ioffset qetbias rload rsh i
  = (i - ioffset) ^ 2 * (qetbias * rsh / (i - ioffset) - rload).
Proof. intros H. unfold power1. field. exact H. Qed.

Theorem power_max ioffset qetbias rload rsh i :
  0 < rload ->
  power1 ioffset qetbias rload rsh i
  <= power1 ioffset qetbias rload rsh (ioffset + qetbias * rsh / (2 * rload)).
Proof.
  intros H. unfold power1.
  set (v := qetbias * rsh). replace (ioffset + v / (2 * rload) - ioffset) with (v / (2 * rload)) by ring.
  set (j := i - ioffset). set (j0 := v / (2 * rload)).
  assert (E : v = 2 * rload * j0) by (unfold j0; field; lra). rewrite E.
  assert (0 <= rload * (j - j0) ^ 2) by (apply Rmult_le_pos; [lra|apply pow2_ge_0]). nra.
Qed.

Lemma powertrace_nth trace io q rl rs k :
  (k < length trace)%nat ->
  nth k (powertrace_simple trace io q rl rs) 0 = power1 io q rl rs (nth k trace 0).
Proof.
  intros H. unfold powertrace_simple.
  rewrite (nth_indep _ 0 (power1 io q rl rs 0)) by now rewrite map_length. apply map_nth.
Qed.

(** ** Energy *)

Lemma pairsums_zero y : (forall v, In v y -> v = 0) -> forall v, In v (pairsums y) -> v = 0.
Proof.
  induction y as [|y0 y IH]; intros H v Hv; [destruct Hv|].
  destruct y as [|y1 yt]; [destruct Hv|]. destruct Hv as [<-|Hv].
  - rewrite (H y0 (or_introl eq_refl)), (H y1 (or_intror (or_introl eq_refl))). ring.
  - apply IH; [intros; apply H; now right|exact Hv].
Qed.

Lemma length_npdiff x : length (npdiff x) = (length x - 1)%nat.
Proof.
  induction x as [|a x IH]; [reflexivity|]. destruct x as [|b x]; [reflexivity|].
  change (npdiff (a :: b :: x)) with ((b - a) :: npdiff (b :: x)). cbn [length] in *. rewrite IH. lia.
Qed.
Lemma length_pairsums x : length (pairsums x) = (length x - 1)%nat.
Proof.
  induction x as [|a x IH]; [reflexivity|]. destruct x as [|b x]; [reflexivity|].
  change (pairsums (a :: b :: x)) with ((b + a) :: pairsums (b :: x)). cbn [length] in *. rewrite IH. lia.
Qed.

Lemma trapz_zero y : (forall v, In v y -> v = 0) -> trapz y = 0.
Proof.
  intros H. unfold trapz. rewrite (lsum_const 0); [ring|].
  intros v Hv. apply in_map_iff in Hv. destruct Hv as (w & <- & Hw).
  rewrite (pairsums_zero y H w Hw). field.
Qed.

Lemma trapz_x_zero x y : length x = length y -> (forall v, In v y -> v = 0) -> trapz_x x y = Ok 0.
Proof.
  intros Hl H. unfold trapz_x, bmul. rewrite length_npdiff, length_pairsums, Hl, Nat.eqb_refl.
  cbn [bind]. f_equal. rewrite (lsum_const 0); [ring|].
  intros v Hv. apply in_map_iff in Hv. destruct Hv as (w & <- & Hw).
  apply in_map_iff in Hw. destruct Hw as ([a b] & <- & Hw). cbn [fst snd].
  apply in_combine_r in Hw. rewrite (pairsums_zero y H b Hw). field.
Qed.

Lemma npdiff_uniform n t0 d : npdiff (mk n (fun k => t0 + INR k * d)) = map (fun _ => d) (seq 0 (n - 1)).
Proof.
  apply nth_ext with (d := 0) (d' := 0).
  - rewrite length_npdiff, mk_length, map_length, seq_length. reflexivity.
  - intros k Hk. rewrite length_npdiff, mk_length in Hk.
    assert (G : forall l j, (j + 1 < length l)%nat -> nth j (npdiff l) 0 = nth (j + 1) l 0 - nth j l 0).
    { clear. induction l as [|a l IH]; intros j Hj; [simpl in Hj; lia|].
      destruct l as [|b l]; [simpl in Hj; lia|]. destruct j as [|j]; [reflexivity|].
      change (nth (S j) (npdiff (a :: b :: l)) 0) with (nth j (npdiff (b :: l)) 0).
      rewrite IH by (simpl in *; lia). reflexivity. }
    rewrite G by (rewrite mk_length; lia). rewrite !mk_nth by lia.
    rewrite (nth_indep _ 0 ((fun _ : nat => d) 0%nat)) by (rewrite map_length, seq_length; lia).
    rewrite (map_nth (fun _ : nat => d) _ 0%nat). rewrite plus_INR. simpl. ring.
Qed.

Lemma trapz_uniform n t0 d y :
  length y = n -> trapz_x (mk n (fun k => t0 + INR k * d)) y = Ok (d * trapz y).
Proof.
  intros Hl. unfold trapz_x, bmul. rewrite length_npdiff, length_pairsums, mk_length, Hl, Nat.eqb_refl.
  cbn [bind]. f_equal. rewrite npdiff_uniform. unfold trapz.
  assert (Hlen : length (pairsums y) = (n - 1)%nat) by (rewrite length_pairsums; lia).
  revert Hlen. generalize (pairsums y) as p. generalize (n - 1)%nat as m. clear.
  intros m. generalize 0%nat as s. induction m as [|m IH]; intros s p Hp.
  - destruct p; [simpl; ring|discriminate].
  - destruct p as [|v p]; [discriminate|]. injection Hp as Hp. simpl. rewrite (IH (S s) p Hp). field.
Qed.

Theorem energy_flat_zero e trace io q rl rs fs tm pre post b :
  (forall v, In v trace -> v = b) -> 0 < e -> fs <> 0 ->
  energy_absorbed e trace io q rl rs (Some fs) (Some b) tm pre post = Ok 0 /\
  (forall t, length t = length trace ->
     energy_absorbed e trace io q rl rs None (Some b) (Some t) pre post = Ok 0).
Proof.
  intros Hb He Hfs. unfold energy_absorbed. cbn [bind].
  set (diff := map (fun p => power1 io q rl rs b - p) (powertrace_simple trace io q rl rs)).
  assert (Hd : forall v, In v diff -> v = 0).
  { intros v Hv. apply in_map_iff in Hv. destruct Hv as (p & <- & Hp).
    apply in_map_iff in Hp. destruct Hp as (i & <- & Hi). rewrite (Hb i Hi). ring. }
  split.
  - rewrite trapz_zero by exact Hd. f_equal. field. split; lra.
  - intros t Ht. rewrite trapz_x_zero.
    + cbn [bind]. f_equal. field. lra.
    + unfold diff, powertrace_simple. now rewrite !map_length.
    + exact Hd.
Qed.

Lemma pyslice_In {A} (l : list A) lo hi v : In v (pyslice l lo hi) -> In v l.
Proof.
  unfold pyslice. intros H.
  rewrite <- (firstn_skipn (Z.to_nat (slice_bound (Z.of_nat (length l)) lo)) l).
  apply in_or_app. right.
  set (s := skipn _ l) in *. rewrite <- (firstn_skipn (Z.to_nat (slice_bound (Z.of_nat (length l)) hi
     - slice_bound (Z.of_nat (length l)) lo)) s). apply in_or_app. now left.
Qed.

(** Constant trace with the baseline taken from its own head (and tail). *)
Theorem energy_flat_zero_own_baseline e trace io q rl rs fs tm pre post b :
  (forall v, In v trace -> v = b) -> 0 < e -> fs <> 0 -> pyslice trace 0 pre <> [] ->
  energy_absorbed e trace io q rl rs (Some fs) None tm (Some pre) post = Ok 0.
Proof.
  intros Hb He Hfs Hpre.
  assert (Hsub : forall lo hi v, In v (pyslice trace lo hi) -> v = b).
  { intros lo hi v Hv. apply Hb. now apply pyslice_In in Hv. }
  destruct (energy_flat_zero e trace io q rl rs fs tm (Some pre) post b Hb He Hfs) as [H _].
  unfold energy_absorbed in *. cbn [bind] in *.
  set (bt := match post with Some p => pyslice trace 0 pre ++ pyslice trace p (Z.of_nat (length trace))
                           | None => pyslice trace 0 pre end).
  assert (Hm : lmean bt = b).
  { assert (Hne : bt <> []) by (unfold bt; destruct post; [destruct (pyslice trace 0 pre); [congruence|discriminate]|exact Hpre]).
    unfold lmean. rewrite (lsum_const b).
    - field. apply not_0_INR. destruct bt; [congruence|discriminate].
    - intros v Hv. unfold bt in Hv. destruct post; [apply in_app_or in Hv; destruct Hv|]; eauto. }
  rewrite Hm. exact H.
Qed.

Theorem energy_fs_time e trace io q rl rs fs t0 baseline pre post :
  e <> 0 -> fs <> 0 ->
  energy_absorbed e trace io q rl rs (Some fs) baseline None pre post
  = energy_absorbed e trace io q rl rs None baseline
      (Some (mk (length trace) (fun k => t0 + INR k * (1 / fs)))) pre post.
Proof.
  intros He Hfs. unfold energy_absorbed.
  destruct (match baseline with Some b => Ok b | None => _ end) as [base|ex]; cbn [bind]; [|reflexivity].
  rewrite trapz_uniform by (unfold powertrace_simple; now rewrite !map_length).
  cbn [bind]. f_equal. field. split; assumption.
Qed.

(** Which argument combinations are rejected, given a time axis of the right length. *)
Theorem energy_value_error_iff e trace io q rl rs fs baseline time pre post :
  (forall t, time = Some t -> length t = length trace) ->
  (energy_absorbed e trace io q rl rs fs baseline time pre post = Err ValueError
   <-> (baseline = None /\ pre = None) \/ (fs = None /\ time = None)) /\
  (forall ex, energy_absorbed e trace io q rl rs fs baseline time pre post = Err ex -> ex = ValueError).
Proof.
  intros Ht. unfold energy_absorbed.
  assert (Htr : forall t y, time = Some t -> length y = length trace -> exists r, trapz_x t y = Ok r).
  { intros t y E Hy. unfold trapz_x, bmul. rewrite length_npdiff, length_pairsums, (Ht t E), Hy, Nat.eqb_refl.
    cbn [bind]. eauto. }
  destruct baseline as [b|]; [|destruct pre as [p|]]; cbn [bind].
  - destruct fs as [f|].
    + split; [|discriminate]. split; [discriminate|]. intros [[H _]|[H _]]; discriminate.
    + destruct time as [t|].
      * destruct (Htr t (map (fun p => power1 io q rl rs b - p) (powertrace_simple trace io q rl rs)) eq_refl) as [r Hr].
        { unfold powertrace_simple. now rewrite !map_length. }
        rewrite Hr. cbn [bind]. split; [|discriminate]. split; [discriminate|]. intros [[H _]|[_ H]]; discriminate.
      * split; [|now intros ex [= ->]]. split; auto.
  - destruct fs as [f|].
    + split; [|discriminate]. split; [discriminate|]. intros [[_ H]|[H _]]; discriminate.
    + destruct time as [t|].
      * match goal with |- context [trapz_x t ?y] => destruct (Htr t y eq_refl) as [r Hr] end.
        { unfold powertrace_simple. now rewrite !map_length. }
        rewrite Hr. cbn [bind]. split; [|discriminate]. split; [discriminate|]. intros [[_ H]|[_ H]]; discriminate.
      * split; [|now intros ex [= ->]]. split; auto.
  - split; [|now intros ex [= ->]]. split; auto.
Qed.

(** ** estimate_g *)

Lemma Rpower_pos x y : 0 < Rpower x y.
Proof. apply exp_pos. Qed.

Lemma is_derive_Rpower a x : 0 < x -> is_derive (fun y => Rpower y a) x (a * Rpower x (a - 1)).
Proof.
  intros Hx. unfold Rpower at 1.
  assert (H : is_derive (fun y => exp (a * ln y)) x (a * / x * exp (a * ln x))).
  { auto_derive; [exact Hx|ring]. }
  replace (a * Rpower x (a - 1)) with (a * / x * exp (a * ln x)); [exact H|].
  change (exp (a * ln x)) with (Rpower x a).
  replace a with (a - 1 + 1) at 2 by ring. rewrite Rpower_plus, Rpower_1 by exact Hx. field. lra.
Qed.

Lemma g_dp p0 tc tb n :
  p0 <> 0 -> Rpower tc n <> Rpower tb n ->
  is_derive (fun p => g_of p tc tb n) p0 (fst (fst (g_partials p0 tc tb n))).
Proof.
  intros Hp Hne. unfold g_of, g_partials. cbv zeta. cbn [fst].
  auto_derive; [lra|]. unfold g_of. field. split; [lra|exact Hp].
Qed.

Lemma g_dtc p0 tc tb n :
  0 < tc -> Rpower tc n <> Rpower tb n ->
  is_derive (fun t => g_of p0 t tb n) tc (snd (fst (g_partials p0 tc tb n))).
Proof.
  intros Ht Hne. unfold g_of.
  assert (D1 := is_derive_Rpower (n - 1) tc Ht). assert (D2 := is_derive_Rpower n tc Ht).
  assert (H : is_derive (fun t => n * p0 * Rpower t (n - 1) / (Rpower t n - Rpower tb n)) tc
     ((n * p0 * ((n - 1) * Rpower tc (n - 1 - 1)) * (Rpower tc n - Rpower tb n)
        - n * p0 * Rpower tc (n - 1) * (n * Rpower tc (n - 1))) / (Rpower tc n - Rpower tb n) ^ 2)).
  { apply (is_derive_div (fun t => n * p0 * Rpower t (n - 1)) (fun t => Rpower t n - Rpower tb n)).
    - apply is_derive_scal. exact D1.
    - replace (n * Rpower tc (n - 1)) with (n * Rpower tc (n - 1) - 0) by ring.
      exact (is_derive_minus _ _ _ _ _ D2 (is_derive_const _ _)).
    - lra. }
  unfold g_partials, g_of. cbv zeta. cbn [fst snd].
  replace ((n - 1) * (n * p0 * Rpower tc (n - 1) / (Rpower tc n - Rpower tb n)) / tc
     - n * p0 * Rpower tc (n - 1) / (Rpower tc n - Rpower tb n) * n * Rpower tc (n - 1)
       / (Rpower tc n - Rpower tb n))
    with ((n * p0 * ((n - 1) * Rpower tc (n - 1 - 1)) * (Rpower tc n - Rpower tb n)
        - n * p0 * Rpower tc (n - 1) * (n * Rpower tc (n - 1))) / (Rpower tc n - Rpower tb n) ^ 2);
    [exact H|].
  replace (Rpower tc (n - 1)) with (Rpower tc (n - 1 - 1) * tc).
  - field. split; [lra|lra].
  - rewrite <- (Rpower_1 tc) at 2 by exact Ht. rewrite <- Rpower_plus. f_equal. ring.
Qed.

Lemma g_dtb p0 tc tb n :
  0 < tb -> Rpower tc n <> Rpower tb n ->
  is_derive (fun t => g_of p0 tc t n) tb (snd (g_partials p0 tc tb n)).
Proof.
  intros Ht Hne. unfold g_of.
  assert (D2 := is_derive_Rpower n tb Ht).
  assert (H : is_derive (fun t => n * p0 * Rpower tc (n - 1) / (Rpower tc n - Rpower t n)) tb
     ((0 * (Rpower tc n - Rpower tb n)
        - n * p0 * Rpower tc (n - 1) * (0 - n * Rpower tb (n - 1))) / (Rpower tc n - Rpower tb n) ^ 2)).
  { apply (is_derive_div (fun t => n * p0 * Rpower tc (n - 1)) (fun t => Rpower tc n - Rpower t n)).
    - exact (is_derive_const _ _).
    - exact (is_derive_minus _ _ _ _ _ (is_derive_const _ _) D2).
    - lra. }
  unfold g_partials, g_of. cbv zeta. cbn [fst snd].
  match goal with H : is_derive _ _ ?d |- is_derive _ _ ?d' => replace d' with d; [exact H|] end.
  field. lra.
Qed.

Lemma estimate_g_cov p0 tc tb pe cov n :
  let '(a, b, d) := g_partials p0 tc tb n in
  estimate_g p0 tc tb pe (Some cov) n = (g_of p0 tc tb n, propagated3 a b d cov).
Proof.
  destruct (g_partials p0 tc tb n) as [[a b] d] eqn:E.
  unfold estimate_g. rewrite E. f_equal. unfold propagated3. f_equal.
  unfold msum, mdot, mtr, diag3. cbn [rsum]. ring.
Qed.

Theorem estimate_g_correct p0 tc tb pe cov n :
  p0 <> 0 -> 0 < tc -> 0 < tb -> Rpower tc n <> Rpower tb n ->
  exists ja jb jc,
    is_derive (fun p => n * p * Rpower tc (n - 1) / (Rpower tc n - Rpower tb n)) p0 ja /\
    is_derive (fun t => n * p0 * Rpower t (n - 1) / (Rpower t n - Rpower tb n)) tc jb /\
    is_derive (fun t => n * p0 * Rpower tc (n - 1) / (Rpower tc n - Rpower t n)) tb jc /\
    estimate_g p0 tc tb pe (Some cov) n
    = (n * p0 * Rpower tc (n - 1) / (Rpower tc n - Rpower tb n), propagated3 ja jb jc cov).
Proof.
  intros Hp Htc Htb Hne. assert (E := estimate_g_cov p0 tc tb pe cov n).
  destruct (g_partials p0 tc tb n) as [[a b] d] eqn:Eg.
  exists a, b, d.
  assert (D1 := g_dp p0 tc tb n Hp Hne). assert (D2 := g_dtc p0 tc tb n Htc Hne).
  assert (D3 := g_dtb p0 tc tb n Htb Hne). rewrite Eg in D1, D2, D3. cbn [fst snd] in *.
  split; [exact D1|]. split; [exact D2|]. split; [exact D3|]. exact E.
Qed.

Lemma Rpower_neq tc tb n : 0 < tc -> 0 < tb -> tc <> tb -> n <> 0 -> Rpower tc n <> Rpower tb n.
Proof.
  intros H1 H2 Hne Hn E. unfold Rpower in E. apply exp_inv in E.
  apply Rmult_eq_reg_l in E; [|exact Hn]. apply Hne. now apply ln_inv.
Qed.

Theorem estimate_g_nocov p0 tc tb pe n :
  p0 <> 0 ->
  let '(g, ge) := estimate_g p0 tc tb pe None n in
  g = n * p0 * Rpower tc (n - 1) / (Rpower tc n - Rpower tb n) /\
  ge = Rabs g * (Rabs pe / Rabs p0).
Proof.
  intros Hp. unfold estimate_g. split; [reflexivity|].
  unfold Rdiv at 1. rewrite !Rabs_mult, Rabs_inv. field. now apply Rabs_no_R0.
Qed.

(** ** make_template *)

Lemma lmax_ge d l : d <= lmax d l /\ forall v, In v l -> v <= lmax d l.
Proof.
  revert d. induction l as [|x l IH]; intros d; simpl; [split; [lra|tauto]|].
  destruct (IH (Rmax d x)) as [H1 H2]. assert (Ha := Rmax_l d x). assert (Hb := Rmax_r d x).
  split; [lra|]. intros v [->|Hv]; [lra|auto].
Qed.
Lemma lmax_In d l : In (lmax d l) (d :: l).
Proof.
  revert d. induction l as [|x l IH]; intros d; simpl; [auto|].
  destruct (IH (Rmax d x)) as [H|H].
  - rewrite <- H. unfold Rmax. destruct (Rle_dec d x); auto.
  - auto.
Qed.

Lemma pulse_pos tau_r tau_f t : 0 < tau_r < tau_f -> 0 < t -> 0 < exp (- t / tau_f) - exp (- t / tau_r).
Proof.
  intros H Ht. assert (exp (- t / tau_r) < exp (- t / tau_f)); [|lra].
  apply exp_increasing. unfold Rdiv.
  assert (/ tau_f < / tau_r) by (apply Rinv_lt_contravar; nra). nra.
Qed.

Theorem make_template_correct t tau_r tau_f offset :
  0 < tau_r < tau_f -> nth 0 t 0 = 0 ->
  (forall i, (0 < i < length t)%nat -> 0 < nth i t 0) ->
  let s := (Z.of_nat (length t / 2) + offset)%Z in
  (0 <= s <= Z.of_nat (length t) - 2)%Z ->
  exists out, make_template t tau_r tau_f offset = Ok out /\
    length out = length t /\
    (forall i, (i < length t)%nat -> 0 <= nth i out 0 <= 1) /\
    (exists i, (i < length t)%nat /\ nth i out 0 = 1) /\
    (forall i, (i < length t)%nat -> (Z.of_nat i <= s)%Z -> nth i out 0 = 0) /\
    (forall i, (i < length t)%nat -> (s < Z.of_nat i)%Z -> 0 < nth i out 0) /\
    (exists m, 0 < m /\ forall i, (i < length t)%nat -> (s <= Z.of_nat i)%Z ->
       let ti := nth (Z.to_nat (Z.of_nat i - s)) t 0 in
       nth i out 0 = (exp (- ti / tau_f) - exp (- ti / tau_r)) / m).
Proof.
  intros Htau Ht0 Htp s Hs.
  set (n := length t) in *.
  set (pf := fun x => exp (- x / tau_f) - exp (- x / tau_r)).
  set (pulse := map pf t).
  destruct (shift_correct pulse s 0) as (sh & Esh & Hlen & Hsh).
  assert (Lp : length pulse = n) by (unfold pulse; apply map_length).
  rewrite Lp in *.
  assert (Hnth : forall j, (j < n)%nat -> nth_error pulse j = Some (pf (nth j t 0))).
  { intros j Hj. unfold pulse. rewrite nth_error_map.
    rewrite (nth_error_nth' t 0) by exact Hj. reflexivity. }
  assert (Hval : forall i, (i < n)%nat -> nth i sh 0 =
      if (Z.of_nat i <? s)%Z then 0 else pf (nth (Z.to_nat (Z.of_nat i - s)) t 0)).
  { intros i Hi. destruct (Hsh i Hi) as [H1 H2].
    destruct (Z.ltb_spec (Z.of_nat i) s) as [h|h].
    - apply nth_error_nth, H2. lia.
    - apply nth_error_nth. rewrite H1 by lia. apply Hnth. lia. }
  assert (Hpos : forall i, (i < n)%nat -> (s < Z.of_nat i)%Z -> 0 < nth i sh 0).
  { intros i Hi Hsi. rewrite Hval by exact Hi. destruct (Z.ltb_spec (Z.of_nat i) s) as [h|h]; [lia|].
    unfold pf. apply pulse_pos; [exact Htau|]. apply Htp. lia. }
  assert (Hz : forall i, (i < n)%nat -> (Z.of_nat i <= s)%Z -> nth i sh 0 = 0).
  { intros i Hi Hsi. rewrite Hval by exact Hi. destruct (Z.ltb_spec (Z.of_nat i) s) as [h|h]; [reflexivity|].
    replace (Z.of_nat i - s)%Z with 0%Z by lia. simpl. rewrite Ht0. unfold pf.
    replace (- 0 / tau_f) with (- 0 / tau_r) by (field; lra). ring. }
  unfold make_template. fold pf. fold pulse. fold n. fold s. rewrite Esh. cbn [bind].
  destruct sh as [|x l] eqn:Eshl.
  { exfalso. simpl in Hlen. lia. }
  rewrite <- Eshl in *. set (m := lmax x l).
  assert (Hmin : In m sh) by (rewrite Eshl; apply lmax_In).
  assert (Hmax : forall v, In v sh -> v <= m).
  { intros v Hv. rewrite Eshl in Hv. destruct (lmax_ge x l) as [H1 H2]. destruct Hv as [<-|Hv]; [exact H1|now apply H2]. }
  assert (Hm : 0 < m).
  { apply Rlt_le_trans with (nth (n - 1) sh 0).
    - apply Hpos; lia.
    - apply Hmax, nth_In. lia. }
  assert (Ho : forall i, (i < n)%nat -> nth i (map (fun v => v / m) sh) 0 = nth i sh 0 / m).
  { intros i Hi. rewrite (nth_indep _ 0 (0 / m)) by (rewrite map_length; lia).
    now rewrite (map_nth (fun v => v / m)). }
  exists (map (fun v => v / m) sh). repeat split.
  - rewrite map_length. exact Hlen.
  - rewrite Ho by assumption. destruct (Z.le_gt_cases (Z.of_nat i) s).
    + rewrite Hz by assumption. unfold Rdiv. lra.
    + apply Rlt_le, Rdiv_lt_0_compat; [apply Hpos; [assumption|lia]|exact Hm].
  - rewrite Ho by assumption. apply Rmult_le_reg_r with m; [exact Hm|].
    unfold Rdiv. rewrite Rmult_assoc, Rinv_l, Rmult_1_r, Rmult_1_l by lra. apply Hmax, nth_In. lia.
  - apply In_nth with (d := 0) in Hmin. destruct Hmin as (i & Hi & Ei). exists i.
    rewrite Hlen in Hi. split; [exact Hi|]. rewrite Ho by exact Hi. rewrite Ei. field. lra.
  - intros i Hi Hsi. rewrite Ho by exact Hi. rewrite Hz by assumption. unfold Rdiv. ring.
  - intros i Hi Hsi. rewrite Ho by exact Hi. apply Rdiv_lt_0_compat; [now apply Hpos|exact Hm].
  - exists m. split; [exact Hm|]. intros i Hi Hsi. cbv zeta. rewrite Ho by exact Hi. rewrite Hval by exact Hi.
    destruct (Z.ltb_spec (Z.of_nat i) s) as [h|h]; [lia|]. reflexivity.
Qed.

(** ** get_offset_from_muon *)
Theorem muon_offset_correct baseline sat qetbias rn rload rsh ioffset r0 i0 p0 :
  muon_offset baseline sat qetbias rn rload rsh = (ioffset, r0, i0, p0) ->
  rload + rn <> 0 -> i0 <> 0 ->
  (* the quiescent point obeys the circuit law and Joule's law *)
  i0 * (r0 + rload) = qetbias * rsh /\ p0 = i0 ^ 2 * r0 /\
  (* the baseline is the quiescent current seen through the offset *)
  baseline - ioffset = i0 /\
  (* at saturation the true current is that of the normal TES *)
  (sat - ioffset) * (rn + rload) = qetbias * rsh.
Proof.
  unfold muon_offset. set (I := qetbias * rsh / (rload + rn)). intros [= <- <- <- <-] H1 H2.
  assert (HI : I * (rn + rload) = qetbias * rsh) by (unfold I; field; exact H1).
  clearbody I. set (d := sat - baseline) in *.
  assert (Hr : (I - d) * (I * (rn + rload) / (I - d)) = qetbias * rsh) by (rewrite <- HI; field; exact H2).
  set (w := I * (rn + rload) / (I - d)) in *. clearbody w.
  repeat split.
  - rewrite <- Hr. ring.
  - replace ((I - d) ^ 2 * (w - rload)) with ((I - d) * ((I - d) * w) - rload * (I - d) ^ 2) by ring.
    rewrite Hr. ring.
  - ring.
  - rewrite <- HI. unfold d. ring.
Qed.
