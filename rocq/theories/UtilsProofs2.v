(** * Proofs about [make_decreasing] and [fill_negatives] *)
From Verif Require Import Base ListLemmas UtilsModel UtilsSpec.
Local Open Scope R_scope.

(** ** Piecewise linear interpolation through decreasing points *)

(** Consecutive points have increasing abscissa and decreasing ordinate. *)
Fixpoint dec_pts (pts : list (R * R)) : Prop :=
  match pts with
  | p :: ((q :: _) as tl) => fst p < fst q /\ snd q < snd p /\ dec_pts tl
  | _ => True
  end.

Lemma seg_left p q : seg p q (fst p) = snd p.
Proof. unfold seg. replace (fst p - fst p) with 0 by ring. ring. Qed.
Lemma seg_right p q : fst p < fst q -> seg p q (fst q) = snd q.
Proof. intros H. unfold seg. field. lra. Qed.
Lemma seg_decr p q a b :
  fst p < fst q -> snd q < snd p -> a < b -> seg p q b < seg p q a.
Proof.
  intros H1 H2 H. unfold seg. apply Rplus_lt_compat_r.
  assert (Hs : (snd q - snd p) / (fst q - fst p) < 0).
  { apply Rmult_lt_reg_r with (fst q - fst p); [lra|].
    unfold Rdiv. rewrite Rmult_assoc, Rinv_l by lra. lra. }
  nra.
Qed.

Lemma interp_ext_first p q rest : fst p < fst q -> interp_ext (p :: q :: rest) (fst p) = snd p.
Proof.
  intros H. simpl. destruct rest as [|r rest]; [apply seg_left|].
  rewrite Rleb_true by lra. apply seg_left.
Qed.

Lemma interp_ext_decr pts a b :
  dec_pts pts -> (2 <= length pts)%nat -> a < b -> interp_ext pts b < interp_ext pts a.
Proof.
  revert a b. induction pts as [|p tl IH]; intros a b Hd Hl Hab; [simpl in Hl; lia|].
  destruct tl as [|q rest]; [simpl in Hl; lia|].
  destruct Hd as (H1 & H2 & Hd).
  destruct rest as [|r rest].
  - simpl. now apply seg_decr.
  - assert (Hnode : interp_ext (q :: r :: rest) (fst q) = snd q).
    { apply interp_ext_first. now destruct Hd as (h & _). }
    assert (IH' : forall a b, a < b -> interp_ext (q :: r :: rest) b < interp_ext (q :: r :: rest) a).
    { intros a' b' h. apply IH; [exact Hd|simpl; lia|exact h]. }
    change (interp_ext (p :: q :: r :: rest) b) with
      (if Rleb b (fst q) then seg p q b else interp_ext (q :: r :: rest) b).
    change (interp_ext (p :: q :: r :: rest) a) with
      (if Rleb a (fst q) then seg p q a else interp_ext (q :: r :: rest) a).
    destruct (Rleb_spec b (fst q)) as [Hb|Hb], (Rleb_spec a (fst q)) as [Ha|Ha].
    + now apply seg_decr.
    + lra.
    + apply Rlt_le_trans with (snd q).
      * rewrite <- Hnode. apply IH'. lra.
      * rewrite <- (seg_right p q H1). destruct (Req_dec a (fst q)) as [->|Hne]; [lra|].
        apply Rlt_le, seg_decr; lra.
    + now apply IH'.
Qed.

Lemma interp_ext_node pts p :
  dec_pts pts -> (2 <= length pts)%nat -> In p pts -> interp_ext pts (fst p) = snd p.
Proof.
  induction pts as [|p0 tl IH]; intros Hd Hl Hin; [destruct Hin|].
  destruct tl as [|q rest]; [simpl in Hl; lia|].
  destruct Hd as (H1 & H2 & Hd).
  destruct Hin as [->|Hin]; [now apply interp_ext_first|].
  destruct rest as [|r rest].
  - destruct Hin as [->|[]]. simpl. now apply seg_right.
  - change (interp_ext (p0 :: q :: r :: rest) (fst p)) with
      (if Rleb (fst p) (fst q) then seg p0 q (fst p) else interp_ext (q :: r :: rest) (fst p)).
    destruct (Rleb_spec (fst p) (fst q)) as [Hle|Hle].
    + destruct Hin as [->|Hin]; [now apply seg_right|].
      exfalso. assert (Hlt : forall l z, dec_pts (z :: l) -> forall w, In w l -> fst z < fst w).
      { clear. induction l as [|y l IH]; intros z Hd w Hw; [destruct Hw|].
        destruct Hd as (h1 & h2 & Hd). destruct Hw as [->|Hw]; [exact h1|].
        apply Rlt_trans with (fst y); [exact h1|]. now apply IH. }
      assert (fst q < fst p) by now apply (Hlt (r :: rest) q). lra.
    + apply IH; [exact Hd|simpl; lia|exact Hin].
Qed.

(** ** The kept points *)
Fixpoint kept_from (last : R) (x y : list R) : list (R * R) :=
  match x, y with
  | xi :: x, yi :: y => if Rltb yi last then (xi, yi) :: kept_from yi x y else kept_from last x y
  | _, _ => []
  end.

Lemma mask_dec_loop last x y :
  (forall v, In v y -> v <> 0) -> length x = length y ->
  combine (mask_select (map (fun v => negb (Reqb v 0)) (dec_loop last y)) x)
          (mask_select (map (fun v => negb (Reqb v 0)) (dec_loop last y)) y)
  = kept_from last x y.
Proof.
  revert last x. induction y as [|v y IH]; intros last x Hnz Hl.
  - destruct x; [reflexivity|discriminate].
  - destruct x as [|xi x]; [discriminate|]. simpl in Hl. injection Hl as Hl.
    simpl. destruct (Rltb_spec v last) as [H|H]; simpl.
    + rewrite Reqb_false by (apply Hnz; now left). simpl. f_equal.
      apply IH; [intros; apply Hnz; now right|exact Hl].
    + rewrite Reqb_true by reflexivity. simpl.
      apply IH; [intros; apply Hnz; now right|exact Hl].
Qed.

Lemma mask_y_dec x0 x y0 y :
  (forall v, In v (y0 :: y) -> v <> 0) -> length x = length y ->
  let inds := map (fun v => negb (Reqb v 0)) (y_dec (y0 :: y)) in
  combine (mask_select inds (x0 :: x)) (mask_select inds (y0 :: y)) = (x0, y0) :: kept_from y0 x y.
Proof.
  intros Hnz Hl. unfold y_dec. simpl dec_loop. rewrite Rltb_false by lra.
  cbn [map]. rewrite Reqb_false by (apply Hnz; now left). cbn [negb mask_select combine].
  f_equal. apply mask_dec_loop; [intros; apply Hnz; now right|exact Hl].
Qed.

Lemma strictly_increasing_tl a l : strictly_increasing (a :: l) -> strictly_increasing l.
Proof. intros H i j Hij. apply (H (S i) (S j)). simpl. lia. Qed.
Lemma strictly_increasing_hd a l : strictly_increasing (a :: l) -> forall b, In b l -> a < b.
Proof.
  intros H b Hb. apply In_nth with (d := 0) in Hb. destruct Hb as (j & Hj & <-).
  apply (H 0%nat (S j)). simpl. lia.
Qed.

Lemma kept_from_In last x y p : In p (kept_from last x y) -> In (fst p) x /\ snd p < last.
Proof.
  revert last x. induction y as [|v y IH]; intros last x H.
  - destruct x; destruct H.
  - destruct x as [|xi x]; [destruct H|]. simpl in H.
    destruct (Rltb_spec v last) as [h|h].
    + destruct H as [<-|H]; [simpl; auto|].
      apply IH in H. destruct H as [H1 H2]. split; [now right|lra].
    + apply IH in H. destruct H as [H1 H2]. split; [now right|exact H2].
Qed.

Lemma dec_pts_cons p l :
  dec_pts l -> (forall q, In q l -> fst p < fst q /\ snd q < snd p) -> dec_pts (p :: l).
Proof.
  intros Hd H. destruct l as [|q l]; simpl; [trivial|].
  destruct (H q (or_introl eq_refl)) as [h1 h2]. auto.
Qed.

Lemma kept_from_dec last x y : strictly_increasing x -> dec_pts (kept_from last x y).
Proof.
  revert last x. induction y as [|v y IH]; intros last x Hx.
  - destruct x; simpl; trivial.
  - destruct x as [|xi x]; [simpl; trivial|]. simpl.
    assert (Hx' := strictly_increasing_tl _ _ Hx).
    destruct (Rltb_spec v last) as [h|h]; [|now apply IH].
    apply dec_pts_cons; [now apply IH|].
    intros q Hq. apply kept_from_In in Hq. destruct Hq as [Hq1 Hq2].
    split; [|exact Hq2]. simpl. now apply (strictly_increasing_hd _ _ Hx).
Qed.

Lemma kept_from_newmin last x y i :
  length x = length y -> (i < length y)%nat -> nth i y 0 < last ->
  (forall j, (j < i)%nat -> nth i y 0 < nth j y 0) ->
  In (nth i x 0, nth i y 0) (kept_from last x y).
Proof.
  revert last x i. induction y as [|v y IH]; intros last x i Hl Hi Hlast Hmin; [simpl in Hi; lia|].
  destruct x as [|xi x]; [discriminate|]. injection Hl as Hl. simpl kept_from.
  destruct i as [|i].
  - simpl in *. rewrite Rltb_true by exact Hlast. now left.
  - assert (Hv : nth i y 0 < v) by exact (Hmin 0%nat ltac:(lia)).
    assert (Hm' : forall j, (j < i)%nat -> nth i y 0 < nth j y 0)
      by (intros j Hj; exact (Hmin (S j) ltac:(lia))).
    simpl in Hi. cbn [nth]. destruct (Rltb_spec v last) as [h|h].
    + right. apply IH; try assumption; lia.
    + apply IH; try assumption; lia.
Qed.

(** Every sample has a kept sample at or before it which is not larger. *)
Lemma kept_from_below last x y i :
  length x = length y -> (i < length y)%nat -> nth i y 0 < last ->
  strictly_increasing x ->
  exists p, In p (kept_from last x y) /\ fst p <= nth i x 0 /\ snd p <= nth i y 0.
Proof.
  revert last x i. induction y as [|v y IH]; intros last x i Hl Hi Hlast Hx; [simpl in Hi; lia|].
  destruct x as [|xi x]; [discriminate|]. injection Hl as Hl. simpl kept_from.
  assert (Hx' := strictly_increasing_tl _ _ Hx).
  destruct i as [|i].
  - simpl in *. rewrite Rltb_true by exact Hlast. exists (xi, v). simpl. split; [auto|lra].
  - simpl in Hi, Hlast.
    assert (Hxi : xi < nth i x 0).
    { apply (strictly_increasing_hd _ _ Hx). apply nth_In. lia. }
    destruct (Rltb_spec v last) as [h|h].
    + destruct (Rlt_dec (nth i y 0) v) as [hv|hv].
      * destruct (IH v x i Hl ltac:(lia) hv Hx') as (p & Hp & Hp1 & Hp2).
        exists p. split; [now right|]. auto.
      * exists (xi, v). split; [now left|]. simpl. lra.
    + destruct (IH last x i Hl ltac:(lia) Hlast Hx') as (p & Hp & Hp1 & Hp2).
      exists p. auto.
Qed.

(** Only strict new minima are kept. *)
Lemma kept_from_only last x y p :
  length x = length y -> In p (kept_from last x y) ->
  exists i, (i < length y)%nat /\ p = (nth i x 0, nth i y 0) /\ nth i y 0 < last /\
            forall j, (j < i)%nat -> nth i y 0 < nth j y 0.
Proof.
  revert last x. induction y as [|v y IH]; intros last x Hl H.
  - destruct x; destruct H.
  - destruct x as [|xi x]; [destruct H|]. injection Hl as Hl. simpl in H.
    destruct (Rltb_spec v last) as [h|h].
    + destruct H as [<-|H].
      * exists 0%nat. simpl. repeat split; [lia|exact h|intros; lia].
      * destruct (IH v x Hl H) as (i & Hi & -> & Hlt & Hmin).
        exists (S i). simpl. repeat split; [lia|lra|].
        intros [|j] Hj; [exact Hlt|apply Hmin; lia].
    + destruct (IH last x Hl H) as (i & Hi & -> & Hlt & Hmin).
      exists (S i). simpl. repeat split; [lia|exact Hlt|].
      intros [|j] Hj; [lra|apply Hmin; lia].
Qed.

Theorem make_decreasing_correct x y :
  length x = length y -> strictly_increasing x ->
  (forall v, In v y -> v <> 0) -> two_minima y ->
  exists out, make_decreasing x y = Ok out /\
    length out = length y /\
    (forall i j, (i < j < length y)%nat -> nth j out 0 < nth i out 0) /\
    (forall i, new_minimum y i -> nth i out 0 = nth i y 0) /\
    (forall i, (i < length y)%nat -> nth i out 0 <= nth i y 0).
Proof.
  intros Hl Hx Hnz (k & Hk0 & Hk & Hkmin).
  destruct y as [|y0 y]; [simpl in Hk; lia|].
  destruct x as [|x0 x]; [discriminate|]. injection Hl as Hl.
  unfold make_decreasing.
  assert (Hpts := mask_y_dec x0 x y0 y Hnz Hl). cbv zeta in Hpts. cbv zeta. rewrite Hpts.
  set (pts := (x0, y0) :: kept_from y0 x y) in *.
  assert (Hx' := strictly_increasing_tl _ _ Hx).
  assert (Hdec : dec_pts pts).
  { apply dec_pts_cons; [now apply kept_from_dec|].
    intros q Hq. apply kept_from_In in Hq. destruct Hq as [Hq1 Hq2]. simpl.
    split; [now apply (strictly_increasing_hd _ _ Hx)|exact Hq2]. }
  assert (Hnew : forall i, new_minimum (y0 :: y) i -> In (nth i (x0 :: x) 0, nth i (y0 :: y) 0) pts).
  { intros [|i] [Hi Hmin]; [now left|]. right. simpl in Hi. cbn [nth]. apply kept_from_newmin; try assumption; [lia| |].
    - exact (Hmin 0%nat ltac:(lia)).
    - intros j Hj. exact (Hmin (S j) ltac:(lia)). }
  assert (Hlen : (2 <= length pts)%nat).
  { destruct k as [|k]; [lia|].
    assert (Hin : In (nth k x 0, nth k y 0) (kept_from y0 x y)).
    { simpl in Hk. apply kept_from_newmin; try assumption; [lia| |].
      - exact (Hkmin 0%nat ltac:(lia)).
      - intros j Hj. exact (Hkmin (S j) ltac:(lia)). }
    unfold pts. destruct (kept_from y0 x y); [destruct Hin|simpl; lia]. }
  destruct (Nat.ltb_spec (length pts) 2) as [h|h]; [lia|].
  eexists; split; [reflexivity|].
  assert (Hnth : forall i, (i < length (y0 :: y))%nat ->
             nth i (map (interp_ext pts) (x0 :: x)) 0 = interp_ext pts (nth i (x0 :: x) 0)).
  { intros i Hi. rewrite (nth_indep _ 0 (interp_ext pts 0)).
    - apply map_nth.
    - rewrite map_length. simpl in *. lia. }
  split; [|split; [|split]].
  - rewrite map_length. simpl. lia.
  - intros i j Hij. rewrite !Hnth by lia. apply interp_ext_decr; try assumption.
    apply Hx. simpl in *. lia.
  - intros i Hi. rewrite Hnth by apply Hi.
    apply (interp_ext_node pts (nth i (x0 :: x) 0, nth i (y0 :: y) 0)); auto.
  - intros i Hi. rewrite Hnth by exact Hi.
    assert (Hb : exists p, In p pts /\ fst p <= nth i (x0 :: x) 0 /\ snd p <= nth i (y0 :: y) 0).
    { destruct i as [|i].
      - exists (x0, y0). simpl. split; [auto|lra].
      - simpl in Hi. destruct (Rlt_dec (nth i y 0) y0) as [hv|hv].
        + destruct (kept_from_below y0 x y i Hl ltac:(lia) hv Hx') as (p & Hp & H1 & H2).
          exists p. split; [now right|]. auto.
        + exists (x0, y0). split; [now left|]. simpl. split; [|lra].
          apply Rlt_le, (strictly_increasing_hd _ _ Hx). apply nth_In. lia. }
    destruct Hb as (p & Hp & H1 & H2).
    apply Rle_trans with (snd p); [|exact H2].
    rewrite <- (interp_ext_node pts p Hdec Hlen Hp).
    destruct (Req_dec (fst p) (nth i (x0 :: x) 0)) as [->|Hne]; [lra|].
    apply Rlt_le, interp_ext_decr; try assumption. lra.
Qed.

(** ** fill_negatives *)

Lemma good_points_In k arr p :
  In p (good_points k arr) <->
  exists i, (i < length arr)%nat /\ 0 < nth i arr 0 /\ p = (INR (k + i), nth i arr 0).
Proof.
  revert k. induction arr as [|v arr IH]; intros k; simpl.
  - split; [tauto|]. intros (i & Hi & _). lia.
  - assert (Hrec : In p (good_points (S k) arr) <->
       exists i, (i < length arr)%nat /\ 0 < nth i arr 0 /\ p = (INR (k + S i), nth i arr 0)).
    { rewrite IH. split; intros (i & H1 & H2 & H3); exists i;
        (replace (k + S i)%nat with (S k + i)%nat in * by lia); auto. }
    destruct (Rleb_spec v 0) as [H|H].
    + rewrite Hrec. split.
      * intros (i & H1 & H2 & H3). exists (S i). split; [lia|]. auto.
      * intros ([|i] & H1 & H2 & H3); [lra|]. exists i. split; [lia|]. auto.
    + simpl. rewrite Hrec. split.
      * intros [<-|(i & H1 & H2 & H3)].
        -- exists 0%nat. split; [lia|]. split; [lra|]. now rewrite Nat.add_0_r.
        -- exists (S i). split; [lia|]. auto.
      * intros ([|i] & H1 & H2 & H3).
        -- left. rewrite Nat.add_0_r in H3. auto.
        -- right. exists i. split; [lia|]. auto.
Qed.

(** Increasing abscissae *)
Fixpoint inc_pts (pts : list (R * R)) : Prop :=
  match pts with
  | p :: ((q :: _) as tl) => fst p < fst q /\ inc_pts tl
  | _ => True
  end.

Lemma inc_pts_cons p l :
  inc_pts l -> (forall q, In q l -> fst p < fst q) -> inc_pts (p :: l).
Proof.
  intros Hd H. destruct l as [|q l]; simpl; [trivial|].
  split; [apply H; now left|exact Hd].
Qed.
Lemma inc_pts_hd p l : inc_pts (p :: l) -> forall q, In q l -> fst p < fst q.
Proof.
  revert p. induction l as [|y l IH]; intros p H q Hq; [destruct Hq|].
  destruct H as [h1 H]. destruct Hq as [->|Hq]; [exact h1|].
  apply Rlt_trans with (fst y); [exact h1|]. now apply IH.
Qed.
Lemma inc_pts_tl p l : inc_pts (p :: l) -> inc_pts l.
Proof. destruct l; simpl; tauto. Qed.

Lemma good_points_inc k arr : inc_pts (good_points k arr).
Proof.
  revert k. induction arr as [|v arr IH]; intros k; simpl; [trivial|].
  destruct (Rleb v 0); [apply IH|].
  apply inc_pts_cons; [apply IH|]. intros q Hq. apply good_points_In in Hq.
  destruct Hq as (i & _ & _ & ->). cbn [fst]. apply lt_INR. lia.
Qed.

(** Value of np.interp strictly between two neighbouring nodes. *)
Lemma np_interp_mid pts p q x :
  inc_pts pts -> In p pts -> In q pts -> fst p < x < fst q ->
  (forall r, In r pts -> fst r <= fst p \/ fst q <= fst r) ->
  np_interp pts x = seg p q x.
Proof.
  induction pts as [|a tl IH]; intros Hi Hp Hq Hx Hn; [destruct Hp|].
  destruct tl as [|b rest].
  - destruct Hp as [->|[]]. destruct Hq as [->|[]]. lra.
  - change (np_interp (a :: b :: rest) x) with
      (if Rleb x (fst a) then snd a else if Rltb x (fst b) then seg a b x else np_interp (b :: rest) x).
    assert (Ha : forall r, In r (b :: rest) -> fst a < fst r) by now apply inc_pts_hd.
    assert (Hb : forall r, In r rest -> fst b < fst r) by (apply inc_pts_hd; now apply inc_pts_tl in Hi).
    assert (Hqa : a <> q).
    { intros ->. destruct Hp as [->|Hp]; [lra|]. specialize (Ha p Hp). lra. }
    destruct Hq as [Hq|Hq]; [contradiction|].
    destruct Hp as [->|Hp].
    + (* p is the head, so q must be b *)
      assert (Eq : q = b).
      { destruct Hq as [Hq|Hq]; [now symmetry|]. exfalso.
        destruct (Hn b ltac:(right; now left)) as [h|h].
        - specialize (Ha b (or_introl eq_refl)). lra.
        - specialize (Hb q Hq). lra. }
      subst q. rewrite Rleb_false by lra. rewrite Rltb_true by lra. reflexivity.
    + rewrite Rleb_false by (specialize (Ha p Hp); lra).
      assert (Hle : fst b <= fst p).
      { destruct Hp as [->|Hp]; [lra|]. specialize (Hb p Hp). lra. }
      rewrite Rltb_false by lra.
      apply IH; auto.
      * now apply inc_pts_tl in Hi.
      * intros r Hr. apply Hn. now right.
Qed.

Lemma np_interp_left pts p x :
  inc_pts pts -> In p pts -> x < fst p -> (forall r, In r pts -> fst p <= fst r) ->
  np_interp pts x = snd p.
Proof.
  destruct pts as [|a tl]; intros Hi Hp Hx Hmin; [destruct Hp|].
  assert (E : p = a).
  { destruct Hp as [->|Hp]; [reflexivity|].
    assert (fst a < fst p) by now apply (inc_pts_hd _ _ Hi).
    specialize (Hmin a (or_introl eq_refl)). lra. }
  subst p. destruct tl as [|b rest]; [reflexivity|]. simpl. now rewrite Rleb_true by lra.
Qed.

Lemma np_interp_right pts p x :
  inc_pts pts -> In p pts -> fst p < x -> (forall r, In r pts -> fst r <= fst p) ->
  np_interp pts x = snd p.
Proof.
  induction pts as [|a tl IH]; intros Hi Hp Hx Hmax; [destruct Hp|].
  destruct tl as [|b rest].
  - destruct Hp as [->|[]]. reflexivity.
  - change (np_interp (a :: b :: rest) x) with
      (if Rleb x (fst a) then snd a else if Rltb x (fst b) then seg a b x else np_interp (b :: rest) x).
    assert (fst a <= fst p) by (apply Hmax; now left).
    assert (fst b <= fst p) by (apply Hmax; right; now left).
    rewrite Rleb_false by lra. rewrite Rltb_false by lra. apply IH.
    + now apply inc_pts_tl in Hi.
    + destruct Hp as [->|Hp]; [|exact Hp]. exfalso.
      assert (fst p < fst b) by (apply (inc_pts_hd _ _ Hi); now left). lra.
    + exact Hx.
    + intros r Hr. apply Hmax. now right.
Qed.

Lemma fill_negatives_length arr : length (fill_negatives arr) = length arr.
Proof.
  unfold fill_negatives. destruct (good_points 0 arr); [reflexivity|].
  rewrite map_length, combine_length, seq_length. lia.
Qed.

Lemma fill_negatives_nth arr i :
  (i < length arr)%nat -> good_points 0 arr <> [] ->
  nth i (fill_negatives arr) 0 =
  if Rleb (nth i arr 0) 0 then np_interp (good_points 0 arr) (INR i) else nth i arr 0.
Proof.
  intros Hi Hne. unfold fill_negatives.
  destruct (good_points 0 arr) as [|g gs] eqn:E; [congruence|].
  set (F := fun iv : nat * R => if Rleb (snd iv) 0 then np_interp (g :: gs) (INR (fst iv)) else snd iv).
  rewrite (nth_indep _ 0 (F (0%nat, 0))) by (rewrite map_length, combine_length, seq_length; lia).
  rewrite map_nth, combine_nth by apply seq_length.
  rewrite seq_nth by exact Hi. reflexivity.
Qed.

Theorem fill_negatives_no_positive arr :
  (forall i, (i < length arr)%nat -> nth i arr 0 <= 0) -> fill_negatives arr = arr.
Proof.
  intros H. unfold fill_negatives. destruct (good_points 0 arr) as [|p l] eqn:E; [reflexivity|].
  exfalso. assert (Hin : In p (good_points 0 arr)) by (rewrite E; now left).
  apply good_points_In in Hin. destruct Hin as (i & Hi & Hp & _). specialize (H i Hi). lra.
Qed.

Lemma good_points_nonempty arr i :
  (i < length arr)%nat -> 0 < nth i arr 0 -> good_points 0 arr <> [].
Proof.
  intros Hi Hp E.
  assert (Hin : In (INR (0 + i), nth i arr 0) (good_points 0 arr)) by (apply good_points_In; eauto).
  rewrite E in Hin. exact Hin.
Qed.

Theorem fill_negatives_keeps arr i :
  (i < length arr)%nat -> 0 < nth i arr 0 -> nth i (fill_negatives arr) 0 = nth i arr 0.
Proof.
  intros Hi Hp. rewrite fill_negatives_nth; [|exact Hi|now apply good_points_nonempty with i].
  now rewrite Rleb_false.
Qed.

Theorem fill_negatives_mid arr l i r :
  (l < i < r)%nat -> (r < length arr)%nat -> 0 < nth l arr 0 -> 0 < nth r arr 0 ->
  (forall k, (l < k < r)%nat -> nth k arr 0 <= 0) ->
  nth i (fill_negatives arr) 0 = lin_interp l r i (nth l arr 0) (nth r arr 0).
Proof.
  intros Hlr Hr Hl0 Hr0 Hmid.
  rewrite fill_negatives_nth; [|lia|apply good_points_nonempty with l; [lia|exact Hl0]].
  rewrite Rleb_true by (apply Hmid; lia).
  rewrite (np_interp_mid _ (INR l, nth l arr 0) (INR r, nth r arr 0)).
  - unfold seg, lin_interp. simpl.
    assert (INR l < INR r) by (apply lt_INR; lia). field. lra.
  - apply good_points_inc.
  - apply good_points_In. exists l. repeat split; [lia|exact Hl0].
  - apply good_points_In. exists r. repeat split; [lia|exact Hr0].
  - simpl. split; apply lt_INR; lia.
  - intros p Hp. apply good_points_In in Hp. destruct Hp as (k & Hk & Hk0 & ->). simpl.
    destruct (Nat.le_gt_cases k l) as [h|h]; [left; apply le_INR; lia|].
    destruct (Nat.le_gt_cases r k) as [h'|h']; [right; apply le_INR; lia|].
    exfalso. specialize (Hmid k ltac:(lia)). lra.
Qed.

Theorem fill_negatives_head arr i r :
  (i < r < length arr)%nat -> 0 < nth r arr 0 ->
  (forall k, (k < r)%nat -> nth k arr 0 <= 0) ->
  nth i (fill_negatives arr) 0 = nth r arr 0.
Proof.
  intros Hr Hr0 Hmin.
  rewrite fill_negatives_nth; [|lia|apply good_points_nonempty with r; [lia|exact Hr0]].
  rewrite Rleb_true by (apply Hmin; lia).
  apply (np_interp_left _ (INR r, nth r arr 0)).
  - apply good_points_inc.
  - apply good_points_In. exists r. repeat split; [lia|exact Hr0].
  - simpl. apply lt_INR. lia.
  - intros p Hp. apply good_points_In in Hp. destruct Hp as (k & Hk & Hk0 & ->). simpl.
    destruct (Nat.le_gt_cases r k) as [h|h]; [apply le_INR; lia|].
    exfalso. specialize (Hmin k ltac:(lia)). lra.
Qed.

Theorem fill_negatives_tail arr l i :
  (l < i < length arr)%nat -> 0 < nth l arr 0 ->
  (forall k, (l < k < length arr)%nat -> nth k arr 0 <= 0) ->
  nth i (fill_negatives arr) 0 = nth l arr 0.
Proof.
  intros Hl Hl0 Hmax.
  rewrite fill_negatives_nth; [|lia|apply good_points_nonempty with l; [lia|exact Hl0]].
  rewrite Rleb_true by (apply Hmax; lia).
  apply (np_interp_right _ (INR l, nth l arr 0)).
  - apply good_points_inc.
  - apply good_points_In. exists l. repeat split; [lia|exact Hl0].
  - simpl. apply lt_INR. lia.
  - intros p Hp. apply good_points_In in Hp. destruct Hp as (k & Hk & Hk0 & ->). simpl.
    destruct (Nat.le_gt_cases k l) as [h|h]; [apply le_INR; lia|].
    exfalso. specialize (Hmax k ltac:(lia)). lra.
Qed.

(** Nearest positive entries around a non-positive one *)
Lemma last_positive_before arr i :
  (exists l, (l < i)%nat /\ 0 < nth l arr 0 /\ forall k, (l < k < i)%nat -> nth k arr 0 <= 0) \/
  (forall k, (k < i)%nat -> nth k arr 0 <= 0).
Proof.
  induction i as [|i IH]; [right; intros; lia|].
  destruct (Rlt_dec 0 (nth i arr 0)) as [h|h].
  - left. exists i. split; [lia|]. split; [exact h|]. intros; lia.
  - destruct IH as [(l & H1 & H2 & H3)|H].
    + left. exists l. split; [lia|]. split; [exact H2|]. intros k Hk.
      destruct (Nat.eq_dec k i) as [->|]; [lra|]. apply H3. lia.
    + right. intros k Hk. destruct (Nat.eq_dec k i) as [->|]; [lra|]. apply H. lia.
Qed.
Lemma first_positive_after arr i n :
  (exists r, (i < r < i + 1 + n)%nat /\ 0 < nth r arr 0 /\ forall k, (i < k < r)%nat -> nth k arr 0 <= 0) \/
  (forall k, (i < k < i + 1 + n)%nat -> nth k arr 0 <= 0).
Proof.
  induction n as [|n IH]; [right; intros; lia|].
  destruct IH as [(r & H1 & H2 & H3)|H].
  - left. exists r. split; [lia|]. auto.
  - destruct (Rlt_dec 0 (nth (i + 1 + n) arr 0)) as [h|h].
    + left. exists (i + 1 + n)%nat. split; [lia|]. split; [exact h|]. intros; apply H; lia.
    + right. intros k Hk. destruct (Nat.eq_dec k (i + 1 + n)) as [->|]; [lra|]. apply H. lia.
Qed.

Lemma lin_interp_pos l r i fl fr :
  (l < i < r)%nat -> 0 < fl -> 0 < fr -> 0 < lin_interp l r i fl fr.
Proof.
  intros H Hl Hr. unfold lin_interp.
  assert (H1 : INR l < INR i) by (apply lt_INR; lia).
  assert (H2 : INR i < INR r) by (apply lt_INR; lia).
  replace (fl + (fr - fl) * (INR i - INR l) / (INR r - INR l))
    with ((fl * (INR r - INR i) + fr * (INR i - INR l)) / (INR r - INR l)) by (field; lra).
  apply Rdiv_lt_0_compat; nra.
Qed.
Lemma lin_interp_between l r i fl fr :
  (l < i < r)%nat -> lies_between fl fr (lin_interp l r i fl fr).
Proof.
  intros H. unfold lin_interp, lies_between.
  assert (H1 : INR l < INR i) by (apply lt_INR; lia).
  assert (H2 : INR i < INR r) by (apply lt_INR; lia).
  set (t := (INR i - INR l) / (INR r - INR l)).
  assert (Ht : 0 <= t <= 1).
  { unfold t. split.
    - apply Rlt_le, Rdiv_lt_0_compat; lra.
    - apply Rmult_le_reg_r with (INR r - INR l); [lra|].
      unfold Rdiv. rewrite Rmult_assoc, Rinv_l by lra. lra. }
  replace (fl + (fr - fl) * (INR i - INR l) / (INR r - INR l)) with (fl + (fr - fl) * t)
    by (unfold t; field; lra).
  destruct (Rle_dec fl fr).
  - rewrite Rmin_left, Rmax_right by lra. nra.
  - rewrite Rmin_right, Rmax_left by lra. nra.
Qed.

Theorem fill_negatives_positive arr k :
  (k < length arr)%nat -> 0 < nth k arr 0 ->
  forall i, (i < length arr)%nat -> 0 < nth i (fill_negatives arr) 0.
Proof.
  intros Hk Hk0 i Hi.
  destruct (Rlt_dec 0 (nth i arr 0)) as [h|h]; [now rewrite fill_negatives_keeps|].
  destruct (last_positive_before arr i) as [(l & L1 & L2 & L3)|HL],
           (first_positive_after arr i (length arr - i - 1)) as [(r & R1 & R2 & R3)|HR].
  - rewrite (fill_negatives_mid arr l i r); try assumption; try lia.
    + now apply lin_interp_pos.
    + intros j Hj. destruct (Nat.lt_trichotomy j i) as [hj|[->|hj]].
      * apply L3; lia.
      * lra.
      * apply R3; lia.
  - rewrite (fill_negatives_tail arr l i); try assumption; try lia.
    intros j Hj. destruct (Nat.lt_trichotomy j i) as [hj|[->|hj]].
    + apply L3; lia.
    + lra.
    + apply HR; lia.
  - rewrite (fill_negatives_head arr i r); try assumption; try lia.
    intros j Hj. destruct (Nat.lt_trichotomy j i) as [hj|[->|hj]].
    + apply HL; lia.
    + lra.
    + apply R3; lia.
  - exfalso. destruct (Nat.lt_trichotomy k i) as [hj|[->|hj]].
    + specialize (HL k hj). lra.
    + lra.
    + specialize (HR k ltac:(lia)). lra.
Qed.

Lemma fill_negatives_all_positive arr :
  (forall i, (i < length arr)%nat -> 0 < nth i arr 0) -> fill_negatives arr = arr.
Proof.
  intros H. apply nth_ext with (d := 0) (d' := 0); [apply fill_negatives_length|].
  intros i Hi. rewrite fill_negatives_length in Hi. apply fill_negatives_keeps; auto.
Qed.

Theorem fill_negatives_idempotent arr : fill_negatives (fill_negatives arr) = fill_negatives arr.
Proof.
  destruct (good_points 0 arr) as [|p l] eqn:E.
  - unfold fill_negatives at 2 3. rewrite E. unfold fill_negatives. now rewrite E.
  - assert (Hin : In p (good_points 0 arr)) by (rewrite E; now left).
    apply good_points_In in Hin. destruct Hin as (k & Hk & Hk0 & _).
    apply fill_negatives_all_positive. intros i Hi. rewrite fill_negatives_length in Hi.
    now apply fill_negatives_positive with k.
Qed.
