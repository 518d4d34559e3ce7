(** * Proofs about the noise plots: curves, layout, pairs *)
From Coq Require Import String Ascii DecimalString DecimalNat.
From Verif Require Import Base ListLemmas Dft UtilsModel NoiseModel NoiseSpec NoiseProofs7 PlotModel PlotSpec PlotProofs1.
Open Scope R_scope.

(** ** Curves *)
Lemma nth_error_tl {A} (l : list A) k : nth_error (tl l) k = nth_error l (S k).
Proof. destruct l; [destruct k; reflexivity|reflexivity]. Qed.

Lemma length_tl {A} (l : list A) : length (tl l) = (length l - 1)%nat.
Proof. destruct l; cbn; lia. Qed.

Lemma draw_ok x y l : length x = length y -> draw x y l = Ok (mkCurve x y l).
Proof. intros H. unfold draw. rewrite H, Nat.eqb_refl. reflexivity. Qed.

Lemma draw_inv x y l c : draw x y l = Ok c -> c = mkCurve x y l /\ length x = length y.
Proof. unfold draw. destruct (Nat.eqb_spec (length x) (length y)); [|discriminate]. intros H. split; congruence. Qed.

Lemma msqrt_spec v : match msqrt v with Some w => 0 <= w /\ w * w = v | None => v < 0 end.
Proof.
  unfold msqrt. destruct (Rltb_spec v 0); [assumption|]. split; [apply sqrt_pos|]. apply sqrt_sqrt. lra.
Qed.

Lemma amplitude_draw fr row l : length row = length fr ->
  draw (tl fr) (asd row) l = Ok (mkCurve (tl fr) (asd row) l) /\ shows_amplitude fr row l (mkCurve (tl fr) (asd row) l).
Proof.
  intros H. assert (L : length (tl fr) = length (asd row)).
  { unfold asd. rewrite map_length, !length_tl, H. reflexivity. }
  split; [apply draw_ok; exact L|]. unfold shows_amplitude. cbn [c_label c_x c_y].
  split; [reflexivity|]. rewrite <- L, length_tl. split; [reflexivity|]. split; [reflexivity|].
  intros k Hk. split; [apply nth_error_tl|].
  destruct (nth_error_lt row (S k)) as [v Ev]; [lia|].
  exists v, (msqrt v). split; [exact Ev|]. split; [|apply msqrt_spec].
  unfold asd. rewrite nth_error_map, nth_error_tl, Ev. reflexivity.
Qed.

Lemma values_draw fr row l : length row = length fr ->
  draw (tl fr) (map Some (tl row)) l = Ok (mkCurve (tl fr) (map Some (tl row)) l) /\
  shows_values fr row l (mkCurve (tl fr) (map Some (tl row)) l).
Proof.
  intros H. assert (L : length (tl fr) = length (map (@Some R) (tl row))).
  { rewrite map_length, !length_tl, H. reflexivity. }
  split; [apply draw_ok; exact L|]. unfold shows_values. cbn [c_label c_x c_y].
  split; [reflexivity|]. rewrite <- L, length_tl. split; [reflexivity|]. split; [reflexivity|].
  intros k Hk. split; [apply nth_error_tl|].
  destruct (nth_error_lt row (S k)) as [v Ev]; [lia|].
  exists v. split; [|exact Ev]. rewrite nth_error_map, nth_error_tl, Ev. reflexivity.
Qed.

Lemma in_tl {A} (l : list A) a : In a (tl l) -> In a l.
Proof. destruct l; cbn; auto. Qed.

Lemma asd_numbers row x l : (forall v, In v row -> 0 <= v) -> all_numbers (mkCurve x (asd row) l).
Proof.
  intros H y Hy. cbn [c_y] in Hy. unfold asd in Hy. apply in_map_iff in Hy. destruct Hy as (v & <- & Hv).
  unfold msqrt. destruct (Rltb_spec v 0); [|discriminate]. specialize (H v (in_tl _ _ Hv)). lra.
Qed.

Lemma freqs_drawable n fs y l : (0 < n)%nat -> 0 < fs -> log_drawable (mkCurve (tl (rfftfreqs n fs)) y l).
Proof.
  intros Hn Hf. unfold log_drawable. cbn [c_x].
  assert (Hn' : 0 < INR n) by (apply lt_0_INR; lia).
  assert (V : forall k x, nth_error (tl (rfftfreqs n fs)) k = Some x -> x = INR (S k) * (fs / INR n)).
  { intros k x E. rewrite nth_error_tl in E.
    assert (S k < n / 2 + 1)%nat.
    { apply nth_error_Some_lt in E. unfold rfftfreqs in E. rewrite mk_length in E. exact E. }
    rewrite rfftfreqs_nth in E by lia || assumption. assert (x = INR (S k) * fs / INR n) by congruence. rewrite H0. field. lra. }
  assert (P : 0 < fs / INR n) by (apply Rdiv_lt_0_compat; assumption).
  split.
  - intros x Hx. apply In_nth_error in Hx. destruct Hx as [k E]. rewrite (V k x E).
    apply Rmult_lt_0_compat; [apply lt_0_INR; lia|exact P].
  - intros i j x z Hij Ei Ej. rewrite (V i x Ei), (V j z Ej). apply Rmult_lt_compat_r; [exact P|]. apply lt_INR. lia.
Qed.

Lemma overlay_spec fr rows : forall names i, (i + length names <= length rows)%nat ->
  (forall r, In r rows -> length r = length fr) ->
  exists cs, overlay fr rows i names = Ok cs /\ length cs = length names /\
    forall j nm, nth_error names j = Some nm ->
      exists c r, nth_error cs j = Some c /\ nth_error rows (i + j) = Some r /\ c = mkCurve (tl fr) (asd r) (Some nm).
Proof.
  induction names as [|nm names IH]; intros i Hi Hr.
  - exists []. cbn. repeat split. intros [|j] ? E; discriminate.
  - cbn [overlay]. cbn [length] in Hi. unfold row_at.
    destruct (nth_error_lt rows i) as [r Er]; [lia|]. rewrite Er. cbn [bind].
    destruct (amplitude_draw fr r (Some nm)) as [D _]; [apply Hr; eapply nth_error_In; exact Er|].
    rewrite D. cbn [bind]. destruct (IH (S i) ltac:(lia) Hr) as (cs & E & L & H). rewrite E. cbn [bind].
    eexists. split; [reflexivity|]. split; [cbn; lia|].
    intros [|j] nm' Ej.
    + cbn in Ej. assert (nm' = nm) by congruence. subst nm'. exists (mkCurve (tl fr) (asd r) (Some nm)), r.
      rewrite Nat.add_0_r. auto.
    + cbn in Ej. destruct (H j nm' Ej) as (c & r' & H1 & H2 & H3). exists c, r'.
      rewrite Nat.add_succ_r. auto.
Qed.

(** ** Layout *)
Lemma set_nth_length {A} (l : list A) i a : (i < length l)%nat -> length (set_nth l i a) = length l.
Proof. intros H. unfold set_nth. rewrite app_length, firstn_length. cbn [length]. rewrite skipn_length. lia. Qed.

Lemma set_nth_get {A} (l : list A) i a j : (i < length l)%nat ->
  nth_error (set_nth l i a) j = if (j =? i)%nat then Some a else nth_error l j.
Proof.
  intros H. unfold set_nth. destruct (Nat.eqb_spec j i) as [->|Hj].
  - rewrite nth_error_app2 by (rewrite firstn_length; lia). rewrite firstn_length, Nat.min_l by lia.
    rewrite Nat.sub_diag. reflexivity.
  - destruct (Nat.lt_ge_cases j i).
    + rewrite nth_error_app1 by (rewrite firstn_length; lia). rewrite nth_error_firstn.
      destruct (Nat.ltb_spec j i); [reflexivity|lia].
    + rewrite nth_error_app2 by (rewrite firstn_length; lia). rewrite firstn_length, Nat.min_l by lia.
      destruct (j - i)%nat as [|d] eqn:E; [lia|]. cbn [nth_error]. rewrite nth_error_skipn. f_equal. lia.
Qed.

Definition gcell (g : list (list axes)) (r c : nat) : option axes :=
  match nth_error g r with Some row => nth_error row c | None => None end.

Definition two_cols (nrows : nat) (g : list (list axes)) : Prop :=
  length g = nrows /\ forall row, In row g -> length row = 2%nat.

Lemma set_axes_ok nrows g r c a : two_cols nrows g -> (r < nrows)%nat -> (c < 2)%nat ->
  two_cols nrows (set_axes g r c a) /\
  forall r' c', gcell (set_axes g r c a) r' c' = if ((r' =? r) && (c' =? c))%nat then Some a else gcell g r' c'.
Proof.
  intros [L W] Hr Hc. unfold set_axes.
  destruct (nth_error_lt g r) as [row E]; [lia|].
  assert (En : nth r g [] = row) by (apply nth_error_nth; exact E). rewrite En.
  assert (Lr : length row = 2%nat) by (apply W; eapply nth_error_In; exact E).
  split.
  - split; [rewrite set_nth_length; [exact L|lia]|].
    intros q Hq. apply In_nth_error in Hq. destruct Hq as [k Ek]. rewrite set_nth_get in Ek by lia.
    destruct (Nat.eqb_spec k r); [|apply W; eapply nth_error_In; exact Ek].
    assert (Eq : set_nth row c a = q) by congruence. rewrite <- Eq, set_nth_length; [exact Lr|lia].
  - intros r' c'. unfold gcell. rewrite set_nth_get by lia. destruct (Nat.eqb_spec r' r) as [->|]; cbn [andb]; [|reflexivity].
    rewrite set_nth_get by lia. rewrite E. reflexivity.
Qed.

Lemma place_ok nrows ii : (ii < nrows * 2)%nat ->
  (fst (place nrows ii) < nrows)%nat /\ (snd (place nrows ii) < 2)%nat /\
  (fst (place nrows ii) + snd (place nrows ii) * nrows = ii)%nat.
Proof. intros H. unfold place. destruct (Nat.ltb_spec ii nrows); cbn; lia. Qed.

Lemma fill_cells_ok content n nrows : forall is g,
  (forall i, In i is -> (i < nrows * 2)%nat) -> two_cols nrows g -> NoDup is ->
  (forall i, In i is -> (i < n)%nat -> exists a, content i = Ok a) ->
  exists g', fill_cells content n nrows is g = Ok g' /\ two_cols nrows g' /\
    forall r c, (r < nrows)%nat -> (c < 2)%nat ->
      (In (r + c * nrows)%nat is ->
         exists a, gcell g' r c = Some a /\
           (if (r + c * nrows <? n)%nat then content (r + c * nrows)%nat = Ok a else a = switched_off)) /\
      (~ In (r + c * nrows)%nat is -> gcell g' r c = gcell g r c).
Proof.
  induction is as [|ii is IH]; intros g Hi Hg ND HC.
  - exists g. split; [reflexivity|]. split; [exact Hg|]. intros r c _ _. split; [intros []|reflexivity].
  - cbn [fill_cells].
    assert (A : exists a, (if (ii <? n)%nat then content ii else Ok switched_off) = Ok a).
    { destruct (Nat.ltb_spec ii n) as [H|H]; [apply HC; [left; reflexivity|exact H]|eexists; reflexivity]. }
    destruct A as [a Ea]. rewrite Ea. cbn [bind].
    destruct (place_ok nrows ii) as (P1 & P2 & P3); [apply Hi; now left|].
    destruct (set_axes_ok nrows g _ _ a Hg P1 P2) as [Hg' G].
    inversion ND as [|x l Hnin ND']; subst x l.
    destruct (IH (set_axes g (fst (place nrows ii)) (snd (place nrows ii)) a)) as (g' & E & Hw & H); auto.
    { intros i Hin. apply Hi. now right. }
    { intros i Hin. apply HC. now right. }
    exists g'. split; [exact E|]. split; [exact Hw|].
    intros r c Hr Hc. destruct (H r c Hr Hc) as [H1 H2].
    assert (Inj : (r + c * nrows = ii)%nat -> r = fst (place nrows ii) /\ c = snd (place nrows ii)).
    { intros E0. unfold place. destruct (Nat.ltb_spec ii nrows); cbn [fst snd]; destruct c as [|[|c]]; lia. }
    split.
    + intros [E0|Hin]; [|apply H1; exact Hin]. exists a. split.
      * rewrite H2 by (rewrite <- E0; exact Hnin). rewrite G.
        destruct (Inj (eq_sym E0)) as [<- <-]. now rewrite !Nat.eqb_refl.
      * rewrite <- E0. destruct (ii <? n)%nat; [exact Ea|congruence].
    + intros Hnot. rewrite H2 by (intros X; apply Hnot; now right). rewrite G.
      destruct (Nat.eqb_spec r (fst (place nrows ii))); [|reflexivity].
      destruct (Nat.eqb_spec c (snd (place nrows ii))); [|reflexivity].
      exfalso. apply Hnot. left. lia.
Qed.

Lemma subplots_ok content n title (good : nat -> axes -> Prop) : (0 < n)%nat ->
  (forall i, (i < n)%nat -> exists a, content i = Ok a /\ a_hidden a = false /\ good i a) ->
  exists rows, subplots content n = Ok rows /\ laid_out n good (mkFig title rows) /\
    (forall r c a, gcell rows r c = Some a -> a = switched_off \/
       exists i, (i < n)%nat /\ content i = Ok a).
Proof.
  intros Hn HC. unfold subplots. set (nrows := ((n + 1) / 2)%nat).
  assert (B : (n <= 2 * nrows <= n + 1)%nat).
  { unfold nrows. pose proof (Nat.div_mod (n + 1) 2 ltac:(lia)). pose proof (Nat.mod_upper_bound (n + 1) 2 ltac:(lia)). lia. }
  destruct (Nat.eqb_spec nrows 0); [lia|].
  destruct (fill_cells_ok content n nrows (seq 0 (nrows * 2)) (repeat (repeat blank 2) nrows)) as (g & E & [L W] & H).
  { intros i Hi. apply in_seq in Hi. lia. }
  { split; [apply repeat_length|]. intros row Hrow. apply repeat_spec in Hrow. subst row. reflexivity. }
  { apply seq_NoDup. }
  { intros i _ Hi. destruct (HC i Hi) as (a & Ha & _). eauto. }
  exists g. split; [exact E|].
  assert (Cell : forall r c, (r < nrows)%nat -> (c < 2)%nat -> exists a, gcell g r c = Some a /\
           (if (r + c * nrows <? n)%nat then content (r + c * nrows)%nat = Ok a else a = switched_off)).
  { intros r c Hr Hc. apply (H r c Hr Hc). apply in_seq. nia. }
  assert (Bound : forall r c a, gcell g r c = Some a -> (r < nrows)%nat /\ (c < 2)%nat).
  { intros r c a Ea. unfold gcell in Ea. destruct (nth_error g r) as [row|] eqn:Er; [|discriminate].
    split; [apply nth_error_Some_lt in Er; lia|]. apply nth_error_Some_lt in Ea. rewrite (W row) in Ea; [lia|]. eapply nth_error_In; exact Er. }
  split.
  - unfold laid_out. cbn [f_rows]. rewrite L. split; [exact B|]. split; [exact W|]. split.
    + intros i Hi. pose proof (Nat.div_mod i nrows ltac:(lia)) as Dm.
      pose proof (Nat.mod_upper_bound i nrows ltac:(lia)).
      assert (i / nrows < 2)%nat by (apply Nat.div_lt_upper_bound; lia).
      destruct (Cell (i mod nrows) (i / nrows)%nat) as (a & Ea & Ca); [lia|lia|].
      replace (i mod nrows + i / nrows * nrows)%nat with i in Ca by nia.
      destruct (Nat.ltb_spec i n); [|lia]. destruct (HC i Hi) as (a' & Ha' & Hh & Hg).
      assert (a = a') by congruence. subst a'. exists a. split; [exact Ea|]. auto.
    + intros r c a Ea Hn'. unfold cell in Ea. cbn [f_rows] in Ea. fold (gcell g r c) in Ea.
      destruct (Bound r c a Ea) as [Hr Hc].
      destruct (Cell r c Hr Hc) as (a' & Ea' & Ca'). destruct (Nat.ltb_spec (r + c * nrows) n); [lia|].
      assert (a = switched_off) by congruence. subst a. split; reflexivity.
  - intros r c a Ea. destruct (Bound r c a Ea) as [Hr Hc]. destruct (Cell r c Hr Hc) as (a' & Ea' & Ca').
    assert (a' = a) by congruence. subst a'. destruct (Nat.ltb_spec (r + c * nrows) n); [right; eauto|left; exact Ca'].
Qed.

Lemma subplots_none content : subplots content 0 = Err ValueError.
Proof. reflexivity. Qed.
