(** * Proofs about the current, resistance and power plots *)
From Coq Require Import String Ascii.
From Verif Require Import Base ListLemmas UtilsModel IvModel PlotModel PlotSpec PlotProofs3 IvPlotModel IvPlotSpec.
Open Scope R_scope.

(** ** Selections *)
Lemma selected_length n s : length (selected n s) = how_many n s.
Proof. destruct s; cbn; [now rewrite map_length, seq_length|reflexivity|reflexivity]. Qed.

Lemma selected_chosen n s k z : nth_error (selected n s) k = Some z <-> chosen n s k z.
Proof.
  destruct s as [|y|l]; cbn.
  - rewrite nth_error_map. destruct (Nat.ltb_spec k n) as [H|H].
    + rewrite (nth_error_nth' _ 0%nat) by now rewrite seq_length. rewrite seq_nth by exact H. cbn.
      split; [intros E; split; [exact H|congruence]|intros [_ ->]; reflexivity].
    + assert (E : nth_error (seq 0 n) k = None) by (apply nth_error_None; rewrite seq_length; exact H).
      rewrite E. cbn. split; [discriminate|intros [H1 _]; lia].
  - destruct k as [|k]; cbn; [split; [intros E; split; congruence|intros [_ ->]; reflexivity]|].
    destruct k; (split; [discriminate|intros [H _]; discriminate]).
  - reflexivity.
Qed.

Lemma axis_index_place n z i : place n z i -> axis_index n z = Ok i.
Proof.
  intros [Hi [-> | ->]]; unfold axis_index.
  - destruct (Z.leb_spec 0 (Z.of_nat i)); [|lia]. destruct (Z.ltb_spec (Z.of_nat i) (Z.of_nat n)); [|lia].
    cbn. f_equal. lia.
  - destruct (Z.leb_spec 0 (Z.of_nat i - Z.of_nat n)); [lia|]. cbn [andb].
    destruct (Z.leb_spec (- Z.of_nat n) (Z.of_nat i - Z.of_nat n)); [|lia]. 
    destruct (Z.ltb_spec (Z.of_nat i - Z.of_nat n) 0); [|lia]. cbn. f_equal. lia.
Qed.

Lemma axis_index_none n z : (forall i, ~ place n z i) -> axis_index n z = Err IndexError.
Proof.
  intros H. unfold axis_index. destruct (Z.leb_spec 0 z); cbn [andb].
  - destruct (Z.ltb_spec z (Z.of_nat n)); [exfalso; apply (H (Z.to_nat z)); split; lia|].
    destruct (Z.ltb_spec z 0); [lia|]. rewrite Bool.andb_false_r. reflexivity.
  - destruct (Z.leb_spec (- Z.of_nat n) z); cbn [andb]; [|reflexivity].
    destruct (Z.ltb_spec z 0); [|lia]. exfalso. apply (H (Z.to_nat (z + Z.of_nat n))). split; lia.
Qed.

Lemma place_dec n z : (exists i, place n z i) \/ forall i, ~ place n z i.
Proof.
  destruct (Z.ltb_spec z (Z.of_nat n)) as [H|H]; [|right; intros i [? ?]; lia].
  destruct (Z.leb_spec 0 z); [left; exists (Z.to_nat z); split; lia|].
  destruct (Z.leb_spec (- Z.of_nat n) z); [left; exists (Z.to_nat (z + Z.of_nat n)); split; lia|].
  right. intros i [? ?]; lia.
Qed.

(** ** Drawing one group *)
Lemma scaled_in_unit u row : in_unit u row (scaled u row).
Proof.
  unfold in_unit, scaled. induction row as [|[v|] row IH]; cbn; constructor; auto.
Qed.

Lemma check_err_ok u a t c : 0 <= u -> nonneg a -> check_err (scaled u (a t c)) = Ok (scaled u (a t c)).
Proof.
  intros Hu Ha. unfold check_err. assert (E : existsb (fun v => match v with Some v => Rltb v 0 | None => false end) (scaled u (a t c)) = false).
  { specialize (Ha t c). unfold scaled. induction (a t c) as [|[v|] l IH]; cbn; [reflexivity| |].
    - rewrite Rltb_false; [apply IH; intros w Hw; apply Ha; now right|].
      apply Rmult_le_pos; [apply Ha; now left|exact Hu].
    - apply IH; intros w Hw; apply Ha; now right. }
  now rewrite E.
Qed.

Lemma axis_name o c j : length (v_names o) = v_nc o -> place (v_nc o) c j ->
  exists nm, nth_error (v_names o) j = Some nm /\
    bind (axis_index (length (v_names o)) c) (row_at (v_names o)) = Ok nm.
Proof.
  intros Hn Hp. rewrite Hn, (axis_index_place _ _ _ Hp). cbn [bind]. unfold row_at. destruct Hp as [Hj _].
  destruct (nth_error (v_names o) j) as [nm|] eqn:E; [|apply nth_error_None in E; lia]. now exists nm.
Qed.

Lemma at_row_ok {A} o (a : nat -> nat -> A) t c i j : place (v_nt o) t i -> place (v_nc o) c j -> at_row o (Some a) t c = Ok (a i j).
Proof. intros Ht Hc. unfold at_row. cbn [subscriptable bind]. rewrite (axis_index_place _ _ _ Ht), (axis_index_place _ _ _ Hc). reflexivity. Qed.

Lemma at_rows_ok o (a : rows) t c i j : place (v_nt o) t i -> place (v_nc o) c j -> at_row o (@Some rows a) t c = Ok (a i j).
Proof. exact (at_row_ok o a t c i j). Qed.

(** The drawn group. *)
Definition group_of (ibis : bool) (o : ivobj) (vb vbe y ye : rows) (u : R) (kcol : nat) (t : Z) (i j : nat) (nm : string)
    (fl : option (list (option R) * list (option R))) : group :=
  let x := scaled 1000000 (vb i j) in let yk := scaled u (y i j) in
  mkGroup (group_label o t nm) kcol (x, yk) (x, yk) (x, yk) (scaled u (ye i j))
    (if ibis then Some (scaled 1000000 (vbe i j)) else None) fl.

Lemma draw_group_ok ibis o vb vbe y ye u (sf : bool) kcol t c i j nm fl : v_vb o = Some vb -> 0 <= u -> nonneg ye ->
  (ibis = true -> v_vb_err o = Some vbe /\ nonneg vbe) -> length (v_names o) = v_nc o ->
  place (v_nt o) t i -> place (v_nc o) c j -> nth_error (v_names o) j = Some nm ->
  (if sf then exists f, fit_line o (vb i j) t c = Ok f /\ fl = Some f else fl = None) ->
  draw_group ibis o (Some y) (Some ye) u sf kcol t c = Ok (group_of ibis o vb vbe y ye u kcol t i j nm fl).
Proof.
  intros Hv Hu Hye Hb Hn Ht Hc Hnm Hf. unfold draw_group. rewrite Hn, (axis_index_place _ _ _ Hc). cbn [bind].
  unfold row_at at 1. rewrite Hnm. cbn [bind]. rewrite Hv. rewrite (at_rows_ok o vb _ _ _ _ Ht Hc), (at_rows_ok o y _ _ _ _ Ht Hc), (at_rows_ok o ye _ _ _ _ Ht Hc). cbn [bind].
  assert (Hu6 : 0 <= 1000000) by lra.
  destruct ibis; [destruct (Hb eq_refl) as [Hb1 Hb2]; rewrite Hb1, (at_rows_ok o vbe _ _ _ _ Ht Hc); cbn [bind];
    rewrite (check_err_ok _ _ _ _ Hu6 Hb2)|]; cbn [bind]; rewrite (check_err_ok _ _ _ _ Hu Hye); cbn [bind];
    (destruct sf; [destruct Hf as (f & Hf & ->); rewrite Hf|subst fl]; reflexivity).
Qed.

Lemma draw_group_range ibis o y ye u sf kcol t c vb : v_vb o = Some vb -> length (v_names o) = v_nc o ->
  (forall i, ~ place (v_nt o) t i) \/ (forall j, ~ place (v_nc o) c j) -> draw_group ibis o y ye u sf kcol t c = Err IndexError.
Proof.
  intros Hv Hn H. unfold draw_group. rewrite Hn. destruct (place_dec (v_nc o) c) as [[j Hj]|Hj]; [|rewrite (axis_index_none _ _ Hj); reflexivity].
  assert (Ht : forall i, ~ place (v_nt o) t i) by (destruct H as [H|H]; [exact H|destruct (H j Hj)]).
  rewrite (axis_index_place _ _ _ Hj). cbn [bind]. unfold row_at at 1.
  destruct (nth_error (v_names o) j) eqn:E; [|reflexivity]. cbn [bind]. rewrite Hv. unfold at_row. cbn [subscriptable bind].
  rewrite (axis_index_none _ _ Ht). reflexivity.
Qed.

(** ** The double loop *)
Lemma nth_error_list_prod {A B} (l : list A) (l' : list B) a b x y : nth_error l a = Some x -> nth_error l' b = Some y ->
  nth_error (list_prod l l') (a * length l' + b) = Some (x, y).
Proof.
  intros Ha Hb. revert a Ha. induction l as [|z l IH]; intros [|a] Ha; try discriminate.
  - cbn [list_prod Nat.mul Nat.add]. rewrite nth_error_app1; [|rewrite map_length; apply nth_error_Some; congruence].
    rewrite nth_error_map, Hb. cbn. cbn in Ha. congruence.
  - cbn [list_prod]. rewrite nth_error_app2 by (rewrite map_length; cbn; lia). rewrite map_length.
    replace (S a * length l' + b - length l')%nat with (a * length l' + b)%nat by (cbn; lia). apply IH. exact Ha.
Qed.

Lemma combine_seq_nth {A} (l : list A) a x : nth_error l a = Some x -> nth_error (combine (seq 0 (length l)) l) a = Some (a, x).
Proof.
  intros H. assert (La : (a < length l)%nat) by (apply nth_error_Some; congruence).
  assert (G : forall s, nth_error (combine (seq s (length l)) l) a = Some ((s + a)%nat, x)).
  { clear La. revert a H. induction l as [|z l IH]; intros [|a] H s; try discriminate; cbn [length seq combine nth_error] in *.
    - rewrite Nat.add_0_r. congruence.
    - rewrite (IH a H (S s)). f_equal. f_equal. lia. }
  apply (G 0%nat).
Qed.

Lemma each_nth {A B} (f : A -> res B) l r : each f l = Ok r -> length r = length l /\
  forall k a, nth_error l k = Some a -> exists b, nth_error r k = Some b /\ f a = Ok b.
Proof.
  revert r. induction l as [|a l IH]; intros r; cbn [each].
  - intros [= <-]. split; [reflexivity|]. intros [|k] x; discriminate.
  - destruct (f a) as [b|] eqn:Ef; cbn [bind]; [|discriminate]. destruct (each f l) as [bs|]; cbn [bind]; [|discriminate].
    intros [= <-]. destruct (IH bs eq_refl) as [L N]. split; [cbn; lia|]. intros [|k] x Hk; cbn in *; [injection Hk as <-; eauto|apply N; exact Hk].
Qed.

Lemma each_total {A B} (f : A -> res B) l : (forall a, In a l -> exists b, f a = Ok b) -> exists r, each f l = Ok r.
Proof.
  induction l as [|a l IH]; intros H; cbn [each]; [eauto|]. destruct (H a (or_introl eq_refl)) as [b ->]. cbn [bind].
  destruct IH as [r ->]; [intros; apply H; now right|]. cbn. eauto.
Qed.

Lemma each_err {A B} (f : A -> res B) l e : (forall a, In a l -> (exists b, f a = Ok b) \/ f a = Err e) ->
  (exists a, In a l /\ f a = Err e) -> each f l = Err e.
Proof.
  induction l as [|a l IH]; intros H [x [Hx Ex]]; [destruct Hx|]. cbn [each].
  destruct (H a (or_introl eq_refl)) as [[b Eb]|Ea]; [|rewrite Ea; reflexivity]. rewrite Eb. cbn [bind].
  rewrite IH; [reflexivity|intros; apply H; now right|]. destruct Hx as [->|Hx]; [congruence|eauto].
Qed.

Lemma in_pairs {A} (l : list A) p : In p (combine (seq 0 (length l)) l) -> nth_error l (fst p) = Some (snd p).
Proof.
  intros H. apply In_nth_error in H. destruct H as [n Hn].
  assert (Ln : (n < length l)%nat).
  { assert (E : nth_error (combine (seq 0 (length l)) l) n <> None) by congruence. apply nth_error_Some in E. rewrite combine_length, seq_length in E. lia. }
  destruct (nth_error l n) as [x|] eqn:Ex; [|apply nth_error_None in Ex; lia].
  rewrite (combine_seq_nth _ _ _ Ex) in Hn. assert (p = (n, x)) by congruence. subst p. exact Ex.
Qed.


(** ** The fit line *)
Lemma py_max_acc l x : exists m, fold_left (fun m x => if ogt x m then x else m) (map (@Some R) l) (Some x) = Some m /\
  In m (x :: l) /\ forall v, In v (x :: l) -> v <= m.
Proof.
  revert x. induction l as [|y l IH]; intros x; cbn [map fold_left].
  - exists x. split; [reflexivity|]. split; [now left|]. intros v [<-|[]]. lra.
  - cbn [ogt]. destruct (Rltb_spec x y) as [H|H].
    + destruct (IH y) as (m & E & Hin & Hm). exists m. split; [exact E|]. split; [destruct Hin as [->|Hin]; [right; left; reflexivity|right; right; exact Hin]|].
      intros v [<-|Hv]; [specialize (Hm y (or_introl eq_refl)); lra|apply Hm; exact Hv].
    + destruct (IH x) as (m & E & Hin & Hm). exists m. split; [exact E|]. split; [destruct Hin as [->|Hin]; [left; reflexivity|right; right; exact Hin]|].
      intros v [<-|[<-|Hv]]; [apply Hm; now left|specialize (Hm x (or_introl eq_refl)); lra|apply Hm; now right].
Qed.

Lemma py_min_acc l x : exists m, fold_left (fun m x => if ogt m x then x else m) (map (@Some R) l) (Some x) = Some m /\
  In m (x :: l) /\ forall v, In v (x :: l) -> m <= v.
Proof.
  revert x. induction l as [|y l IH]; intros x; cbn [map fold_left].
  - exists x. split; [reflexivity|]. split; [now left|]. intros v [<-|[]]. lra.
  - cbn [ogt]. destruct (Rltb_spec y x) as [H|H].
    + destruct (IH y) as (m & E & Hin & Hm). exists m. split; [exact E|]. split; [destruct Hin as [->|Hin]; [right; left; reflexivity|right; right; exact Hin]|].
      intros v [<-|Hv]; [specialize (Hm y (or_introl eq_refl)); lra|apply Hm; exact Hv].
    + destruct (IH x) as (m & E & Hin & Hm). exists m. split; [exact E|]. split; [destruct Hin as [->|Hin]; [left; reflexivity|right; right; exact Hin]|].
      intros v [<-|[<-|Hv]]; [apply Hm; now left|specialize (Hm x (or_introl eq_refl)); lra|apply Hm; now right].
Qed.

Lemma of_largest_acc l x : exists m,
  fold_left (fun m x => match m, x with
                        | None, _ => None
                        | Some _, None => None
                        | Some u, Some v => if Rltb (Rabs u) (Rabs v) then Some v else Some u
                        end) (map (@Some R) l) (Some x) = Some m /\
  In m (x :: l) /\ forall v, In v (x :: l) -> Rabs v <= Rabs m.
Proof.
  revert x. induction l as [|y l IH]; intros x; cbn [map fold_left].
  - exists x. split; [reflexivity|]. split; [now left|]. intros v [<-|[]]. lra.
  - destruct (Rltb_spec (Rabs x) (Rabs y)) as [H|H].
    + destruct (IH y) as (m & E & Hin & Hm). exists m. split; [exact E|]. split; [destruct Hin as [->|Hin]; [right; left; reflexivity|right; right; exact Hin]|].
      intros v [<-|Hv]; [specialize (Hm y (or_introl eq_refl)); lra|apply Hm; exact Hv].
    + destruct (IH x) as (m & E & Hin & Hm). exists m. split; [exact E|]. split; [destruct Hin as [->|Hin]; [left; reflexivity|right; right; exact Hin]|].
      intros v [<-|[<-|Hv]]; [apply Hm; now left|specialize (Hm x (or_introl eq_refl)); lra|apply Hm; now right].
Qed.

Lemma no_nan_values (row : list (option R)) : ~ In None row -> exists l, row = map (@Some R) l.
Proof.
  induction row as [|[v|] row IH]; intros H; [exists []; reflexivity| |exfalso; apply H; now left].
  destruct IH as [l ->]; [intros Hn; apply H; now right|]. exists (v :: l). reflexivity.
Qed.

Lemma scaled_some u l : scaled u (map (@Some R) l) = map (@Some R) (map (fun v => v * u) l).
Proof. unfold scaled. rewrite !map_map. reflexivity. Qed.

Lemma linspace_line r a b e : (a = 0 /\ b = e) \/ (a = e /\ b = 0) ->
  line_from_origin r e (linspace10 (Some a) (Some b), map (option_map (fun v => 1 / r * v)) (linspace10 (Some a) (Some b))).
Proof.
  intros H. unfold line_from_origin. cbn [fst snd]. unfold linspace10. split; [apply mk_length|]. split; [rewrite map_length; apply mk_length|].
  exists (fun n => a + INR n * ((b - a) / 9)). split.
  - intros n Hn. rewrite nth_error_map, mk_nth_error. destruct (Nat.ltb_spec n 10); [|lia]. cbn. split; [reflexivity|].
    f_equal. f_equal. unfold Rdiv. ring.
  - destruct H as [[-> ->]|[-> ->]]; [left|right]; intros n; lra.
Qed.

Lemma fit_line_ok o row rfit t c i j : v_rfit o = Some rfit -> place (v_nt o) t i -> place (v_nc o) c j -> row <> [] -> ~ In None row ->
  exists f e, fit_line o row t c = Ok f /\ farthest row e /\ line_from_origin (rfit i j) (e * 10 ^ 6) f.
Proof.
  intros Hr Ht Hc Hne Hnan. destruct (no_nan_values row Hnan) as [l ->]. destruct l as [|x l]; [contradiction|].
  destruct (of_largest_acc l x) as (m & Em & Hin & Hmax).
  unfold fit_line. rewrite scaled_some. cbn [map]. unfold of_largest. rewrite Em. cbn [bind ogt].
  assert (F : farthest (map (@Some R) (x :: l)) m).
  { split; [exact (in_map (@Some R) (x :: l) m Hin)|]. intros v Hv. apply in_map_iff in Hv. destruct Hv as (w & Ew & Hw).
    assert (w = v) by congruence. subst w. apply Hmax. exact Hw. }
  assert (T : 10 ^ 6 = 1000000) by ring.
  destruct (Rltb_spec 0 m) as [H0|H0].
  - unfold py_max. destruct (py_max_acc (map (fun v => v * 1000000) l) (x * 1000000)) as (mm & E1 & I1 & M1). rewrite E1.
    cbn [bind]. rewrite Hr, (at_row_ok o rfit _ _ _ _ Ht Hc). cbn [bind]. eexists. exists m. split; [reflexivity|]. split; [exact F|].
    apply linspace_line. left. split; [reflexivity|]. rewrite T.
    assert (I2 : In mm (map (fun v => v * 1000000) (x :: l))) by exact I1. apply in_map_iff in I2. destruct I2 as (w & Ew & Hw).
    specialize (M1 (m * 1000000) (in_map (fun v => v * 1000000) (x :: l) m Hin)).
    specialize (Hmax w Hw). rewrite (Rabs_right m) in Hmax by lra. pose proof (Rle_abs w). lra.
  - unfold py_min. destruct (py_min_acc (map (fun v => v * 1000000) l) (x * 1000000)) as (mm & E1 & I1 & M1). rewrite E1.
    cbn [bind]. rewrite Hr, (at_row_ok o rfit _ _ _ _ Ht Hc). cbn [bind]. eexists. exists m. split; [reflexivity|]. split; [exact F|].
    apply linspace_line. right. split; [|reflexivity]. rewrite T.
    assert (I2 : In mm (map (fun v => v * 1000000) (x :: l))) by exact I1. apply in_map_iff in I2. destruct I2 as (w & Ew & Hw).
    specialize (M1 (m * 1000000) (in_map (fun v => v * 1000000) (x :: l) m Hin)).
    specialize (Hmax w Hw). rewrite (Rabs_left1 m) in Hmax by lra. pose proof (Rle_abs (- w)) as A. rewrite Rabs_Ropp in A. lra.
Qed.

Lemma fit_line_total o row rfit t c i j : v_rfit o = Some rfit -> place (v_nt o) t i -> place (v_nc o) c j -> row <> [] ->
  exists f, fit_line o row t c = Ok f.
Proof.
  intros Hr Ht Hc Hne. destruct row as [|x row]; [contradiction|]. unfold fit_line. cbn [of_largest bind scaled map py_max py_min].
  match goal with |- context [if ?b then _ else _] => destruct b end; cbn [bind]; rewrite Hr, (at_row_ok o rfit _ _ _ _ Ht Hc); cbn [bind]; eauto.
Qed.
