(** * Proofs: the objective of the fits and the values set by processtraces *)
From Coq Require Import Reals Lra Lia Psatz.
From Coquelicot Require Import Complex.
From Verif Require Import Base Dft ListLemmas UtilsModel DidvModel DidvSpec DidvProofs1 DidvProofs2 DidvProofs3 DidvProofs4 DidvProofs5 DidvProofs6.
Local Open Scope R_scope.

(** ** The residual *)
Lemma residual_length d params : length (didv_residual d params) = (2 * length d)%nat.
Proof. unfold didv_residual. induction d as [|[[f y] e] d IH]; [reflexivity|]. cbn [flat_map app length] in *. lia. Qed.
Lemma fit_admittance_doc params f : (length params = 3 \/ length params = 5 \/ length params = 7)%nat ->
  fit_admittance params f = (cis (- (2 * PI * f * last params 0)) / doc_dvdi params f)%C.
Proof.
  intros H.
  assert (E : forall x, expm (f * x) = cis (- (2 * PI * f * x))) by (intros x; unfold expm; f_equal; ring).
  destruct H as [H|[H|H]].
  - destruct params as [|A [|t2 [|dt [|? ?]]]]; try discriminate H. cbn [fit_admittance doc_dvdi last].
    rewrite E. unfold onepoleadmittance, onepoleimpedance. rewrite jw_iomega. unfold Cdiv. ring.
  - destruct params as [|A [|B [|t1 [|t2 [|dt [|? ?]]]]]]; try discriminate H. cbn [fit_admittance doc_dvdi last].
    rewrite E. unfold twopoleadmittance, twopoleimpedance. rewrite jw_iomega. unfold Cdiv. ring.
  - destruct params as [|A [|B [|C' [|t1 [|t2 [|t3 [|dt [|? ?]]]]]]]]; try discriminate H. cbn [fit_admittance doc_dvdi last].
    rewrite E. unfold threepoleadmittance, threepoleimpedance. rewrite jw_iomega. unfold Cdiv. ring.
Qed.
Lemma residual_chi_square d params : (length params = 3 \/ length params = 5 \/ length params = 7)%nat ->
  lsum (map (fun x => x ^ 2) (didv_residual d params)) = chi_square d params.
Proof.
  intros H. unfold chi_square, didv_residual, lsum. induction d as [|[[f y] e] d IH]; [reflexivity|].
  cbn [flat_map app map fold_right]. cbv zeta in *. rewrite IH. rewrite fit_admittance_doc by exact H. unfold Rdiv. rewrite !Rmult_1_l, Rplus_assoc. reflexivity.
Qed.

Lemma combine_mk {A B} n (a : list A) (b : list B) da db : length a = n -> length b = n ->
  combine a b = map (fun k => (nth k a da, nth k b db)) (seq 0 n).
Proof.
  intros Ha Hb. apply (nth_ext _ _ (da, db) (nth 0 a da, nth 0 b db)).
  - rewrite combine_length, map_length, seq_length. lia.
  - rewrite combine_length. intros i Hi. rewrite combine_nth by lia.
    change (nth 0 a da, nth 0 b db) with ((fun k => (nth k a da, nth k b db)) 0%nat).
    rewrite map_nth, seq_nth by lia. reflexivity.
Qed.
Lemma filter_map {A B} (g : B -> bool) (f : A -> B) l : filter g (map f l) = map f (filter (fun x => g (f x)) l).
Proof. induction l as [|x l IH]; [reflexivity|]. cbn. destruct (g (f x)); cbn; now rewrite IH. Qed.
Lemma fit_bins_value p d fc n :
  length (p_freq p) = n -> length (d_mean d) = n -> length (d_std d) = n ->
  fit_bins p d fc
  = map (fun k => (nth k (p_freq p) 0, nth k (d_mean d) (RtoC 0), nth k (d_std d) (RtoC 0)))
      (filter (fun k => match fc with None => true | Some c => if Rlt_dec (Rabs (nth k (p_freq p) 0)) c then true else false end) (seq 0 n)).
Proof.
  intros H1 H2 H3. unfold fit_bins.
  rewrite (combine_mk n (combine (p_freq p) (d_mean d)) (d_std d) (0, RtoC 0) (RtoC 0)); [|rewrite combine_length; lia|exact H3].
  rewrite filter_map, map_map. cbn [fst snd].
  assert (E : forall k, nth k (combine (p_freq p) (d_mean d)) (0, RtoC 0) = (nth k (p_freq p) 0, nth k (d_mean d) (RtoC 0))) by (intros k; apply combine_nth; lia).
  rewrite (filter_ext _ (fun k => match fc with None => true | Some c => if Rlt_dec (Rabs (nth k (p_freq p) 0)) c then true else false end)).
  2:{ intros k. rewrite E. reflexivity. }
  apply map_ext. intros k. now rewrite E.
Qed.

(** ** Maxima *)
Lemma fold_max l : forall x, is_max (x :: l) (fold_left Rmax l x).
Proof.
  induction l as [|y l IH]; intros x; cbn [fold_left].
  - split; [now left|]. intros z [<-|[]]. lra.
  - destruct (IH (Rmax x y)) as [[H|H] M]; split.
    + rewrite <- H. unfold Rmax. destruct (Rle_dec x y); [right; now left|now left].
    + assert (X := M _ (or_introl eq_refl)). assert (X1 := Rmax_l x y). assert (X2 := Rmax_r x y).
      intros z [<-|[<-|Hz]]; [lra|lra|apply M; now right].
    + right. now right.
    + assert (X := M _ (or_introl eq_refl)). assert (X1 := Rmax_l x y). assert (X2 := Rmax_r x y).
      intros z [<-|[<-|Hz]]; [lra|lra|apply M; now right].
Qed.
Lemma maxl_value l x : is_max l x -> maxl l = x.
Proof.
  intros [H1 H2]. destruct l as [|a l]; [destruct H1|]. cbn [maxl]. destruct (fold_max l a) as [F1 F2].
  assert (A := H2 _ F1). assert (B := F2 _ H1). lra.
Qed.
Lemma fold_min l : forall x, is_min (x :: l) (fold_left Rmin l x).
Proof.
  induction l as [|y l IH]; intros x; cbn [fold_left].
  - split; [now left|]. intros z [<-|[]]. lra.
  - destruct (IH (Rmin x y)) as [[H|H] M]; split.
    + rewrite <- H. unfold Rmin. destruct (Rle_dec x y); [now left|right; now left].
    + assert (X := M _ (or_introl eq_refl)). assert (X1 := Rmin_l x y). assert (X2 := Rmin_r x y).
      intros z [<-|[<-|Hz]]; [lra|lra|apply M; now right].
    + right. now right.
    + assert (X := M _ (or_introl eq_refl)). assert (X1 := Rmin_l x y). assert (X2 := Rmin_r x y).
      intros z [<-|[<-|Hz]]; [lra|lra|apply M; now right].
Qed.
Lemma minl_value l x : is_min l x -> minl l = x.
Proof.
  intros [H1 H2]. destruct l as [|a l]; [destruct H1|]. cbn [minl]. destruct (fold_min l a) as [F1 F2].
  assert (A := H2 _ F1). assert (B := F2 _ H1). lra.
Qed.

(** ** The kept traces *)
Lemma all_some_mk {A} n (f : nat -> option A) g : (forall k, (k < n)%nat -> f k = Some (g k)) -> all_some (mk n f) = Some (mk n g).
Proof.
  intros H. unfold mk. assert (K : forall l, (forall k, In k l -> f k = Some (g k)) -> all_some (map f l) = Some (map g l)).
  { induction l as [|x l IH]; intros Hl; [reflexivity|]. cbn. rewrite (Hl x (or_introl eq_refl)), IH; [reflexivity|]. intros k Hk. apply Hl. now right. }
  apply K. intros k Hk. apply in_seq in Hk. apply H. lia.
Qed.
Lemma all_some_none {A} n (f : nat -> option A) k : (k < n)%nat -> f k = None -> all_some (mk n f) = None.
Proof.
  intros Hk H. unfold mk. assert (K : forall l, In k l -> all_some (map f l) = None).
  { induction l as [|x l IH]; intros Hl; [destruct Hl|]. cbn. destruct Hl as [->|Hl]; [now rewrite H|].
    rewrite IH by exact Hl. now destruct (f x). }
  apply K. apply in_seq. lia.
Qed.
(** The deconvolved value of one bin (meaningful where the DFT value does not vanish). *)
Definition didv_val (n : nat) (t : nat -> R) (rsh sgamp sgfreq duty : R) (tr : list R) (k : nat) : C :=
  match fst (deconvolvedidv n t (fun j => nth j tr 0) rsh sgamp sgfreq duty k) with Some c => c | None => RtoC 0 end.
Lemma decon_none n t tr rsh sgamp sgfreq duty k :
  fst (deconvolvedidv n t (fun j => nth j tr 0) rsh sgamp sgfreq duty k) = None <-> trace_dft n tr k = RtoC 0.
Proof.
  unfold deconvolvedidv, trace_dft. cbv zeta. destruct (Ceq_dec _ _) as [E|E]; cbn [fst]; split; try tauto; discriminate.
Qed.
Lemma kept_value n t rsh sgamp sgfreq duty traces :
  keep_some (map (fun tr => (tr, all_some (mk n (fun k => fst (deconvolvedidv n t (fun j => nth j tr 0) rsh sgamp sgfreq duty k))))) traces)
  = map (fun tr => (tr, mk n (didv_val n t rsh sgamp sgfreq duty tr))) (filter (no_zero_bin n) traces).
Proof.
  induction traces as [|tr traces IH]; [reflexivity|]. cbn [map filter]. unfold keep_some in *. cbn [flat_map]. rewrite IH. cbn [fst snd].
  destruct (no_zero_bin n tr) eqn:Z.
  - rewrite (all_some_mk n _ (didv_val n t rsh sgamp sgfreq duty tr)); [reflexivity|].
    intros k Hk. unfold didv_val. destruct (fst _) eqn:E; [reflexivity|]. exfalso.
    apply decon_none in E. unfold no_zero_bin in Z. rewrite forallb_forall in Z.
    assert (X := Z k ltac:(apply in_seq; lia)). destruct (Ceq_dec _ _); [discriminate|contradiction].
  - assert (X : exists k, (k < n)%nat /\ trace_dft n tr k = RtoC 0).
    { unfold no_zero_bin in Z. assert (Y : existsb (fun k => if Ceq_dec (trace_dft n tr k) (RtoC 0) then true else false) (seq 0 n) = true).
      { apply Bool.not_false_iff_true. intros N. apply Bool.not_true_iff_false in Z. apply Z. apply forallb_forall. intros k Hk.
        destruct (Ceq_dec _ _) eqn:Ek; [|reflexivity]. exfalso. apply Bool.not_true_iff_false in N. apply N.
        apply existsb_exists. exists k. split; [exact Hk|]. now rewrite Ek. }
      apply existsb_exists in Y. destruct Y as (k & Hk & Ek). apply in_seq in Hk. exists k. split; [lia|].
      destruct (Ceq_dec _ _); [assumption|discriminate]. }
    destruct X as (k & Hk & Ek). rewrite (all_some_none n _ k Hk); [reflexivity|]. now apply decon_none.
Qed.

(** ** What processtraces sets *)
Section Values.
Context (o : didv) (q : nat) (dt0 : R) (p : processed).
Hypothesis (Hq : (0 < q)%nat) (Hsg : 0 < dsgfreq o) (Hfs : dfs o / dsgfreq o = INR q) (Hp : process o dt0 = Ok p).
Local Notation len := (length (nth 0 (raw o) [])).
Local Notation n := (q * (len / q))%nat.
Definition tm (j : nat) : R := nth j (p_time p) 0.
Local Notation val' := (didv_val n tm (drsh o) (dsgamp o) (dsgfreq o) (dduty o)).
Definition scaled_raw : list (list R) := map (fun r => map (fun v => v / dtracegain o) (firstn n r)) (raw o).

Lemma values :
  (2 <= n)%nat /\
  p_time p = mk n (fun j => INR j * (1 / dfs o) - dt0) /\
  p_freq p = mk n (didvfreq n tm) /\
  p_traces p = filter (no_zero_bin n) scaled_raw /\
  p_ntraces p = length (p_traces p) /\
  match p_data p with
  | None => p_traces p = []
  | Some d => p_traces p <> [] /\
      d_tmean d = mk n (fun k => lmean (map (fun tr => nth k tr 0) (p_traces p))) /\
      d_zero d = mk n (fun k => snd (deconvolvedidv n tm (fun j => nth j (d_tmean d) 0) (drsh o) (dsgamp o) (dsgfreq o) (dduty o) k)) /\
      d_std d = mk n (fun k => if nth k (d_zero d) false then (100000000000000000000, 100000000000000000000)
          else (stdcomplex (map (fun tr => val' tr k) (p_traces p)) / RtoC (sqrt (INR (length (p_traces p)))))%C) /\
      d_mean d = mk n (fun k => cmean (map (fun tr => val' tr k) (p_traces p))) /\
      d_offset d = lmean (map lmean (p_traces p)) /\
      d_offset_err d = sqrt (lvar (map lmean (p_traces p))) / sqrt (INR (length (p_traces p)))
  end.
Proof.
  revert Hp. unfold process, scaled_raw, tm. destruct (raw o) as [|r rs] eqn:E; [discriminate|].
  cbn [nth]. cbv zeta. rewrite (nperiods_eq o q Hq Hsg Hfs), (indmax_eq o q Hq Hfs).
  destruct (_ <? _)%nat; [discriminate|]. destruct (flat_indices _ _ _ _ _) as [fl|e]; [|discriminate]. cbn [bind].
  destruct (Nat.ltb_spec (q * (length r / q)) 2) as [|N2]; [discriminate|]. rewrite kept_value.
  set (nn := (q * (length r / q))%nat) in *.
  set (good := filter (no_zero_bin nn) (map (fun r0 => map (fun v => v / dtracegain o) (firstn nn r0)) (r :: rs))).
  set (time := mk nn (fun j => INR j * (1 / dfs o) - dt0)).
  rewrite !map_map. cbn [fst snd]. rewrite map_id, map_length. intros Ep.
  assert (H' : forall A (f : processed -> A) a b, (@Ok processed a = Ok b) -> f a = f b) by (intros A f a b [= ->]; reflexivity).
  assert (Et : p_time p = time) by (symmetry; exact (H' _ p_time _ _ Ep)).
  assert (Etr : p_traces p = good) by (symmetry; exact (H' _ p_traces _ _ Ep)).
  rewrite Et, Etr. split; [exact N2|]. split; [reflexivity|].
  split; [symmetry; exact (H' _ p_freq _ _ Ep)|]. split; [reflexivity|].
  split; [symmetry; exact (H' _ p_ntraces _ _ Ep)|].
  rewrite <- (H' _ p_data _ _ Ep). cbn [p_data]. destruct (Nat.eqb_spec (length good) 0) as [L0|L0].
  - now apply length_zero_iff_nil in L0.
  - cbn [d_tmean d_zero d_std d_mean d_offset d_offset_err]. split; [intros X; apply L0; now rewrite X|]. split; [reflexivity|]. split; [reflexivity|].
    split.
    + apply mk_ext. intros k Hk. destruct (nth k _ false); [reflexivity|]. rewrite map_map. do 2 f_equal.
      apply map_ext. intros tr. now rewrite mk_nth.
    + split; [|split; reflexivity]. apply mk_ext. intros k Hk. rewrite map_map. f_equal. apply map_ext. intros tr. now rewrite mk_nth.
Qed.
End Values.
