(** * Residuals, chi2, and the argument checks of the fits *)
From Coq Require Import Reals ZArith List Bool Lia Lra.
From Verif Require Import Base ListLemmas Dft UtilsModel UtilsSpec WindowModel WindowProofs CutModel OFModel OFProofs2 NonlinModel NonlinSpec NonlinProofs2.
From Coquelicot Require Import Complex.
Import ListNotations.
Local Open Scope R_scope.

(** ** Hermitian symmetry *)
Lemma pole_conj tau w : pole tau (- w) = Cconj (pole tau w).
Proof.
  rewrite !NonlinProofs1.pole_parts. unfold Cconj. cbn [fst snd].
  assert (D := NonlinProofs1.denom_pos w tau).
  replace ((- w * tau) ^ 2) with ((w * tau) ^ 2) by ring. f_equal. field. lra.
Qed.
Lemma delay_conj w t0 : delay_phase (- w) t0 = Cconj (delay_phase w t0).
Proof.
  unfold delay_phase, cis, Cconj. cbn [fst snd].
  replace (- (- w * t0)) with (w * t0) by ring. rewrite cos_neg, sin_neg. f_equal. ring.
Qed.
Lemma conj_RtoC x : Cconj (RtoC x) = RtoC x.
Proof. unfold Cconj, RtoC. simpl. f_equal. ring. Qed.
Lemma conj_mult x y : Cconj (x * y)%C = (Cconj x * Cconj y)%C.
Proof. unfold Cconj, Cmult. simpl. f_equal; ring. Qed.
Lemma conj_plus x y : Cconj (x + y)%C = (Cconj x + Cconj y)%C.
Proof. unfold Cconj, Cplus. simpl. f_equal; ring. Qed.
Lemma conj_minus x y : Cconj (x - y)%C = (Cconj x - Cconj y)%C.
Proof. unfold Cconj, Cminus, Cplus, Copp. simpl. f_equal; ring. Qed.
Lemma pole_form x tau w : (RtoC x / (1 + RtoC (w * tau) * Ci))%C = (RtoC x * / (1 + RtoC (w * tau) * Ci))%C.
Proof. reflexivity. Qed.
Lemma inv_conj tau w : (/ (1 + RtoC (- w * tau) * Ci))%C = Cconj (/ (1 + RtoC (w * tau) * Ci))%C.
Proof.
  assert (D := NonlinProofs1.denom_pos w tau).
  unfold Cconj, Cinv, Cplus, Cmult, RtoC, Ci. cbn [fst snd]. simpl in D.
  assert (0 < (1 + (w * tau * 0 - 0 * 1)) * ((1 + (w * tau * 0 - 0 * 1)) * 1)
          + (0 + (w * tau * 1 + 0 * 0)) * ((0 + (w * tau * 1 + 0 * 0)) * 1)) by lra.
  f_equal; field; nra.
Qed.

Lemma omega_neg n fs k : (0 < k < n)%nat -> (2 * k <> n)%nat -> omega n fs (n - k) = - omega n fs k.
Proof. intros H N. unfold omega. rewrite (fftfreq_neg n fs k H N). ring. Qed.

Lemma model_hermitian n fs npole sc tr params f k : nl_model n fs npole sc tr params = Ok (Some f) ->
  (0 < k < n)%nat -> (2 * k <> n)%nat -> f (n - k)%nat = Cconj (f k).
Proof.
  intros E H N. assert (W := omega_neg n fs k H N).
  assert (T : forall A r g t0 f, twopole n fs sc A r g t0 = Some f -> f (n - k)%nat = Cconj (f k)).
  { clear E f. intros A r g t0 f. unfold twopole. destruct sc.
    - destruct (scaled_amp A r g) as [amp|]; [|intros X; discriminate X].
      intros X. assert (F := f_equal (fun o => match o with Some f => f | None => fun _ => RtoC 0 end) X). cbv beta iota in F.
      subst f. cbv beta zeta. rewrite W. unfold Cdiv. rewrite !inv_conj, delay_conj, !conj_mult, !conj_RtoC. reflexivity.
    - intros X. assert (F := f_equal (fun o => match o with Some f => f | None => fun _ => RtoC 0 end) X). cbv beta iota in F.
      subst f. cbv beta zeta. rewrite W, !pole_conj, delay_conj.
      rewrite !conj_mult, !conj_minus, !conj_mult, !conj_RtoC. reflexivity. }
  unfold nl_model in E.
  destruct (npole =? 4)%Z.
  { destruct params as [|A [|B [|D [|r [|g1 [|g2 [|g3 [|t0 [|]]]]]]]]]; try discriminate E.
    assert (F := f_equal (fun o => match o with Ok (Some f) => f | _ => fun _ => RtoC 0 end) E). cbv beta iota in F. subst f.
    unfold fourpole. rewrite W, !pole_conj, delay_conj.
    rewrite !conj_mult, !conj_minus, !conj_plus, !conj_mult, !conj_RtoC. reflexivity. }
  destruct (npole =? 3)%Z.
  { destruct params as [|A [|B [|r [|g1 [|g2 [|t0 [|]]]]]]]; try discriminate E.
    assert (F := f_equal (fun o => match o with Ok (Some f) => f | _ => fun _ => RtoC 0 end) E). cbv beta iota in F. subst f.
    unfold threepole. rewrite W, !pole_conj, delay_conj.
    rewrite !conj_mult, !conj_minus, !conj_plus, !conj_mult, !conj_RtoC. reflexivity. }
  destruct (npole =? 2)%Z.
  { destruct params as [|A [|r [|g [|t0 [|]]]]]; try discriminate E.
    assert (F := f_equal (fun o => match o with Ok f => f | _ => None end) E). cbv beta iota in F. eapply T; exact F. }
  destruct params as [|A [|g [|t0 [|]]]]; try discriminate E. unfold onepole in E. destruct tr as [r|]; [|discriminate E].
  assert (F := f_equal (fun o => match o with Ok f => f | _ => None end) E). cbv beta iota in F. eapply T; exact F.
Qed.

(** ** Residuals and chi2 *)
Lemma rsum_pairs n g : rsum (2 * n) g = rsum n (fun k => g (2 * k)%nat + g (2 * k + 1)%nat).
Proof.
  induction n as [|n IH]; [reflexivity|].
  replace (2 * S n)%nat with (S (S (2 * n))) by lia. cbn [rsum]. rewrite IH.
  replace (2 * n + 1)%nat with (S (2 * n)) by lia. ring.
Qed.

Lemma div2_even k : Nat.div2 (2 * k) = k.
Proof. apply Nat.div2_double. Qed.
Lemma div2_odd k : Nat.div2 (2 * k + 1) = k.
Proof. replace (2 * k + 1)%nat with (S (2 * k)) by lia. apply Nat.div2_succ_double. Qed.

Lemma z1d_sumsq n data model error : sumsq (z1d n data model error) = chi2_sum n data model error.
Proof.
  unfold sumsq, z1d, chi2_sum. unfold mk. rewrite map_map.
  match goal with |- lsum (map ?g (seq 0 _)) = _ => change (lsum (mk (2 * n) g) = rsum n (fun k => cn2 (data k - model k)%C / error k ^ 2)) end.
  rewrite lsum_mk, rsum_pairs. apply rsum_ext. intros k _. cbv beta zeta.
  rewrite div2_even, div2_odd.
  replace (Nat.even (2 * k)) with true by (symmetry; apply Nat.even_spec; exists k; reflexivity).
  replace (Nat.even (2 * k + 1)) with false.
  2: { symmetry. rewrite Nat.add_1_r, Nat.even_succ. apply Bool.not_true_is_false. intros O. apply Nat.odd_spec in O.
       destruct O as (j & O). lia. }
  unfold cn2. generalize (data k - model k)%C. intros z. destruct (Req_dec (error k) 0) as [->|Ne].
  - unfold Rdiv. rewrite pow_i by lia. rewrite !Rinv_0. ring.
  - simpl. field. exact Ne.
Qed.

Lemma chi2_weighted n data model psd es : (forall k, (k < n)%nat -> 0 < psd k) -> 0 < es ->
  chi2_sum n data model (nl_error psd es) = weighted n psd es (fun k => data k - model k)%C.
Proof.
  intros Hp He. apply rsum_ext. intros k Hk. unfold nl_error.
  assert (P := Hp k Hk). assert (Q : 0 < psd k / es) by (now apply Rdiv_lt_0_compat).
  replace (sqrt (psd k / es) ^ 2) with (psd k / es). 2: { rewrite <- Rsqr_pow2, Rsqr_sqrt; lra. }
  field. lra.
Qed.

(** ** The argument checks of least_squares *)
Lemma forall2b_nth {A B} (f : A -> B -> bool) l m da db : length l = length m ->
  forall2b f l m = true <-> (forall i, (i < length l)%nat -> f (nth i l da) (nth i m db) = true).
Proof.
  unfold forall2b. revert m. induction l as [|a l IH]; intros [|b m] L; simpl in L; try discriminate.
  - split; [intros _ i Hi; simpl in Hi; lia|reflexivity].
  - simpl. rewrite andb_true_iff, IH by lia. split.
    + intros [H1 H2] [|i] Hi; [exact H1|apply H2; lia].
    + intros H. split; [exact (H O ltac:(lia))|]. intros i Hi. exact (H (S i) ltac:(lia)).
Qed.

Lemma Rltb_t x y : Rltb x y = true <-> x < y.
Proof. unfold Rltb. destruct (Rlt_dec x y); split; intros H; try easy; lra. Qed.
Lemma Rleb_t x y : Rleb x y = true <-> x <= y.
Proof. unfold Rleb. destruct (Rle_dec x y); split; intros H; try easy; lra. Qed.

Lemma proper_iff lb ub : length lb = length ub -> forall2b lb_lt_ub lb ub = true <-> proper_bounds lb ub.
Proof.
  intros L. rewrite (forall2b_nth lb_lt_ub lb ub None None L). unfold proper_bounds. split.
  - intros H i l u El Eu. destruct (Nat.lt_ge_cases i (length lb)) as [C|C].
    + specialize (H i C). rewrite El, Eu in H. now apply Rltb_t.
    + rewrite nth_overflow in El by lia. discriminate El.
  - intros H i Hi. destruct (nth i lb None) as [l|] eqn:El; [|reflexivity].
    destruct (nth i ub None) as [u|] eqn:Eu; [|reflexivity]. simpl. apply Rltb_t. eapply H; eassumption.
Qed.

Lemma inside_iff lb ub x : length lb = length x -> length ub = length x ->
  (forall2b lb_le lb x && forall2b le_ub x ub)%bool = true <-> inside lb ub x.
Proof.
  intros L U. rewrite andb_true_iff, (forall2b_nth lb_le lb x None 0 L), (forall2b_nth le_ub x ub 0 None (eq_sym U)).
  unfold inside. split.
  - intros [H1 H2]. split; [exact L|]. split; [exact U|]. intros i Hi. split.
    + intros l El. specialize (H1 i ltac:(lia)). rewrite El in H1. now apply Rleb_t.
    + intros u Eu. specialize (H2 i Hi). rewrite Eu in H2. now apply Rleb_t.
  - intros (_ & _ & H). split; intros i Hi.
    + destruct (nth i lb None) as [l|] eqn:El; [|reflexivity]. apply Rleb_t. apply (H i ltac:(lia)). exact El.
    + destruct (nth i ub None) as [u|] eqn:Eu; [|reflexivity]. apply Rleb_t. apply (H i Hi). exact Eu.
Qed.

Definition resid_fun (resid : list R -> res (option (list R))) (p : list R) : list R :=
  match resid p with Ok (Some z) => z | _ => [] end.

Lemma least_squares_ok lsq resid x0 lb ub s z :
  inside lb ub x0 -> proper_bounds lb ub -> (forall v, In v s -> 0 < v) -> resid x0 = Ok (Some z) ->
  least_squares lsq resid x0 (lb, ub) s = Ok (lsq (resid_fun resid) x0 lb ub s).
Proof.
  intros I P S E. destruct (I) as (L & U & _). unfold least_squares. rewrite L, U, Nat.eqb_refl. cbn [andb negb].
  rewrite (proj2 (proper_iff lb ub ltac:(congruence)) P). cbn [negb].
  rewrite (proj2 (inside_iff lb ub x0 L U) I). cbn [negb].
  assert (F : forallb (fun v => Rltb 0 v) s = true).
  { apply forallb_forall. intros v Hv. apply Rltb_t. now apply S. }
  rewrite F. cbn [negb]. rewrite E. reflexivity.
Qed.

Lemma least_squares_inv lsq resid x0 lb ub s r : least_squares lsq resid x0 (lb, ub) s = Ok r ->
  inside lb ub x0 /\ proper_bounds lb ub /\ (forall v, In v s -> 0 < v) /\
  (exists z, resid x0 = Ok (Some z)) /\ r = lsq (resid_fun resid) x0 lb ub s.
Proof.
  unfold least_squares.
  destruct (Nat.eqb (length lb) (length x0) && Nat.eqb (length ub) (length x0))%bool eqn:L; cbn [negb]; [|intros X; discriminate X].
  apply andb_true_iff in L. destruct L as [L U]. apply Nat.eqb_eq in L, U.
  destruct (forall2b lb_lt_ub lb ub) eqn:P; cbn [negb]; [|intros X; discriminate X].
  apply proper_iff in P; [|congruence].
  destruct (forall2b lb_le lb x0 && forall2b le_ub x0 ub)%bool eqn:I; cbn [negb]; [|intros X; discriminate X].
  apply inside_iff in I; [|assumption|assumption].
  destruct (forallb (fun v => Rltb 0 v) s) eqn:S; cbn [negb]; [|intros X; discriminate X].
  destruct (resid x0) as [[z|]|e] eqn:E; cbn [bind]; [|intros X; discriminate X|intros X; discriminate X].
  intros X. split; [exact I|]. split; [exact P|]. split; [|split].
  - intros v Hv. apply Rltb_t. exact (proj1 (forallb_forall _ _) S v Hv).
  - now exists z.
  - exact (f_equal (fun o => match o with Ok a => a | Err _ => r end) (eq_sym X)).
Qed.

Lemma least_squares_scale lsq resid x0 b s v : In v s -> v <= 0 -> least_squares lsq resid x0 b s = Err ValueError.
Proof.
  intros Hv N. unfold least_squares. destruct b as [lb ub].
  assert (F : forallb (fun v => Rltb 0 v) s = false).
  { apply Bool.not_true_is_false. intros F. assert (X := proj1 (forallb_forall _ _) F v Hv). apply Rltb_t in X. lra. }
  rewrite F. cbn [negb]. repeat match goal with |- context [if negb ?c then _ else _] => destruct (negb c) end; reflexivity.
Qed.

(** Only ValueError comes from the argument checks. *)
Lemma least_squares_nan lsq resid x0 b s : resid x0 = Ok None -> least_squares lsq resid x0 b s = Err ValueError.
Proof.
  intros E. unfold least_squares. destruct b as [lb ub]. rewrite E. cbn [bind].
  repeat match goal with |- context [if ?c then _ else _] => destruct c end; reflexivity.
Qed.

(** ** argmax *)
Lemma argmax_argmin l : forall i best bv, argmax_from i best bv l = argmin_from i best (- bv) (map Ropp l).
Proof.
  induction l as [|v l IH]; intros i best bv; [reflexivity|]. simpl.
  replace (Rltb (- v) (- bv)) with (Rltb bv v).
  2: { unfold Rltb. destruct (Rlt_dec bv v), (Rlt_dec (- v) (- bv)); try reflexivity; lra. }
  destruct (Rltb bv v); apply IH.
Qed.

Lemma np_argmax_spec l m : np_argmax l = Ok m <-> first_max l m.
Proof.
  assert (K : l <> [] -> first_max l (argmax l)).
  { intros Hl. assert (E : argmin (map Ropp l) = Ok (argmax l)).
    { destruct l as [|v l]; [contradiction|]. simpl. now rewrite argmax_argmin. }
    destruct (argmin_spec _ _ E) as (H1 & H2). rewrite map_length in H1, H2.
    assert (O : forall i, nth i (map Ropp l) 0 = - nth i l 0).
    { intros i. rewrite <- (map_nth Ropp l 0 i). f_equal. ring. }
    split; [exact H1|]. intros i Hi. destruct (H2 i Hi) as (H3 & H4). rewrite !O in H3, H4. split; [lra|].
    intros X. specialize (H4 X). lra. }
  assert (U : forall a b, first_max l a -> first_max l b -> a = b).
  { intros a b (A1 & A2) (B1 & B2). destruct (Nat.lt_trichotomy a b) as [X|[X|X]]; [|exact X|].
    - destruct (B2 a A1) as (_ & Y). destruct (A2 b B1) as (Z & _). specialize (Y X). lra.
    - destruct (A2 b B1) as (_ & Y). destruct (B2 a A1) as (Z & _). specialize (Y X). lra. }
  split.
  - intros E. destruct l as [|v l]; [discriminate E|]. injection E as <-. apply K. discriminate.
  - intros F. destruct l as [|v l]; [destruct F as (F & _); simpl in F; lia|].
    simpl. f_equal. apply U; [|exact F]. apply K. discriminate.
Qed.
