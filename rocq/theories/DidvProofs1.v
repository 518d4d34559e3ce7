(** * Proofs: conversions, impedances, fall times *)
From Coq Require Import Reals Lra Lia.
From Coquelicot Require Import Complex.
From Verif Require Import Base Dft ListLemmas UtilsModel DidvModel DidvSpec.
From Coq Require Import Sorting.Permutation.
Local Open Scope R_scope.

Lemma RtoC_neq x : x <> 0 -> RtoC x <> RtoC 0.
Proof. intros H E. apply H. now injection E. Qed.
Lemma jw_iomega f : jw f = iomega f.
Proof. apply Ceq; simpl; ring. Qed.
Lemma jw_conj f : jw (- f) = Cconj (jw f).
Proof. apply Ceq; simpl; ring. Qed.
Lemma pole_neq f t : (1 + jw f * RtoC t)%C <> RtoC 0.
Proof. intros E. apply (f_equal fst) in E. simpl in E. lra. Qed.

(** ** Conversions *)
Lemma from_to_two A B tau1 tau2 dt rsh r0 rp :
  r0 <> 0 -> A <> 0 -> A + r0 - (rsh + rp) <> 0 -> A + B + r0 - (rsh + rp) <> 0 ->
  (do p <- converttotesvalues [A; B; tau1; tau2; dt] rsh r0 rp; convertfromtesvalues p) = Ok [A; B; tau1; tau2; dt].
Proof.
  intros H0 HA H1 H2. cbn [converttotesvalues bind convertfromtesvalues]. cbv zeta.
  assert (E : rsh + rp + r0 * (1 + ((A - (rsh + rp)) / r0 - 1)) = A) by (field; assumption).
  rewrite E. repeat f_equal; try (field; try assumption).
  - split; [|split]; try assumption. intros E'. apply H1. lra.
  - split; try assumption. intros E'. apply H1. lra.
Qed.
Lemma from_to_three A B C' tau1 tau2 tau3 dt rsh r0 rp :
  r0 <> 0 -> A <> 0 -> A + r0 - (rsh + rp) <> 0 -> A + B + r0 - (rsh + rp) <> 0 ->
  (do p <- converttotesvalues [A; B; C'; tau1; tau2; tau3; dt] rsh r0 rp; convertfromtesvalues p)
  = Ok [A; B; C'; tau1; tau2; tau3; dt].
Proof.
  intros H0 HA H1 H2. cbn [converttotesvalues bind convertfromtesvalues]. cbv zeta.
  assert (E : rsh + rp + r0 * (1 + ((A - (rsh + rp)) / r0 - 1)) = A) by (field; assumption).
  rewrite E. repeat f_equal; try (field; try assumption).
  - split; [|split]; try assumption. intros E'. apply H1. lra.
  - split; try assumption. intros E'. apply H1. lra.
  - split; try assumption. intros E'. apply H1. lra.
Qed.
Lemma from_to_one A tau2 dt rsh r0 rp : A <> 0 ->
  (do p <- converttotesvalues [A; tau2; dt] rsh r0 rp; convertfromtesvalues p) = Ok [A; tau2; dt].
Proof.
  intros HA. cbn [converttotesvalues bind convertfromtesvalues].
  replace (rsh + (A - rsh)) with A by ring. repeat f_equal. field. assumption.
Qed.
Lemma to_from_one rsh rp L dt r0 rp' : rsh + rp <> 0 ->
  (do p <- convertfromtesvalues [rsh; rp; L; dt]; converttotesvalues p rsh r0 rp') = Ok [rsh; rp; L; dt].
Proof.
  intros H. cbn [converttotesvalues bind convertfromtesvalues]. repeat f_equal; field. assumption.
Qed.
Lemma tes_denominators rl r0 beta l : l <> 1 ->
  let A := rl + r0 * (1 + beta) in let B := r0 * l / (1 - l) * (2 + beta) in
  A + r0 - rl = r0 * (2 + beta) /\ A + B + r0 - rl = r0 * (2 + beta) / (1 - l).
Proof. intros H A B. unfold A, B. split; [ring|]. field. lra. Qed.
Lemma to_from_two rsh rp r0 beta l L tau0 dt :
  r0 <> 0 -> l <> 1 -> 2 + beta <> 0 -> rsh + rp + r0 * (1 + beta) <> 0 ->
  (do p <- convertfromtesvalues [rsh; rp; r0; beta; l; L; tau0; dt]; converttotesvalues p rsh r0 rp)
  = Ok [rsh; rp; r0; beta; l; L; tau0; dt].
Proof.
  intros H0 Hl Hb HA. cbn [converttotesvalues bind convertfromtesvalues]. cbv zeta.
  destruct (tes_denominators (rsh + rp) r0 beta l Hl) as [E1 E2]. cbv zeta in E1, E2. rewrite E2, E1.
  assert (1 - l <> 0) by lra.
  repeat f_equal; field; repeat split; assumption.
Qed.
Lemma to_from_three rsh rp r0 beta l L tau0 gratio tau3 dt :
  r0 <> 0 -> l <> 1 -> 2 + beta <> 0 -> rsh + rp + r0 * (1 + beta) <> 0 ->
  (do p <- convertfromtesvalues [rsh; rp; r0; beta; l; L; tau0; gratio; tau3; dt]; converttotesvalues p rsh r0 rp)
  = Ok [rsh; rp; r0; beta; l; L; tau0; gratio; tau3; dt].
Proof.
  intros H0 Hl Hb HA. cbn [converttotesvalues bind convertfromtesvalues]. cbv zeta.
  destruct (tes_denominators (rsh + rp) r0 beta l Hl) as [E1 E2]. cbv zeta in E1, E2. rewrite E2, E1.
  assert (1 - l <> 0) by lra.
  repeat f_equal; field; repeat split; assumption.
Qed.

(** ** Impedances *)
Lemma line_impedance f A L : A <> 0 -> (RtoC A * (1 + jw f * RtoC (L / A)))%C = (RtoC A + jw f * RtoC L)%C.
Proof. intros H. rewrite RtoC_div by exact H. field. now apply RtoC_neq. Qed.

Lemma Z1 f rsh rp L : rsh + rp <> 0 ->
  onepoleimpedance f (rsh + rp) (L / (rsh + rp)) = doc_onepole (iomega f) rsh rp L.
Proof.
  intros H. unfold onepoleimpedance, doc_onepole. rewrite line_impedance, jw_iomega, RtoC_plus by exact H. ring.
Qed.
Lemma B_doc r0 beta l : l <> 1 ->
  RtoC (r0 * l / (1 - l) * (2 + beta)) = (RtoC r0 * (2 + RtoC beta) * RtoC l / (1 - RtoC l))%C.
Proof.
  intros H. assert (H' : 1 - l <> 0) by lra.
  rewrite !RtoC_mult, RtoC_div, !RtoC_mult, RtoC_minus, RtoC_plus by exact H'.
  field. intros E. apply H'. apply (f_equal fst) in E. simpl in E. lra.
Qed.
Lemma Z2 f rsh rp r0 beta l L tau0 : l <> 1 -> rsh + rp + r0 * (1 + beta) <> 0 ->
  twopoleimpedance f (rsh + rp + r0 * (1 + beta)) (r0 * l / (1 - l) * (2 + beta)) (tau0 / (1 - l)) (L / (rsh + rp + r0 * (1 + beta)))
  = doc_twopole (iomega f) rsh rp r0 beta l L tau0.
Proof.
  intros Hl HA. unfold twopoleimpedance, doc_twopole. rewrite line_impedance, B_doc by assumption.
  rewrite jw_iomega. rewrite !RtoC_plus, RtoC_mult, RtoC_plus.
  assert (H' : 1 - l <> 0) by lra.
  rewrite RtoC_div, RtoC_minus by exact H'.
  unfold Cdiv. rewrite !Cmult_assoc. ring.
Qed.
Lemma Z3 f rsh rp r0 beta l L tau0 gratio tau3 : l <> 1 -> rsh + rp + r0 * (1 + beta) <> 0 ->
  threepoleimpedance f (rsh + rp + r0 * (1 + beta)) (r0 * l / (1 - l) * (2 + beta)) (gratio / (1 - l)) (tau0 / (1 - l))
    (L / (rsh + rp + r0 * (1 + beta))) tau3
  = doc_threepole (iomega f) rsh rp r0 beta l L tau0 gratio tau3.
Proof.
  intros Hl HA. unfold threepoleimpedance, doc_threepole. rewrite line_impedance, B_doc by assumption.
  rewrite jw_iomega. rewrite !RtoC_plus, RtoC_mult, RtoC_plus.
  assert (H' : 1 - l <> 0) by lra.
  rewrite !RtoC_div, RtoC_minus by exact H'.
  unfold Cdiv. rewrite !Cmult_assoc. ring.
Qed.

Lemma conj_div a b : Cconj (a / b)%C = (Cconj a / Cconj b)%C.
Proof. unfold Cdiv. now rewrite Cconj_mult, Cconj_inv. Qed.
Lemma conj_plus a b : Cconj (a + b)%C = (Cconj a + Cconj b)%C.
Proof. apply Ceq; simpl; ring. Qed.
Lemma conj_minus a b : Cconj (a - b)%C = (Cconj a - Cconj b)%C.
Proof. apply Ceq; simpl; ring. Qed.

Ltac conjs := repeat (rewrite ?conj_div, ?conj_plus, ?conj_minus, ?Cconj_mult, ?Cconj_R, ?jw_conj).
Lemma conj_one f A t : onepoleimpedance (- f) A t = Cconj (onepoleimpedance f A t).
Proof. unfold onepoleimpedance. conjs. reflexivity. Qed.
Lemma conj_two f A B t1 t2 : twopoleimpedance (- f) A B t1 t2 = Cconj (twopoleimpedance f A B t1 t2).
Proof. unfold twopoleimpedance. conjs. reflexivity. Qed.
Lemma conj_three f A B C' t1 t2 t3 : threepoleimpedance (- f) A B C' t1 t2 t3 = Cconj (threepoleimpedance f A B C' t1 t2 t3).
Proof. unfold threepoleimpedance. conjs. reflexivity. Qed.
Lemma conj_three_adm f A B C' t1 t2 t3 : threepoleadmittance (- f) A B C' t1 t2 t3 = Cconj (threepoleadmittance f A B C' t1 t2 t3).
Proof. unfold threepoleadmittance. rewrite conj_three. conjs. reflexivity. Qed.

Lemma impedance_conj f a z : compleximpedance f a = Ok z -> compleximpedance (- f) a = Ok (Cconj z).
Proof.
  unfold compleximpedance. destruct (pole_extractor a) as [p|e]; [|discriminate]. cbn [bind].
  destruct (convertfromtesvalues (tes_tuple p a)) as [q|e]; [|discriminate]. cbn [bind].
  destruct q as [|q1 [|q2 [|q3 [|q4 [|q5 [|q6 [|q7 [|q8 q]]]]]]]]; try discriminate; intros [= <-].
  - now rewrite conj_one.
  - now rewrite conj_two.
  - now rewrite conj_three.
Qed.

(** What every combination of arguments selects. *)
Lemma impedance_selects f a :
  compleximpedance f a =
  match a with
  | mkArgs (Some rsh) (Some rp) (Some r0) (Some beta) (Some l) (Some L) (Some tau0) (Some gratio) (Some tau3) =>
      Ok (threepoleimpedance f (rsh + rp + r0 * (1 + beta)) (r0 * l / (1 - l) * (2 + beta)) (gratio / (1 - l)) (tau0 / (1 - l))
           (L / (rsh + rp + r0 * (1 + beta))) tau3)
  | mkArgs (Some rsh) (Some rp) (Some r0) (Some beta) (Some l) (Some L) (Some tau0) _ _ =>
      Ok (twopoleimpedance f (rsh + rp + r0 * (1 + beta)) (r0 * l / (1 - l) * (2 + beta)) (tau0 / (1 - l)) (L / (rsh + rp + r0 * (1 + beta))))
  | mkArgs (Some rsh) (Some rp) _ _ _ (Some L) _ _ _ => Ok (onepoleimpedance f (rsh + rp) (L / (rsh + rp)))
  | _ => Err ValueError
  end.
Proof.
  destruct a as [[rsh|] [rp|] [r0|] [beta|] [l|] [L|] [tau0|] [gratio|] [tau3|]]; reflexivity.
Qed.

Lemma gratio_zero f A B t1 t2 t3 : threepoleimpedance f A B 0 t1 t2 t3 = twopoleimpedance f A B t1 t2.
Proof.
  unfold threepoleimpedance, twopoleimpedance.
  replace (RtoC 0 / (1 + jw f * RtoC t3))%C with (RtoC 0) by (unfold Cdiv; ring).
  replace (1 + jw f * RtoC t1 - RtoC 0)%C with (1 + jw f * RtoC t1)%C by ring. reflexivity.
Qed.
Lemma B_zero f A t1 t2 : twopoleimpedance f A 0 t1 t2 = onepoleimpedance f A t2.
Proof. unfold twopoleimpedance, onepoleimpedance, Cdiv. ring. Qed.

(** ** Fall times *)
Lemma insert_perm x l : Permutation (x :: l) (insert x l).
Proof.
  induction l as [|y l IH]; cbn; [reflexivity|]. destruct (Rleb x y); [reflexivity|].
  rewrite perm_swap. now constructor.
Qed.
Lemma npsort_perm l : Permutation l (npsort l).
Proof.
  induction l as [|x l IH]; cbn; [reflexivity|]. rewrite <- insert_perm. now constructor.
Qed.
Lemma Rleb_iff a b : Rleb a b = true <-> a <= b.
Proof. unfold Rleb. destruct (Rle_dec a b); split; intros; try assumption; try reflexivity; try discriminate. contradiction. Qed.
Lemma insert_sorted x l : (forall i j, (i <= j < length l)%nat -> nth i l 0 <= nth j l 0) ->
  forall i j, (i <= j < length (insert x l))%nat -> nth i (insert x l) 0 <= nth j (insert x l) 0.
Proof.
  induction l as [|y l IH]; intros H i j Hij; cbn [insert] in *.
  - cbn in Hij. assert (i = 0%nat /\ j = 0%nat) as [-> ->] by lia. lra.
  - destruct (Rleb x y) eqn:E.
    + apply Rleb_iff in E. destruct i as [|i], j as [|j]; cbn [nth length] in *; try lra; try lia.
      * assert (Hj := H 0%nat j ltac:(cbn; lia)). cbn [nth] in Hj. eapply Rle_trans; eassumption.
      * apply (H i j). cbn. lia.
    + assert (Hy : y < x). { destruct (Rlt_dec y x); [assumption|]. exfalso. assert (x <= y) by lra. apply Rleb_iff in H0. congruence. }
      assert (Hl : forall i j, (i <= j < length l)%nat -> nth i l 0 <= nth j l 0).
      { intros a b Hab. apply (H (S a) (S b)). cbn. lia. }
      destruct i as [|i], j as [|j]; cbn [nth length] in *; try lra; try lia.
      * assert (Hin : In (nth j (insert x l) 0) (insert x l)) by (apply nth_In; lia).
        apply (Permutation_in _ (Permutation_sym (insert_perm x l))) in Hin. destruct Hin as [Hx|Hin]; [rewrite <- Hx; lra|].
        destruct (In_nth _ _ 0 Hin) as (k & Hk & <-). apply (H 0%nat (S k)). cbn. lia.
      * apply IH; [assumption|lia].
Qed.
Lemma npsort_sorted l i j : (i <= j < length (npsort l))%nat -> nth i (npsort l) 0 <= nth j (npsort l) 0.
Proof.
  revert i j. induction l as [|x l IH]; intros i j Hij; [cbn in Hij; lia|].
  cbn [npsort fold_right] in *. apply insert_sorted; assumption.
Qed.

Lemma pole_product_jw f l : pole_product f l = fold_right (fun t acc => ((1 + jw f * RtoC t) * acc)%C) (RtoC 1) l.
Proof. unfold pole_product. now rewrite jw_iomega. Qed.
Lemma pole_product_perm f l l' : Permutation l l' -> pole_product f l = pole_product f l'.
Proof.
  induction 1; cbn [pole_product fold_right]; [reflexivity| | |congruence].
  - unfold pole_product in IHPermutation. now rewrite IHPermutation.
  - ring.
Qed.

Lemma fall_one fs A tau2 dt f : pole_product f (findpolefalltimes fs [A; tau2; dt]) = (1 + jw f * RtoC tau2)%C.
Proof. unfold findpolefalltimes. rewrite <- (pole_product_perm f _ _ (npsort_perm _)), pole_product_jw. cbn. ring. Qed.

Lemma fall_two fs A B tau1 tau2 dt f : A + B <> 0 ->
  (let eqs := twopoleequations A B tau1 tau2 in eqs (fsolve2 fs eqs (tau1, tau2)) = (0, 0)) ->
  (twopoleimpedance f A B tau1 tau2 * (1 + jw f * RtoC tau1))%C
  = (RtoC (A + B) * pole_product f (findpolefalltimes fs [A; B; tau1; tau2; dt]))%C.
Proof.
  intros HAB H. cbv zeta in H. unfold findpolefalltimes. rewrite <- (pole_product_perm f _ _ (npsort_perm _)), pole_product_jw.
  destruct (fsolve2 fs _ (tau1, tau2)) as [tp tm]. cbn [twopoleequations] in H.
  assert (H1 := f_equal fst H). assert (H2 := f_equal snd H). cbn [fst snd] in H1, H2. clear H.
  assert (E1 : tp + tm = A / (A + B) * (tau1 + tau2)) by lra.
  assert (E2 : tp * tm = A / (A + B) * tau1 * tau2) by lra.
  cbn [fold_right].
  transitivity (RtoC (A + B) * (1 + jw f * RtoC (tp + tm) + jw f * jw f * RtoC (tp * tm)))%C.
  2:{ rewrite RtoC_mult, (RtoC_plus tp tm). ring. }
  rewrite E1, E2. unfold twopoleimpedance.
  rewrite !RtoC_mult, !RtoC_plus, RtoC_div, RtoC_plus by assumption.
  field. split; [|apply pole_neq]. rewrite <- RtoC_plus. now apply RtoC_neq.
Qed.

Lemma fall_three fs A B C' tau1 tau2 tau3 dt f : A * (1 - C') + B <> 0 ->
  ((1 + jw f * RtoC tau1) * (1 + jw f * RtoC tau3) <> RtoC C')%C ->
  (let eqs := threepoleequations A B C' tau1 tau2 tau3 in eqs (fsolve3 fs eqs (tau1, tau2, tau3)) = (0, 0, 0)) ->
  (threepoleimpedance f A B C' tau1 tau2 tau3 * ((1 + jw f * RtoC tau1) * (1 + jw f * RtoC tau3) - RtoC C'))%C
  = (RtoC (A * (1 - C') + B) * pole_product f (findpolefalltimes fs [A; B; C'; tau1; tau2; tau3; dt]))%C.
Proof.
  intros HD HC H. cbv zeta in H. unfold findpolefalltimes. rewrite <- (pole_product_perm f _ _ (npsort_perm _)), pole_product_jw.
  destruct (fsolve3 fs _ (tau1, tau2, tau3)) as [[tp tm] tn]. cbn [threepoleequations] in H.
  assert (H1 := f_equal (fun p => fst (fst p)) H). assert (H2 := f_equal (fun p => snd (fst p)) H).
  assert (H3 := f_equal snd H). cbn [fst snd] in H1, H2, H3. clear H.
  set (D := A * (1 - C') + B) in *.
  assert (E1 : tp + tm + tn = (A * tau1 + A * (1 - C') * tau2 + (A + B) * tau3) / D) by lra.
  assert (E2 : tp * tm + tp * tn + tm * tn = (tau1 * tau2 + tau1 * tau3 + tau2 * tau3) * A / D) by lra.
  assert (E3 : tp * tm * tn = tau1 * tau2 * tau3 * A / D) by lra.
  cbn [fold_right]. set (s := jw f).
  assert (E1' : RtoC (D * (tp + tm + tn)) = RtoC (A * tau1 + A * (1 - C') * tau2 + (A + B) * tau3)) by (f_equal; rewrite E1; field; assumption).
  assert (E2' : RtoC (D * (tp * tm + tp * tn + tm * tn)) = RtoC ((tau1 * tau2 + tau1 * tau3 + tau2 * tau3) * A)) by (f_equal; rewrite E2; field; assumption).
  assert (E3' : RtoC (D * (tp * tm * tn)) = RtoC (tau1 * tau2 * tau3 * A)) by (f_equal; rewrite E3; field; assumption).
  transitivity (RtoC D + s * RtoC (D * (tp + tm + tn)) + s * s * RtoC (D * (tp * tm + tp * tn + tm * tn)) + s * s * s * RtoC (D * (tp * tm * tn)))%C.
  2:{ repeat rewrite ?RtoC_mult, ?RtoC_plus. ring. }
  rewrite E1', E2', E3'. unfold D, threepoleimpedance. fold s in HC |- *.
  assert (H3n := pole_neq f tau3). fold s in H3n.
  assert (Hden : (1 + s * RtoC tau1 - RtoC C' / (1 + s * RtoC tau3))%C <> RtoC 0).
  { intros E. apply HC. transitivity ((1 + s * RtoC tau1 - RtoC C' / (1 + s * RtoC tau3)) * (1 + s * RtoC tau3) + RtoC C')%C.
    - field. exact H3n.
    - rewrite E. ring. }
  repeat rewrite ?RtoC_mult, ?RtoC_plus, ?RtoC_minus.
  field. split; [exact H3n|].
  intros E. apply HC. change (R1, R0) with (RtoC 1) in E.
  transitivity ((1 + s * RtoC tau1) * (1 + s * RtoC tau3) - RtoC C' + RtoC C')%C; [ring|]. rewrite E. ring.
Qed.
