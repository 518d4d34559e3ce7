(** * Real values of the binary64 operations

    Relates the standard library's [SpecFloat] operations used in FloatModel to rounding of real
    numbers, through Flocq's proofs (no primitive floats). *)
From Coq Require Import ZArith Reals Lia Lra Psatz SpecFloat.
From Verif Require Import FloatModel.
From Flocq Require Import Core Operations Round BinarySingleNaN Relative.
Local Open Scope R_scope.

Global Instance prec53 : Prec_gt_0 53 := eq_refl.
Global Instance max1024 : Prec_lt_emax 53 1024 := eq_refl.

Notation fexp64 := (SpecFloat.fexp 53 1024).
Definition rnd (x : R) : R := round radix2 fexp64 ZnearestE x.

Definition fval (x : spec_float) : R := SF2R radix2 x.
Definition ffin (x : spec_float) : Prop := valid_binary 53 1024 x = true /\ is_finite_SF x = true.

Lemma ffin_B (x : spec_float) : ffin x -> exists b : binary_float 53 1024, B2SF b = x /\ is_finite b = true.
Proof.
  intros [H1 H2]. exists (SF2B x H1). split; [apply B2SF_SF2B|].
  now rewrite is_finite_SF2B.
Qed.
Lemma B_ffin (b : binary_float 53 1024) : is_finite b = true -> ffin (B2SF b) /\ fval (B2SF b) = B2R b.
Proof.
  intros H. split; [split; [apply valid_binary_B2SF|now rewrite is_finite_SF_B2SF]|].
  unfold fval. apply SF2R_B2SF.
Qed.

Lemma round_nearest_even_equiv s m l :
  round_nearest_even m l = choice_mode mode_NE s m l.
Proof.
  case l; [reflexivity|intro c]. case c; [|reflexivity..].
  now simpl; unfold Round.cond_incr; case Z.even.
Qed.
Lemma round_aux_equiv sx mx ex lx :
  SpecFloat.binary_round_aux 53 1024 sx mx ex lx = binary_round_aux 53 1024 mode_NE sx mx ex lx.
Proof.
  unfold SpecFloat.binary_round_aux, binary_round_aux. set (mrse' := shr_fexp _ _ _).
  case mrse'; intros mrs' e'; simpl. now rewrite (round_nearest_even_equiv sx).
Qed.
Lemma round_equiv s m e :
  SpecFloat.binary_round 53 1024 s m e = binary_round 53 1024 mode_NE s m e.
Proof.
  unfold SpecFloat.binary_round, binary_round, shl_align_fexp.
  set (mez := shl_align _ _ _); case mez as [mz ez]. apply round_aux_equiv.
Qed.
Lemma normalize_equiv m e szero :
  SpecFloat.binary_normalize 53 1024 m e szero
  = B2SF (binary_normalize 53 1024 prec53 max1024 mode_NE m e szero).
Proof.
  case m as [|p|p]; [now simpl|simpl; rewrite B2SF_SF2B; apply round_equiv|simpl; rewrite B2SF_SF2B; apply round_equiv].
Qed.

Lemma div_equiv (x y : binary_float 53 1024) : fdiv (B2SF x) (B2SF y) = B2SF (Bdiv mode_NE x y).
Proof.
  destruct x as [sx|sx| |sx mx ex Bx], y as [sy|sy| |sy my ey By]; try reflexivity.
  simpl. rewrite B2SF_SF2B. set (melz := SFdiv_core_binary _ _ _ _ _ _).
  case melz as [[mz ez] lz]. apply round_aux_equiv.
Qed.
Lemma mul_equiv (x y : binary_float 53 1024) : fmul (B2SF x) (B2SF y) = B2SF (Bmult mode_NE x y).
Proof.
  destruct x as [sx|sx| |sx mx ex Bx], y as [sy|sy| |sy my ey By]; try reflexivity.
  simpl. rewrite B2SF_SF2B. apply round_aux_equiv.
Qed.
Lemma add_equiv (x y : binary_float 53 1024) : fadd (B2SF x) (B2SF y) = B2SF (Bplus mode_NE x y).
Proof.
  destruct x as [sx|sx| |sx mx ex Bx], y as [sy|sy| |sy my ey By]; try (now simpl; case Bool.eqb); try reflexivity.
  simpl. apply normalize_equiv.
Qed.

Lemma rnd_lt_big x : Rabs x <= bpow radix2 1023 -> Rabs (rnd x) < bpow radix2 1024.
Proof.
  intros H. apply Rle_lt_trans with (bpow radix2 1023).
  - unfold rnd. apply abs_round_le_generic; [apply FLT_exp_valid; reflexivity|apply valid_rnd_N| |exact H].
    apply generic_format_bpow. vm_compute. discriminate.
  - apply bpow_lt. lia.
Qed.

Lemma rnd_int z : (Z.abs z <= 2 ^ 53)%Z -> rnd (IZR z) = IZR z.
Proof.
  intros H. unfold rnd. apply round_generic; [apply valid_rnd_N|].
  destruct (Z.eq_dec (Z.abs z) (2 ^ 53)) as [E|E].
  - assert (G : generic_format radix2 fexp64 (IZR (2 ^ 53))).
    { change (IZR (2 ^ 53)) with (IZR (Zpower radix2 53)). rewrite IZR_Zpower by lia.
      apply generic_format_bpow. vm_compute. discriminate. }
    destruct (Z.abs_spec z) as [[_ E']|[_ E']].
    + now replace z with (2 ^ 53)%Z by lia.
    + replace z with (- 2 ^ 53)%Z by lia. rewrite opp_IZR. now apply generic_format_opp.
  - apply (generic_format_FLT radix2 (-1074) 53). exists (Float radix2 z 0).
    + unfold F2R. simpl. ring.
    + simpl. change (Z.pow_pos 2 53) with (2 ^ 53)%Z. lia.
    + simpl. lia.
Qed.

Lemma fl_correct z : (Z.abs z <= 2 ^ 53)%Z -> ffin (fl z) /\ fval (fl z) = IZR z.
Proof.
  intros H. unfold fl. rewrite normalize_equiv.
  pose proof (binary_normalize_correct 53 1024 prec53 max1024 mode_NE z 0 false) as B. cbv zeta in B.
  change (round_mode mode_NE) with ZnearestE in B.
  assert (F : F2R (Float radix2 z 0) = IZR z) by (unfold F2R; simpl; ring).
  rewrite F in B.
  change (round radix2 fexp64 ZnearestE (IZR z)) with (rnd (IZR z)) in B. rewrite (rnd_int z H) in B.
  rewrite Rlt_bool_true in B.
  - destruct B as [B1 [B2 _]]. destruct (B_ffin _ B2) as [P Q]. split; [exact P|]. rewrite Q. exact B1.
  - rewrite <- abs_IZR. apply Rle_lt_trans with (IZR (2 ^ 53)); [apply IZR_le; exact H|].
    change (IZR (2 ^ 53)) with (IZR (Zpower radix2 53)). rewrite IZR_Zpower by lia. apply bpow_lt. lia.
Qed.

Lemma fdiv_correct x y : ffin x -> ffin y -> fval y <> 0 -> Rabs (fval x / fval y) <= bpow radix2 1023 ->
  ffin (fdiv x y) /\ fval (fdiv x y) = rnd (fval x / fval y).
Proof.
  intros Hx Hy Hn Hb. destruct (ffin_B x Hx) as [bx [<- Fx]], (ffin_B y Hy) as [by' [<- Fy]].
  rewrite div_equiv. unfold fval in *. rewrite !SF2R_B2SF in *.
  pose proof (Bdiv_correct 53 1024 prec53 max1024 mode_NE bx by' Hn) as B.
  change (round_mode mode_NE) with ZnearestE in B.
  rewrite Rlt_bool_true in B by (apply rnd_lt_big; exact Hb).
  destruct B as [B1 [B2 _]]. rewrite Fx in B2. destruct (B_ffin _ B2) as [P Q]. split; [exact P|]. exact B1.
Qed.

Lemma fmul_correct x y : ffin x -> ffin y -> Rabs (fval x * fval y) <= bpow radix2 1023 ->
  ffin (fmul x y) /\ fval (fmul x y) = rnd (fval x * fval y).
Proof.
  intros Hx Hy Hb. destruct (ffin_B x Hx) as [bx [<- Fx]], (ffin_B y Hy) as [by' [<- Fy]].
  rewrite mul_equiv. unfold fval in *. rewrite !SF2R_B2SF in *.
  pose proof (Bmult_correct 53 1024 prec53 max1024 mode_NE bx by') as B.
  change (round_mode mode_NE) with ZnearestE in B.
  rewrite Rlt_bool_true in B by (apply rnd_lt_big; exact Hb).
  destruct B as [B1 [B2 _]]. rewrite Fx, Fy in B2. destruct (B_ffin _ B2) as [P Q]. split; [exact P|]. exact B1.
Qed.

Lemma fadd_correct x y : ffin x -> ffin y -> Rabs (fval x + fval y) <= bpow radix2 1023 ->
  ffin (fadd x y) /\ fval (fadd x y) = rnd (fval x + fval y).
Proof.
  intros Hx Hy Hb. destruct (ffin_B x Hx) as [bx [<- Fx]], (ffin_B y Hy) as [by' [<- Fy]].
  rewrite add_equiv. unfold fval in *. rewrite !SF2R_B2SF in *.
  pose proof (Bplus_correct 53 1024 prec53 max1024 mode_NE bx by' Fx Fy) as B.
  change (round_mode mode_NE) with ZnearestE in B.
  rewrite Rlt_bool_true in B by (apply rnd_lt_big; exact Hb).
  destruct B as [B1 [B2 _]]. destruct (B_ffin _ B2) as [P Q]. split; [exact P|]. exact B1.
Qed.

Lemma fval_finite s m e : fval (S754_finite s m e) = (if s then -1 else 1) * (IZR (Z.pos m) * bpow radix2 e).
Proof.
  unfold fval, SF2R, F2R. simpl Fnum. simpl Fexp. destruct s; cbn [cond_Zopp];
    [change (Z.neg m) with (- Z.pos m)%Z; rewrite ?opp_IZR|]; ring.
Qed.

Lemma pos_bpow_neg m e : (e < 0)%Z -> IZR (Z.pos m) * bpow radix2 e = IZR (Z.pos m) / IZR (2 ^ (- e)).
Proof.
  intros H. change (2 ^ (- e))%Z with (Zpower radix2 (- e)). rewrite IZR_Zpower by lia.
  unfold Rdiv. now rewrite <- bpow_opp, Z.opp_involutive.
Qed.
Lemma pos_bpow_pos m e : (0 <= e)%Z -> IZR (Z.pos m) * bpow radix2 e = IZR (Z.pos m * 2 ^ e).
Proof. intros H. rewrite mult_IZR. f_equal. change (2 ^ e)%Z with (Zpower radix2 e). now rewrite IZR_Zpower. Qed.

Lemma div_floor a b : (0 < b)%Z -> Zfloor (IZR a / IZR b) = (a / b)%Z.
Proof. intros H. apply Zfloor_div. lia. Qed.

Lemma ftrunc_val x : ffin x -> ftrunc x = Some (Ztrunc (fval x)).
Proof.
  intros [_ H]. destruct x as [s|s| |s m e]; try discriminate H.
  - cbn. unfold fval. cbn. now rewrite Ztrunc_IZR.
  - cbn [ftrunc]. f_equal. rewrite fval_finite. destruct (Z.leb_spec 0 e) as [L|L].
    + rewrite pos_bpow_pos by exact L. destruct s.
      * replace (-1 * IZR (Z.pos m * 2 ^ e)) with (IZR (- (Z.pos m * 2 ^ e))) by (rewrite opp_IZR; ring).
        now rewrite Ztrunc_IZR.
      * rewrite Rmult_1_l. now rewrite Ztrunc_IZR.
    + rewrite pos_bpow_neg by exact L.
      assert (P : (0 < 2 ^ (- e))%Z) by (apply Z.pow_pos_nonneg; lia).
      assert (Q : 0 <= IZR (Z.pos m) / IZR (2 ^ (- e))).
      { apply Rlt_le, Rdiv_lt_0_compat; apply IZR_lt; [reflexivity|exact P]. }
      destruct s.
      * replace (-1 * (IZR (Z.pos m) / IZR (2 ^ (- e)))) with (- (IZR (Z.pos m) / IZR (2 ^ (- e)))) by ring.
        rewrite Ztrunc_opp, (Ztrunc_floor _ Q), div_floor by exact P. reflexivity.
      * rewrite Rmult_1_l, (Ztrunc_floor _ Q), div_floor by exact P. reflexivity.
Qed.

Lemma fceil_val x : ffin x -> fceil x = Some (Zceil (fval x)).
Proof.
  intros [_ H]. destruct x as [s|s| |s m e]; try discriminate H.
  - cbn. unfold fval. cbn. now rewrite Zceil_IZR.
  - cbn [fceil]. f_equal. rewrite fval_finite. destruct (Z.leb_spec 0 e) as [L|L].
    + rewrite pos_bpow_pos by exact L. destruct s.
      * replace (-1 * IZR (Z.pos m * 2 ^ e)) with (IZR (- (Z.pos m * 2 ^ e))) by (rewrite opp_IZR; ring).
        now rewrite Zceil_IZR.
      * rewrite Rmult_1_l. now rewrite Zceil_IZR.
    + rewrite pos_bpow_neg by exact L.
      assert (P : (0 < 2 ^ (- e))%Z) by (apply Z.pow_pos_nonneg; lia).
      unfold Zceil. destruct s; f_equal.
      * replace (- (-1 * (IZR (Z.pos m) / IZR (2 ^ (- e))))) with (IZR (Z.pos m) / IZR (2 ^ (- e))) by ring.
        now rewrite div_floor.
      * replace (- (1 * (IZR (Z.pos m) / IZR (2 ^ (- e))))) with (IZR (- Z.pos m) / IZR (2 ^ (- e)))
          by (rewrite opp_IZR; unfold Rdiv; ring).
        now rewrite div_floor.
Qed.

(** Relative error of rounding numbers that are not too small. *)
Lemma rnd_rel x : bpow radix2 (-1022) <= Rabs x ->
  exists d, Rabs d <= / IZR (2 ^ 53) /\ rnd x = x * (1 + d).
Proof.
  intros H. destruct (relative_error_N_FLT_ex radix2 (-1074) 53 eq_refl (fun x => negb (Z.even x)) x) as [d [H1 H2]].
  - exact H.
  - exists d. split; [|exact H2].
    replace (/ IZR (2 ^ 53)) with (/ 2 * bpow radix2 (- 53 + 1)); [exact H1|].
    change (bpow radix2 (- 53 + 1)) with (/ IZR (2 ^ 52)).
    change (2 ^ 53)%Z with (2 * 2 ^ 52)%Z. rewrite mult_IZR, Rinv_mult; reflexivity.
Qed.

Lemma rnd_mono x y : x <= y -> rnd x <= rnd y.
Proof. intros H. apply round_le; [apply FLT_exp_valid; reflexivity|apply valid_rnd_N|exact H]. Qed.

Lemma fl_nonzero z : (0 < z <= 2 ^ 53)%Z -> SFeqb (fl z) (fl 0) = true -> False.
Proof.
  intros Hz H. destruct (fl_correct z ltac:(lia)) as [_ V]. destruct (fl z) as [s|s| |s m e].
  - unfold fval in V. cbn in V. apply (eq_IZR 0) in V. lia.
  - destruct s; discriminate H.
  - discriminate H.
  - destruct s; discriminate H.
Qed.
