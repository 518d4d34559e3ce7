(** * Proofs: square waves, convolution and deconvolution *)
From Coq Require Import Reals Lra Lia.
From Coquelicot Require Import Complex.
From Verif Require Import Base Dft ListLemmas UtilsModel DidvModel DidvSpec DidvProofs1.
Local Open Scope R_scope.

Lemma Int_part_unique x z : IZR z <= x -> x < IZR z + 1 -> Int_part x = z.
Proof.
  intros H1 H2. destruct (base_Int_part x) as [H3 H4].
  assert (IZR (Int_part x) < IZR (z + 1)) by (rewrite plus_IZR; lra). apply lt_IZR in H.
  assert (IZR z < IZR (Int_part x + 1)) by (rewrite plus_IZR; lra). apply lt_IZR in H0. lia.
Qed.
Lemma Int_part_IZR z : Int_part (IZR z) = z.
Proof. apply Int_part_unique; lra. Qed.

Lemma mod2_IZR z : mod2 (IZR z) = IZR (z mod 2).
Proof.
  unfold mod2. assert (Hz := Z.div_mod z 2 ltac:(lia)). assert (Hm := Z.mod_pos_bound z 2 ltac:(lia)).
  assert (E : Int_part (IZR z / 2) = (z / 2)%Z).
  { assert (IZR z = 2 * IZR (z / 2) + IZR (z mod 2)).
    { rewrite <- mult_IZR, <- plus_IZR. f_equal. exact Hz. }
    assert (0 <= IZR (z mod 2) <= 1) by (split; [apply (IZR_le 0); lia|apply (IZR_le _ 1); lia]).
    apply Int_part_unique; lra. }
  rewrite E. rewrite Z.mod_eq by lia. rewrite minus_IZR, mult_IZR. ring.
Qed.
Lemma near_odd_IZR z : near_odd (IZR z) = Z.odd z.
Proof.
  unfold near_odd. rewrite mod2_IZR. assert (H := Zmod_odd z). rewrite H.
  assert (Hs : 0 < 1 / 10 ^ 8) by (apply Rdiv_lt_0_compat; [lra|apply pow_lt; lra]).
  assert (Hs' : 1 / 10 ^ 8 < 1) by (replace (10 ^ 8) with 100000000 by ring; lra).
  unfold Rltb. destruct (Z.odd z).
  - replace (1 - 1) with 0 by ring. rewrite Rabs_R0. destruct (Rlt_dec 0 (1 / 10 ^ 8)); [reflexivity|contradiction].
  - replace (0 - 1) with (-1) by ring. rewrite Rabs_left by lra. destruct (Rlt_dec (- -1) (1 / 10 ^ 8)); [lra|reflexivity].
Qed.

(** The analytic spectrum at the harmonics of the signal generator. *)
Lemma cis_odd_half m : Z.odd m = true -> cis (- (2 * PI * IZR m * (1 / 2))) = RtoC (-1).
Proof.
  intros H. rewrite <- Z.negb_even in H. apply Bool.negb_true_iff in H.
  assert (Ho : Z.odd m = true) by (rewrite <- Z.negb_even, H; reflexivity).
  apply Z.odd_spec in Ho. destruct Ho as [j Hj]. rewrite Hj, plus_IZR, mult_IZR.
  replace (- (2 * PI * (2 * IZR j + 1) * (1 / 2))) with (2 * PI * IZR (- j) + - PI) by (rewrite opp_IZR; field).
  rewrite cis_plus, cis_2PI_Z. unfold cis. rewrite cos_neg, sin_neg, cos_PI, sin_PI. apply Ceq; simpl; ring.
Qed.
Lemma cis_even_half m : Z.odd m = false -> cis (- (2 * PI * IZR m * (1 / 2))) = RtoC 1.
Proof.
  intros H. assert (He : Z.even m = true) by (rewrite <- Z.negb_odd, H; reflexivity).
  apply Z.even_spec in He. destruct He as [j Hj]. rewrite Hj, mult_IZR.
  replace (- (2 * PI * (2 * IZR j) * (1 / 2))) with (2 * PI * IZR (- j)) by (rewrite opp_IZR; field).
  apply cis_2PI_Z.
Qed.
Lemma coef_field (K e : C) (x : R) : x <> 0 ->
  (- Ci / RtoC (2 * PI * x) * K * (e - 1))%C = (- (K * ((1 - e) / (Ci * RtoC (2 * PI * x)))))%C.
Proof.
  intros Hx. assert (Hp : 2 * PI * x <> 0) by (apply Rmult_integral_contrapositive; split; [assert (H := PI_RGT_0); lra|assumption]).
  assert (HR := RtoC_neq _ Hp). set (T := RtoC (2 * PI * x)) in *.
  assert (Hi : (Ci * Ci)%C = RtoC (-1)) by (apply Ceq; simpl; ring).
  assert (Hi0 : Ci <> RtoC 0) by (intros E; apply (f_equal snd) in E; simpl in E; lra).
  transitivity (Ci * Ci * K * (1 - e) / (Ci * T))%C; [field; split; assumption|].
  rewrite Hi. replace (RtoC (-1)) with (- RtoC 1)%C by (apply Ceq; simpl; ring). field. split; assumption.
Qed.
Lemma squarewave_harmonic n sgamp rsh sgfreq duty m k :
  sgfreq <> 0 -> m <> 0%Z -> k <> 0%nat ->
  squarewave n sgamp rsh sgfreq duty (IZR m * sgfreq) k = square_dft n (sgamp * rsh) duty m.
Proof.
  intros Hs Hm Hk. unfold squarewave. replace (IZR m * sgfreq / sgfreq) with (IZR m) by (field; assumption).
  cbv zeta. assert (Hm' : IZR m <> 0) by (apply not_0_IZR; assumption).
  replace (Rabs (IZR m)) with (IZR (Z.abs m)) by apply abs_IZR.
  replace (IZR (Z.abs m) + 1) with (IZR (Z.abs m + 1)) by apply plus_IZR.
  rewrite !near_odd_IZR. replace (Z.odd (Z.abs m)) with (Z.odd m) by (destruct m; reflexivity).
  rewrite (proj2 (Nat.eqb_neq _ _) Hk), Bool.andb_true_r.
  replace (Z.odd (Z.abs m + 1)) with (negb (Z.odd m)).
  2:{ rewrite Z.odd_add. destruct m as [|p|p]; cbn; try reflexivity; destruct p; reflexivity. }
  unfold square_dft, square_coefficient, expm.
  destruct (Req_EM_T duty (1 / 2)) as [->|Hd].
  - destruct (Z.odd m) eqn:E.
    + rewrite cis_odd_half by assumption.
      rewrite <- (coef_field _ _ _ Hm').
      assert (HP := PI_RGT_0).
      assert (H1 : RtoC (PI * IZR m) <> RtoC 0) by (apply RtoC_neq, Rmult_integral_contrapositive; split; [lra|assumption]).
      replace (RtoC (2 * PI * IZR m)) with ((RtoC 1 + RtoC 1) * RtoC (PI * IZR m))%C by (apply Ceq; simpl; ring).
      replace (RtoC (-1)) with (- RtoC 1)%C by (apply Ceq; simpl; ring).
      field. split; [exact H1|]. intros E2. apply (f_equal fst) in E2. simpl in E2. lra.
    + rewrite cis_even_half by assumption. unfold Cdiv. ring.
  - rewrite <- (coef_field _ _ _ Hm').
    destruct (Z.odd m); cbn [negb]; now rewrite <- Rmult_assoc.
Qed.

Lemma Copp_inv a : (/ - a)%C = (- / a)%C.
Proof.
  assert (E : (- fst a) ^ 2 + (- snd a) ^ 2 = fst a ^ 2 + snd a ^ 2) by ring.
  apply Ceq; unfold Cinv, Copp; cbn [fst snd]; rewrite E; unfold Rdiv; ring.
Qed.

(** ** Hermitian symmetry of the excitation *)
Lemma squarewave_conj n sgamp rsh sgfreq duty f k k' :
  (k =? 0)%nat = (k' =? 0)%nat ->
  squarewave n sgamp rsh sgfreq duty (- f) k' = Cconj (squarewave n sgamp rsh sgfreq duty f k).
Proof.
  intros Hk. unfold squarewave. cbv zeta. rewrite Hk.
  replace (- f / sgfreq) with (- (f / sgfreq)) by (unfold Rdiv; ring). rewrite Rabs_Ropp. set (x := f / sgfreq).
  destruct (Req_EM_T duty (1 / 2)).
  - destruct (near_odd (Rabs x)); [|now rewrite Cconj_R].
    unfold Cdiv. rewrite !Cconj_mult, Cconj_inv, !Cconj_R.
    replace (RtoC (PI * - x)) with (- RtoC (PI * x))%C by (apply Ceq; simpl; ring).
    replace (Cconj Ci) with (- Ci)%C by (apply Ceq; simpl; ring).
    rewrite Copp_inv. ring.
  - assert (E : (- Ci / RtoC (2 * PI * - x) * RtoC (sgamp * rsh * INR n) * (expm (- x * duty) - 1))%C
             = Cconj (- Ci / RtoC (2 * PI * x) * RtoC (sgamp * rsh * INR n) * (expm (x * duty) - 1))%C).
    { unfold Cdiv. rewrite !Cconj_mult, Cconj_minus, Cconj_inv, !Cconj_R.
      replace (RtoC (2 * PI * - x)) with (- RtoC (2 * PI * x))%C by (apply Ceq; simpl; ring).
      replace (Cconj (- Ci)%C) with (Ci)%C by (apply Ceq; simpl; ring).
      unfold expm. rewrite <- cis_opp.
      replace (- (2 * PI * (- x * duty))) with (- - (2 * PI * (x * duty))) by ring.
      rewrite Copp_inv. ring. }
    rewrite E. destruct (_ && _)%bool; [reflexivity|]. destruct (near_odd (Rabs x)); [reflexivity|now rewrite Cconj_R].
Qed.

Lemma freqnum_neg n k : (0 < k < n)%nat -> (2 * k <> n)%nat -> freqnum n (n - k) = (- freqnum n k)%Z.
Proof.
  intros H1 H2. unfold freqnum.
  destruct (Z.ltb_spec (2 * Z.of_nat k) (Z.of_nat n)), (Z.ltb_spec (2 * Z.of_nat (n - k)) (Z.of_nat n)); lia.
Qed.
Lemma didvfreq_neg n t k : (0 < k < n)%nat -> (2 * k <> n)%nat -> didvfreq n t (n - k) = - didvfreq n t k.
Proof. intros H1 H2. unfold didvfreq, fftfreq. rewrite freqnum_neg, opp_IZR by assumption. unfold Rdiv. ring. Qed.

Lemma RtoC_fst z : RtoC (fst z) = ((z + Cconj z) * RtoC (/ 2))%C.
Proof. apply Ceq; simpl; field. Qed.
Lemma dft_conj n z k : dft n (fun j => Cconj (z j)) k = Cconj (dft n z (- k)).
Proof.
  unfold dft. rewrite csum_conj. apply csum_ext. intros j _. rewrite Cconj_mult. f_equal.
  rewrite <- tw_opp. f_equal. ring.
Qed.
Lemma dft_real_part n z k : dft n (fun j => RtoC (fst (z j))) k = ((dft n z k + Cconj (dft n z (- k))) * RtoC (/ 2))%C.
Proof.
  rewrite <- dft_conj, <- dft_plus. rewrite Cmult_comm, <- dft_scal. apply dft_ext. intros j _.
  rewrite RtoC_fst. ring.
Qed.

(** The response of a Hermitian spectrum has that spectrum, bin by bin. *)
Lemma response_spectrum n G k : (0 < k < n)%nat -> G (n - k)%nat = Cconj (G k) ->
  dft n (fun j => RtoC (fst (idft n G (Z.of_nat j)))) (Z.of_nat k) = G k.
Proof.
  intros Hk HG. rewrite (dft_real_part n (fun j => idft n G (Z.of_nat j))).
  rewrite dft_idft by lia.
  rewrite <- (dft_mod n _ (- Z.of_nat k)) by lia.
  replace (- Z.of_nat k mod Z.of_nat n)%Z with (Z.of_nat (n - k)).
  2:{ rewrite Z_mod_nz_opp_full; rewrite Z.mod_small; lia. }
  rewrite dft_idft by lia. rewrite HG, Cconj_conj. apply Ceq; simpl; field.
Qed.

Lemma convolve_spectrum n t A B C' tau1 tau2 tau3 sgamp rsh sgfreq duty tr k :
  convolvedidv n t A B C' tau1 tau2 tau3 sgamp rsh sgfreq duty = Ok tr ->
  (0 < k < n)%nat -> (2 * k <> n)%nat ->
  dft n (fun j => RtoC (nth j tr 0)) (Z.of_nat k)
  = (squarewave n sgamp rsh sgfreq duty (didvfreq n t k) k * threepoleadmittance (didvfreq n t k) A B C' tau1 tau2 tau3)%C.
Proof.
  unfold convolvedidv. destruct (n <? 2)%nat; [discriminate|]. cbv zeta. intros [= <-] Hk H2.
  rewrite (dft_ext n _ (fun j => RtoC (fst (idft n (fun k => squarewave n sgamp rsh sgfreq duty (didvfreq n t k) k * threepoleadmittance (didvfreq n t k) A B C' tau1 tau2 tau3)%C (Z.of_nat j))))).
  2:{ intros j Hj. now rewrite mk_nth. }
  rewrite response_spectrum; [reflexivity|assumption|].
  rewrite didvfreq_neg by assumption.
  rewrite (squarewave_conj n sgamp rsh sgfreq duty (didvfreq n t k) k (n - k)).
  2:{ destruct k; [lia|]. cbn. symmetry. apply Nat.eqb_neq. lia. }
  rewrite conj_three_adm. now rewrite Cconj_mult.
Qed.

Lemma deconvolve_response n t A B C' tau1 tau2 tau3 sgamp rsh sgfreq duty tr k :
  convolvedidv n t A B C' tau1 tau2 tau3 sgamp rsh sgfreq duty = Ok tr ->
  (0 < k < n)%nat -> (k <> n / 2)%nat -> 
  squarewave n sgamp rsh sgfreq duty (didvfreq n t k) k <> RtoC 0 ->
  1 / 10 ^ 16 <= Cmod (threepoleimpedance (didvfreq n t k) A B C' tau1 tau2 tau3) ->
  deconvolvedidv n t (fun j => nth j tr 0) rsh sgamp sgfreq duty k
  = (Some (threepoleadmittance (didvfreq n t k) A B C' tau1 tau2 tau3), false).
Proof.
  intros Hc Hk Hk2 Hs HZ. unfold deconvolvedidv. cbv zeta.
  rewrite (convolve_spectrum n t A B C' tau1 tau2 tau3 sgamp rsh sgfreq duty tr k Hc Hk).
  2:{ intros E. apply Hk2. rewrite <- E, Nat.mul_comm, Nat.div_mul; lia. }
  apply Nat.eqb_neq in Hk2. rewrite Hk2.
  set (sf := squarewave _ _ _ _ _ _ _) in *. unfold threepoleadmittance.
  set (Z := threepoleimpedance _ _ _ _ _ _ _) in *.
  assert (HZ0 : Z <> RtoC 0).
  { intros E. rewrite E, Cmod_0 in HZ. assert (0 < 1 / 10 ^ 16) by (apply Rdiv_lt_0_compat; [lra|apply pow_lt; lra]). lra. }
  assert (H1 : (RtoC 1 <> RtoC 0)) by (intros E; injection E; lra).
  destruct (Ceq_dec (sf * (1 / Z))%C (RtoC 0)) as [E|NE].
  - exfalso. apply Hs. transitivity (sf * (1 / Z) * Z)%C; [field; assumption|]. rewrite E. ring.
  - replace (sf / (sf * (1 / Z)))%C with Z by (field; repeat split; assumption).
    unfold Rltb. destruct (Rlt_dec (Cmod Z) (1 / 10 ^ 16)); [lra|reflexivity].
Qed.

(** At the level of squarewaveresponse. *)
Lemma squarewaveresponse_deconvolved n t sgamp sgfreq duty a tr k z rsh :
  a_rsh a = Some rsh ->
  squarewaveresponse n t sgamp sgfreq duty a = Ok tr ->
  compleximpedance (didvfreq n t k) a = Ok z ->
  (0 < k < n)%nat -> (k <> n / 2)%nat ->
  squarewave n sgamp rsh sgfreq duty (didvfreq n t k) k <> RtoC 0 ->
  1 / 10 ^ 16 <= Cmod z ->
  deconvolvedidv n t (fun j => nth j tr 0) rsh sgamp sgfreq duty k = (Some (1 / z)%C, false).
Proof.
  intros Ha. unfold squarewaveresponse, compleximpedance. rewrite Ha. cbn [val].
  destruct (pole_extractor a) as [p|e]; [|discriminate]. cbn [bind].
  destruct (convertfromtesvalues (tes_tuple p a)) as [q|e]; [|discriminate]. cbn [bind].
  destruct q as [|q1 [|q2 [|q3 [|q4 [|q5 [|q6 [|q7 [|q8 q]]]]]]]]; try discriminate; intros Hc [= <-] Hk Hk2 Hs HZ;
    rewrite (deconvolve_response _ _ _ _ _ _ _ _ _ _ _ _ _ _ Hc Hk Hk2 Hs); unfold threepoleadmittance;
    rewrite ?gratio_zero, ?B_zero; reflexivity || exact HZ.
Qed.
