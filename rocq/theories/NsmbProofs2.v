(** * The matrices of the N-template fit are Gram matrices of the shifted templates *)
From Coq Require Import Reals ZArith List Lia Lra Bool.
From Verif Require Import Base ListLemmas Dft NsmbModel NsmbSpec NsmbProofs1.
From Coquelicot Require Import Coquelicot.
Import ListNotations.
Local Open Scope R_scope.

Definition jnoise (nt : nat) (psd : nat -> R) (fs : R) (f : nat) : R :=
  psd (if (f =? 0)%nat then 1%nat else f) * dnu nt fs.
Definition stf (nt : nat) (s : nat -> R) (bs : list (nat -> R)) (k : nat) : nat -> C := fftn nt (sb_time s bs k).
Definition the_setup (pinv : nat -> (nat -> nat -> R) -> nat -> nat -> R) (nt : nat) (s : nat -> R)
    (bs : list (nat -> R)) (psd : nat -> R) (fs : R) : setup :=
  let J := jnoise nt psd fs in
  let tf := stf nt s bs in
  let B := fun i j => P_ifft nt (get_Pf tf J) (ns + i)%nat (ns + j)%nat O in
  mkSetup nt J (get_phi tf J) (get_Pfs nt tf J) (P_sym (P_corners (P_ifft nt (get_Pf tf J)))) tf (sb_time s bs)
    (pinv (length bs) B) B (length bs) (bitcombs (ns + length bs)) 500.

Lemma setup_inv pinv nt s bs psd fs st : of_nsmb_setup pinv nt s bs psd fs = Ok st ->
  fs <> 0 /\ (2 <= nt)%nat /\ length bs <> 1%nat /\ st = the_setup pinv nt s bs psd fs.
Proof.
  unfold of_nsmb_setup. destruct (Reqb_spec fs 0); [discriminate|].
  destruct (Nat.eqb_spec nt 0); [discriminate|]. destruct (Nat.eqb_spec nt 1); [discriminate|].
  destruct (Nat.eqb_spec (length bs) 1); [discriminate|]. intros H.
  split; [assumption|]. split; [lia|]. split; [assumption|].
  exact (f_equal (fun r => match r with Ok x => x | Err _ => st end) (eq_sym H)).
Qed.
Lemma setup_ok pinv nt s bs psd fs : fs <> 0 -> (2 <= nt)%nat -> length bs <> 1%nat ->
  of_nsmb_setup pinv nt s bs psd fs = Ok (the_setup pinv nt s bs psd fs).
Proof.
  intros H1 H2 H3. unfold of_nsmb_setup. rewrite Reqb_false by assumption.
  destruct (Nat.eqb_spec nt 0); [lia|]. destruct (Nat.eqb_spec nt 1); [lia|].
  destruct (Nat.eqb_spec (length bs) 1); [contradiction|]. reflexivity.
Qed.

Section Matrices.
Variables (pinv : nat -> (nat -> nat -> R) -> nat -> nat -> R) (nt : nat) (s : nat -> R) (bs : list (nat -> R)) (psd : nat -> R) (fs : R).
Hypothesis Hnt : (2 <= nt)%nat.
Hypothesis Hfs : 0 < fs.
Hypothesis Hpsd : forall f, (1 <= f < nt)%nat -> 0 < psd f.
Let J := jnoise nt psd fs.
Let tf := stf nt s bs.
Let st := the_setup pinv nt s bs psd fs.
Let K := (1 + length bs)%nat.

Lemma INRnt : 0 < INR nt.
Proof. apply lt_0_INR. lia. Qed.
Lemma dnu_val : dnu nt fs = fs / INR nt.
Proof. unfold dnu. assert (H := INRnt). field. lra. Qed.
Lemma J_noise f : J f = bin_noise nt psd fs f.
Proof. unfold J, jnoise, bin_noise. rewrite dnu_val. unfold Rdiv. ring. Qed.
Lemma J_pos f : (f < nt)%nat -> 0 < J f.
Proof.
  intros H. unfold J, jnoise. rewrite dnu_val. apply Rmult_lt_0_compat; [|apply Rdiv_lt_0_compat; [exact Hfs|exact INRnt]].
  apply Hpsd. destruct (Nat.eqb_spec f 0); lia.
Qed.

(** Template [k] with the signal delayed by [d] bins *)
Definition tvec (d : Z) (k : nat) (f : nat) : C :=
  if (k <? ns)%nat then (tf k f * tw nt (- (d * Z.of_nat f)))%C else tf k f.

Lemma re_conj (x y : C) (j : R) : j <> 0 -> fst (Cconj x / RtoC j * y)%C = (fst x * fst y + snd x * snd y) / j.
Proof.
  intros Hj. unfold Cdiv. rewrite <- RtoC_inv by assumption. unfold Cmult, Cconj, RtoC. cbn [fst snd]. field. assumption.
Qed.
Lemma conj_tw (x : C) d f : Cconj (x * tw nt (- (d * Z.of_nat f)))%C = (Cconj x * tw nt (Z.of_nat f * d))%C.
Proof. rewrite Cconj_mult, <- tw_opp. do 2 f_equal. lia. Qed.
Lemma conj_mul_tw (x y : C) z : fst (x * tw nt z)%C * fst (y * tw nt z)%C + snd (x * tw nt z)%C * snd (y * tw nt z)%C
  = fst x * fst y + snd x * snd y.
Proof.
  assert (H := tw_n2 nt z). unfold cn2 in H. unfold Cmult. cbn [fst snd].
  transitivity ((fst x * fst y + snd x * snd y) * (fst (tw nt z) * fst (tw nt z) + snd (tw nt z) * snd (tw nt z))); [ring|].
  rewrite H. ring.
Qed.

Lemma ifft_re (F : nat -> C) d : fst (idft nt F d * RtoC (INR nt))%C = rsum nt (fun f => fst (F f * tw nt (Z.of_nat f * d))%C).
Proof.
  unfold idft. rewrite <- Cmult_assoc, <- RtoC_mult, Rinv_l by (assert (H := INRnt); lra). rewrite Cmult_1_r. apply csum_fst.
Qed.

Lemma P_ifft_ip r c d : P_ifft nt (get_Pf tf J) r c d = ip nt J (fun f => tf r f * tw nt (- (Z.of_nat d * Z.of_nat f)))%C (tf c).
Proof.
  unfold P_ifft. rewrite ifft_re. apply rsum_ext. intros f Hf. rewrite <- re_conj by (assert (H := J_pos f Hf); lra).
  f_equal. unfold get_Pf, get_phi. rewrite conj_tw. unfold Cdiv. ring.
Qed.
Lemma P_ifft_0 r c : P_ifft nt (get_Pf tf J) r c 0 = ip nt J (tf r) (tf c).
Proof.
  rewrite P_ifft_ip. apply ip_ext; [|reflexivity]. intros f Hf. simpl. rewrite tw_0. apply Cmult_1_r.
Qed.
Lemma Pfs_ip r c : get_Pfs nt tf J r c = ip nt J (tf r) (tf c).
Proof.
  unfold get_Pfs. rewrite csum_fst. apply rsum_ext. intros f Hf. apply re_conj. assert (H := J_pos f Hf). lra.
Qed.
Lemma ip_tvec_same d r c : (r <? ns)%nat = (c <? ns)%nat -> ip nt J (tvec d r) (tvec d c) = ip nt J (tf r) (tf c).
Proof.
  intros H. apply rsum_ext. intros f Hf. unfold tvec. rewrite H. destruct (c <? ns)%nat; [|reflexivity].
  now rewrite conj_mul_tw.
Qed.

Lemma P_gram r c d : s_P st r c d = gram nt J (tvec (Z.of_nat d)) r c.
Proof.
  unfold st, the_setup. cbn [s_P]. fold J tf. unfold P_sym, gram.
  assert (G : forall r c, (r <= c)%nat -> P_corners (P_ifft nt (get_Pf tf J)) r c d = ip nt J (tvec (Z.of_nat d) r) (tvec (Z.of_nat d) c)).
  { clear r c. intros r c Hrc. unfold P_corners. destruct (Bool.eqb_spec (r <? ns)%nat (c <? ns)%nat) as [E|E].
    - rewrite P_ifft_0. symmetry. now apply ip_tvec_same.
    - rewrite P_ifft_ip. unfold tvec. destruct (Nat.ltb_spec r ns), (Nat.ltb_spec c ns); try (now elim E); unfold ns in *; try lia.
      reflexivity. }
  destruct (Nat.ltb_spec c r); [rewrite G by lia; apply ip_sym|apply G; lia].
Qed.

Lemma B_gram i j : s_B st i j = gram nt J (fun k => tf (ns + k)%nat) i j.
Proof. unfold st, the_setup. cbn [s_B]. apply P_ifft_0. Qed.

Lemma fst_scal (z : C) (x : R) : fst z * x = fst (z * RtoC x)%C.
Proof. unfold Cmult, RtoC. cbn [fst snd]. ring. Qed.
Lemma qt_ip pulse d k : qt st pulse d k = ip nt J (tvec (Z.of_nat d) k) (fftn nt pulse).
Proof.
  unfold qt, qf, st, the_setup, tvec. cbn [s_nt s_phi]. fold J tf. destruct (k <? ns)%nat.
  - rewrite fst_scal, ifft_re. apply rsum_ext. intros f Hf. rewrite <- re_conj by (assert (H := J_pos f Hf); lra).
    f_equal. unfold get_phi. rewrite conj_tw. unfold Cdiv. ring.
  - rewrite csum_fst. apply rsum_ext. intros f Hf. apply re_conj. assert (H := J_pos f Hf). lra.
Qed.
Lemma bsum_ip pulse i : fst (csum nt (qf st pulse (ns + i))) = ip nt J (tf (ns + i)%nat) (fftn nt pulse).
Proof.
  unfold qf, st, the_setup. cbn [s_nt s_phi]. fold J tf. rewrite csum_fst. apply rsum_ext. intros f Hf.
  apply re_conj. assert (H := J_pos f Hf). lra.
Qed.

(** ** Transforms of the model *)
Lemma fftn_minus x y f : fftn nt (fun t => x t - y t) f = (fftn nt x f - fftn nt y f)%C.
Proof.
  unfold fftn. rewrite <- (Cmult_1_l (dft nt (fun t => RtoC (y t)) (Z.of_nat f))).
  rewrite (dft_ext nt (fun t => RtoC (x t - y t)) (fun t => RtoC (x t) - RtoC (y t))%C) by (intros; apply RtoC_minus).
  rewrite dft_minus. unfold Cdiv. ring.
Qed.
Lemma fftn_rsum n (g : nat -> nat -> R) f : fftn nt (fun t => rsum n (fun k => g k t)) f = csum n (fun k => fftn nt (g k) f).
Proof.
  induction n as [|n IH].
  - simpl. unfold fftn, dft. rewrite (csum_ext nt _ (fun _ => RtoC 0)) by (intros; ring). rewrite csum_zero. unfold Cdiv. ring.
  - simpl. rewrite <- IH. unfold fftn.
    rewrite (dft_ext nt (fun t => RtoC (_ + _)) (fun t => RtoC (rsum n (fun k => g k t)) + RtoC (g n t))%C) by (intros; apply RtoC_plus).
    rewrite dft_plus. unfold Cdiv. ring.
Qed.
Lemma fftn_scal c x f : fftn nt (fun t => c * x t) f = (RtoC c * fftn nt x f)%C.
Proof.
  unfold fftn. rewrite (dft_ext nt (fun t => RtoC (c * x t)) (fun t => RtoC c * RtoC (x t))%C) by (intros; apply RtoC_mult).
  rewrite dft_scal. unfold Cdiv. ring.
Qed.
Lemma fftn_ext x y f : (forall t, (t < nt)%nat -> x t = y t) -> fftn nt x f = fftn nt y f.
Proof. intros H. unfold fftn. f_equal. apply dft_ext. intros j Hj. now rewrite H. Qed.
Lemma csum_first n g : csum (S n) g = (g O + csum n (fun k => g (S k)))%C.
Proof. apply csum_S_first. Qed.

Lemma fftn_model a d f : fftn nt (sb_model nt s bs a d) f = lin K (tvec d) a f.
Proof.
  unfold lin, K. change (1 + length bs)%nat with (S (length bs)). rewrite csum_first.
  unfold sb_model.
  transitivity (Cplus (fftn nt (fun t => a O * roll nt d s t) f) (fftn nt (fun t => rsum (length bs) (fun k => a (S k) * nth k bs (fun _ => 0) t)) f)).
  - unfold fftn. unfold Cdiv. rewrite <- Cmult_plus_distr_r. f_equal. rewrite <- dft_plus. apply dft_ext. intros j Hj. now rewrite <- RtoC_plus.
  - f_equal.
    + rewrite fftn_scal. f_equal. unfold tvec. simpl. unfold fftn, tf, stf, fftn. simpl sb_time. unfold Cdiv.
      rewrite <- (Cmult_assoc (dft _ _ _)), (Cmult_comm (Cinv _) (tw _ _)), Cmult_assoc. f_equal.
      rewrite <- dft_roll by lia. reflexivity.
    + rewrite (fftn_rsum (length bs) (fun k t => a (S k) * nth k bs (fun _ => 0) t)). apply csum_ext. intros k Hk.
      rewrite fftn_scal. reflexivity.
Qed.
Lemma fftn_b b f : fftn nt (b_model bs b) f = lin (length bs) (fun k => tf (ns + k)%nat) b f.
Proof.
  unfold b_model. rewrite (fftn_rsum (length bs) (fun k t => b k * nth k bs (fun _ => 0) t)). apply csum_ext. intros k Hk.
  rewrite fftn_scal. reflexivity.
Qed.

Lemma ifft_fftn x t : (t < nt)%nat -> fst (idft nt (fun f => fftn nt x f) (Z.of_nat t) * RtoC (INR nt))%C = x t.
Proof.
  intros Ht. unfold fftn.
  rewrite (idft_ext nt _ (fun f => (/ RtoC (INR nt)) * dft nt (fun t => RtoC (x t)) (Z.of_nat f))%C).
  2: { intros f Hf. unfold Cdiv. ring. }
  rewrite idft_scal, idft_dft by assumption. rewrite <- RtoC_inv by (assert (H := INRnt); lra).
  rewrite <- !RtoC_mult. cbn [fst RtoC]. field. assert (H := INRnt). lra.
Qed.

(** The phases of a delay by a whole number of bins *)
Lemma phase_tw f ind : (f < nt)%nat -> cis (- (omega nt fs f * tdel_of nt fs ind)) = tw nt (- (ind * Z.of_nat f)).
Proof.
  intros Hf. unfold omega, tdel_of. rewrite dnu_val. assert (Hn := INRnt).
  set (e := (if (Z.of_nat nt <? 2 * ind)%Z then Z.of_nat nt else 0)%Z).
  assert (He : exists c, e = (c * Z.of_nat nt)%Z).
  { unfold e. destruct (_ <? _)%Z; [exists 1%Z|exists 0%Z]; lia. }
  destruct He as [c ->].
  assert (G : exists p : Z, (if Rltb (INR nt * (fs / INR nt) / 2) (INR f * (fs / INR nt)) then INR f * (fs / INR nt) - INR nt * (fs / INR nt) else INR f * (fs / INR nt))
              = IZR (Z.of_nat f - p * Z.of_nat nt) * (fs / INR nt)).
  { destruct (Rltb _ _); [exists 1%Z|exists 0%Z]; rewrite minus_IZR, mult_IZR, <- !INR_IZR_INZ; simpl; ring. }
  destruct G as [p ->].
  transitivity (tw nt (- ((ind - c * Z.of_nat nt) * (Z.of_nat f - p * Z.of_nat nt)))).
  - unfold tw. f_equal. rewrite opp_IZR, mult_IZR. field. lra.
  - apply tw_eqm; [lia|].
    replace (- ((ind - c * Z.of_nat nt) * (Z.of_nat f - p * Z.of_nat nt)))%Z
      with (- (ind * Z.of_nat f) + (ind * p + c * Z.of_nat f - c * p * Z.of_nat nt) * Z.of_nat nt)%Z by lia.
    now rewrite Z.mod_add by lia.
Qed.

(** The residual of the code is the trace minus the model *)
Lemma fit_trace_model a ind t : (t < nt)%nat -> fit_trace st fs a (tdel_of nt fs ind) t = sb_model nt s bs a ind t.
Proof.
  intros Ht. rewrite <- (ifft_fftn (sb_model nt s bs a ind) t Ht). unfold fit_trace, st, the_setup, nsb. cbn [s_nt s_nb s_tf]. fold tf.
  f_equal. f_equal. apply idft_ext. intros f Hf. rewrite fftn_model. unfold lin. apply csum_ext. intros k Hk.
  rewrite phase_tw by assumption. unfold tvec. destruct (k <? ns)%nat; ring.
Qed.

Lemma chi2f_sum m x : (m <= nt)%nat -> chi2f st m x = rsum m (fun f => cn2 (x f) / J f).
Proof.
  intros Hm. unfold chi2f. rewrite csum_fst. apply rsum_ext. intros f Hf. unfold st, the_setup. cbn [s_psddnu]. fold J.
  rewrite re_conj by (assert (H := J_pos f ltac:(lia)); lra). reflexivity.
Qed.
Lemma chi2f_trace m r : (m <= nt)%nat -> chi2f st m (fftn nt r) = trace_chi2 nt m (bin_noise nt psd fs) r.
Proof. intros Hm. rewrite chi2f_sum by assumption. apply rsum_ext. intros f Hf. now rewrite J_noise. Qed.
Lemma trace_chi2_ext m r r' : (forall t, (t < nt)%nat -> r t = r' t) -> trace_chi2 nt m (bin_noise nt psd fs) r = trace_chi2 nt m (bin_noise nt psd fs) r'.
Proof. intros H. apply rsum_ext. intros f Hf. do 3 f_equal. apply dft_ext. intros j Hj. now rewrite H. Qed.

(** chi2 of the model = squared distance *)
Lemma trace_err pulse a d :
  trace_chi2 nt nt (bin_noise nt psd fs) (trace_minus pulse (sb_model nt s bs a d)) = err nt J K (tvec d) (fftn nt pulse) a.
Proof.
  unfold err. rewrite ip_self. apply rsum_ext. intros f Hf. rewrite J_noise. f_equal. f_equal.
  change (fftn nt (fun t => pulse t - sb_model nt s bs a d t) f = csub (fftn nt pulse) (lin K (tvec d) a) f).
  rewrite fftn_minus, fftn_model. reflexivity.
Qed.
Lemma trace_err_b pulse b :
  trace_chi2 nt nt (bin_noise nt psd fs) (trace_minus pulse (b_model bs b)) = err nt J (length bs) (fun k => tf (ns + k)%nat) (fftn nt pulse) b.
Proof.
  unfold err. rewrite ip_self. apply rsum_ext. intros f Hf. rewrite J_noise. f_equal. f_equal.
  change (fftn nt (fun t => pulse t - b_model bs b t) f = csub (fftn nt pulse) (lin (length bs) (fun k => tf (ns + k)%nat) b) f).
  rewrite fftn_minus, fftn_b. reflexivity.
Qed.
Lemma tvec_mod d d' k f : (d mod Z.of_nat nt = d' mod Z.of_nat nt)%Z -> tvec d k f = tvec d' k f.
Proof.
  intros H. unfold tvec. destruct (k <? ns)%nat; [|reflexivity]. f_equal. apply tw_eqm; [lia|].
  rewrite <- !Z.mul_opp_l. rewrite Z.mul_mod by lia. rewrite (Z.mul_mod (- d')) by lia. f_equal. f_equal.
  rewrite <- (Z.sub_0_l d), <- (Z.sub_0_l d'), (Zminus_mod 0 d), (Zminus_mod 0 d'), H. reflexivity.
Qed.
End Matrices.
