(** * Proofs: excited and unexcited bins, DIDVPriors fits, time offset of the plots *)
From Coq Require Import Reals Lra Lia Psatz.
From Coquelicot Require Import Complex.
From Verif Require Import Base Dft ListLemmas UtilsModel DidvModel DidvSpec DidvProofs1 DidvProofs2 DidvProofs3 DidvProofs4 DidvProofs5 DidvProofs6 DidvProofs7.
Local Open Scope R_scope.

(** ** Frequencies off the harmonics *)
Lemma near_odd_off a b : (0 < b)%nat -> INR b <= 10 ^ 8 -> (forall m, IZR a / INR b <> IZR m) -> near_odd (IZR a / INR b) = false.
Proof.
  intros Hb Hle Hn. unfold near_odd, mod2. set (z := Int_part (IZR a / INR b / 2)).
  assert (Pb : 0 < INR b) by (apply lt_0_INR; lia).
  unfold Rltb. destruct (Rlt_dec _ _) as [L|]; [exfalso|reflexivity].
  set (w := (a - (2 * z + 1) * Z.of_nat b)%Z).
  assert (E : IZR a / INR b - 2 * IZR z - 1 = IZR w / INR b).
  { unfold w. rewrite minus_IZR, mult_IZR, plus_IZR, mult_IZR, <- INR_IZR_INZ. field. lra. }
  rewrite E in L.
  assert (Hw : w <> 0%Z).
  { intros W. apply (Hn (2 * z + 1)%Z). rewrite W in E. rewrite plus_IZR, mult_IZR. unfold Rdiv in E at 2. rewrite Rmult_0_l in E. lra. }
  assert (1 <= Rabs (IZR w)).
  { rewrite <- abs_IZR. apply IZR_le. lia. }
  unfold Rdiv in L at 1. rewrite Rabs_mult, (Rabs_right (/ INR b)) in L by (left; now apply Rinv_0_lt_compat).
  assert (P8 : 0 < 10 ^ 8) by (apply pow_lt; lra).
  assert (X : 1 / 10 ^ 8 <= / INR b) by (unfold Rdiv; rewrite Rmult_1_l; apply Rinv_le_contravar; assumption).
  assert (0 < / INR b) by now apply Rinv_0_lt_compat.
  nra.
Qed.
Lemma squarewave_off n sgamp rsh sgfreq duty f k a b : (0 < b)%nat -> INR b <= 10 ^ 8 -> f / sgfreq = IZR a / INR b ->
  (forall m, IZR a / INR b <> IZR m) -> squarewave n sgamp rsh sgfreq duty f k = RtoC 0.
Proof.
  intros Hb Hle Hx Hn. unfold squarewave. cbv zeta. rewrite Hx.
  assert (Pb : 0 < INR b) by (apply lt_0_INR; lia).
  assert (E1 : Rabs (IZR a / INR b) = IZR (Z.abs a) / INR b).
  { rewrite abs_IZR. unfold Rdiv. rewrite Rabs_mult, (Rabs_right (/ INR b)) by (left; now apply Rinv_0_lt_compat). reflexivity. }
  assert (N1 : forall m, IZR (Z.abs a) / INR b <> IZR m).
  { intros m E. destruct (Z.abs_eq_or_opp a) as [A|A]; rewrite A in E.
    - exact (Hn m E).
    - apply (Hn (- m)%Z). rewrite opp_IZR in *. rewrite <- E. unfold Rdiv. ring. }
  assert (E2 : Rabs (IZR a / INR b) + 1 = IZR (Z.abs a + Z.of_nat b) / INR b).
  { rewrite E1, plus_IZR, <- INR_IZR_INZ. field. lra. }
  assert (N2 : forall m, IZR (Z.abs a + Z.of_nat b) / INR b <> IZR m).
  { intros m E. apply (N1 (m - 1)%Z). rewrite minus_IZR, <- E, plus_IZR, <- INR_IZR_INZ. field. lra. }
  rewrite E2, E1. rewrite (near_odd_off _ _ Hb Hle N1), (near_odd_off _ _ Hb Hle N2). cbn [andb].
  destruct (Req_EM_T duty (1 / 2)); reflexivity.
Qed.
Lemma squarewave_zero n sgamp rsh sgfreq duty : squarewave n sgamp rsh sgfreq duty 0 0 = RtoC 0.
Proof.
  unfold squarewave. cbv zeta. replace (0 / sgfreq) with 0 by (unfold Rdiv; ring). rewrite Rabs_R0.
  change 0 with (IZR 0). rewrite near_odd_IZR. cbn [Z.odd Nat.eqb negb]. rewrite Bool.andb_false_r. destruct (Req_EM_T duty (1 / 2)); reflexivity.
Qed.

(** ** One bin *)
Lemma decon_excited n t tr rsh sgamp sgfreq duty k S :
  (k <> n / 2)%nat -> squarewave n sgamp rsh sgfreq duty (didvfreq n t k) k = S -> S <> RtoC 0 ->
  Cmod (trace_dft n tr k) <= 10 ^ 16 * Cmod S ->
  snd (deconvolvedidv n t (fun j => nth j tr 0) rsh sgamp sgfreq duty k) = false /\
  (trace_dft n tr k <> RtoC 0 -> didv_val n t rsh sgamp sgfreq duty tr k = (trace_dft n tr k / S)%C).
Proof.
  intros Hk HS HS0 Hm. unfold didv_val, deconvolvedidv. cbv zeta. fold (trace_dft n tr k). apply Nat.eqb_neq in Hk. rewrite Hk, HS.
  destruct (Ceq_dec _ _) as [E|E]; [split; [reflexivity|contradiction]|]. cbn [fst snd].
  set (X := trace_dft n tr k) in *.
  assert (PX : 0 < Cmod X) by now apply Cmod_gt_0.
  assert (PS : 0 < Cmod S) by now apply Cmod_gt_0.
  assert (P16 : 0 < 10 ^ 16) by (apply pow_lt; lra).
  assert (F : Rltb (Cmod (S / X)%C) (1 / 10 ^ 16) = false).
  { unfold Rltb. destruct (Rlt_dec _ _) as [L|]; [|reflexivity]. exfalso.
    rewrite Cmod_div in L by exact E. apply (Rmult_lt_compat_r (Cmod X * 10 ^ 16)) in L; [|apply Rmult_lt_0_compat; assumption].
    replace (Cmod S / Cmod X * (Cmod X * 10 ^ 16)) with (10 ^ 16 * Cmod S) in L by (field; lra).
    replace (1 / 10 ^ 16 * (Cmod X * 10 ^ 16)) with (Cmod X) in L by (field; lra). lra. }
  rewrite F. split; [reflexivity|]. intros _. field. repeat split; assumption.
Qed.
Lemma decon_unexcited n t tr rsh sgamp sgfreq duty k :
  ((k =? n / 2)%nat = true \/ squarewave n sgamp rsh sgfreq duty (didvfreq n t k) k = RtoC 0) ->
  trace_dft n tr k <> RtoC 0 ->
  snd (deconvolvedidv n t (fun j => nth j tr 0) rsh sgamp sgfreq duty k) = true /\
  didv_val n t rsh sgamp sgfreq duty tr k = (1 / 2, - (1 / 2)).
Proof.
  intros H0 HX. unfold didv_val, deconvolvedidv. cbv zeta. fold (trace_dft n tr k).
  replace (if (k =? n / 2)%nat then RtoC 0 else squarewave n sgamp rsh sgfreq duty (didvfreq n t k) k) with (RtoC 0).
  2:{ destruct (k =? n / 2)%nat; [reflexivity|]. destruct H0 as [H0|H0]; [discriminate|now rewrite H0]. }
  destruct (Ceq_dec _ _) as [E|E]; [contradiction|]. cbn [fst snd].
  replace (RtoC 0 / trace_dft n tr k)%C with (RtoC 0) by (unfold Cdiv; ring).
  rewrite Cmod_0. assert (P16 : 0 < 1 / 10 ^ 16) by (apply Rdiv_lt_0_compat; [lra|apply pow_lt; lra]).
  unfold Rltb. destruct (Rlt_dec 0 _); [|contradiction]. split; [reflexivity|].
  unfold Cdiv, Cinv, Cmult. simpl. f_equal; field.
Qed.

(** ** Means of spectra *)
Lemma lsum_map_plus {A} (f g : A -> R) l : lsum (map (fun x => f x + g x) l) = lsum (map f l) + lsum (map g l).
Proof. unfold lsum. induction l as [|x l IH]; cbn; [lra|]. rewrite IH. ring. Qed.
Lemma lsum_map_scal {A} (f : A -> R) c l : lsum (map (fun x => c * f x) l) = c * lsum (map f l).
Proof. unfold lsum. induction l as [|x l IH]; cbn; [lra|]. rewrite IH. ring. Qed.
Lemma mean_dft n (l : list (nat -> R)) k :
  dft n (fun j => RtoC (lmean (map (fun x => x j) l))) k
  = (lmean (map (fun x => fst (dft n (fun j => RtoC (x j)) k)) l), lmean (map (fun x => snd (dft n (fun j => RtoC (x j)) k)) l)).
Proof.
  unfold lmean. rewrite !map_length. set (m := INR (length l)).
  assert (K : dft n (fun j => RtoC (lsum (map (fun x => x j) l))) k
    = (lsum (map (fun x => fst (dft n (fun j => RtoC (x j)) k)) l), lsum (map (fun x => snd (dft n (fun j => RtoC (x j)) k)) l))).
  { unfold lsum. clear m. induction l as [|x l IH]; cbn [map fold_right].
    - unfold dft. rewrite (csum_ext n _ (fun _ => RtoC 0)); [apply csum_zero|]. intros j Hj. ring.
    - rewrite (dft_ext n _ (fun j => RtoC (x j) + RtoC (fold_right Rplus 0 (map (fun y => y j) l)))%C); [|intros j Hj; apply RtoC_plus].
      rewrite dft_plus, IH. reflexivity. }
  rewrite (dft_ext n _ (fun j => RtoC (/ m) * RtoC (lsum (map (fun x => x j) l)))%C).
  2:{ intros j Hj. rewrite <- RtoC_mult. f_equal. rewrite map_length. unfold m, Rdiv. ring. }
  rewrite dft_scal, K. unfold Cmult, Rdiv. simpl. f_equal; ring.
Qed.
Lemma cmean_scal (l : list C) (c : C) : cmean (map (fun z => z * c)%C l) = (cmean l * c)%C.
Proof.
  unfold cmean, lmean. rewrite !map_map, !map_length. set (m := INR (length l)). unfold Rdiv.
  assert (K1 : lsum (map (fun x => fst (x * c)%C) l) = lsum (map fst l) * fst c - lsum (map snd l) * snd c).
  { unfold lsum. clear. induction l as [|x l IH]; cbn [map fold_right]; [ring|]. rewrite IH. simpl. ring. }
  assert (K2 : lsum (map (fun x => snd (x * c)%C) l) = lsum (map fst l) * snd c + lsum (map snd l) * fst c).
  { unfold lsum. clear. induction l as [|x l IH]; cbn [map fold_right]; [ring|]. rewrite IH. simpl. ring. }
  rewrite K1, K2. apply Ceq; simpl; change (@length (R * R) l) with (@length C l); fold m; ring.
Qed.
Lemma lvar_std l : sqrt (lvar l) = list_std l.
Proof.
  unfold list_std, lvar. cbv zeta. do 3 f_equal. apply map_ext. intros x. ring.
Qed.
Lemma div_RtoC (z : C) (x : R) : x <> 0 -> (z / RtoC x)%C = (fst z / x, snd z / x).
Proof. intros H. apply Ceq; simpl; field; repeat split; try assumption; nra. Qed.
Lemma lmean_repeat {A} (l : list A) c : l <> [] -> lmean (map (fun _ => c) l) = c.
Proof.
  intros H. unfold lmean. rewrite map_length. assert (E : lsum (map (fun _ => c) l) = INR (length l) * c).
  { unfold lsum. induction l as [|x l IH]; [congruence|]. destruct l; [cbn; ring|]. cbn [map fold_right] in *. rewrite IH by discriminate. cbn [length]. rewrite !S_INR. ring. }
  rewrite E. field. apply not_0_INR. destruct l; [congruence|discriminate].
Qed.
Lemma list_std_const {A} (l : list A) c : l <> [] -> list_std (map (fun _ => c) l) = 0.
Proof.
  intros H. unfold list_std. rewrite lmean_repeat by exact H. rewrite map_map. replace (lsum (map (fun _ => (c - c) ^ 2) l)) with 0.
  - unfold Rdiv. rewrite Rmult_0_l. apply sqrt_0.
  - unfold lsum. clear. induction l as [|x l IH]; cbn [map fold_right]; [reflexivity|]. rewrite <- IH. ring.
Qed.
Lemma Cmod_mean_le (l : list C) B : l <> [] -> (forall z, In z l -> Cmod z <= B) -> Cmod (cmean l) <= B.
Proof.
  intros Hl HB. assert (Pm : 0 < INR (length l)) by (apply lt_0_INR; destruct l; [congruence|cbn; lia]).
  set (S := (lsum (map fst l), lsum (map snd l)) : C).
  assert (K : Cmod S <= INR (length l) * B).
  { unfold S, lsum. clear Hl Pm S. induction l as [|z l IH].
    - cbn. fold (RtoC 0). rewrite Cmod_0. lra.
    - cbn [map fold_right]. change (fst z + fold_right Rplus 0 (map fst l), snd z + fold_right Rplus 0 (map snd l))
        with (z + (fold_right Rplus 0 (map fst l), fold_right Rplus 0 (map snd l)))%C.
      assert (T := Cmod_triangle z (fold_right Rplus 0 (map fst l), fold_right Rplus 0 (map snd l))).
      assert (X := HB z (or_introl eq_refl)). assert (Y := IH (fun w Hw => HB w (or_intror Hw))).
      cbn [length]. rewrite S_INR. lra. }
  assert (E : cmean l = (S * RtoC (/ INR (length l)))%C).
  { unfold cmean, lmean, S. rewrite !map_length. apply Ceq; unfold Rdiv; simpl; change (@length (R * R) l) with (@length C l); ring. }
  rewrite E, Cmod_mult, Cmod_R, Rabs_right by (left; now apply Rinv_0_lt_compat).
  apply (Rmult_le_reg_r (INR (length l))); [exact Pm|]. rewrite Rmult_assoc, Rinv_l by lra. lra.
Qed.

Section Bins.
Context (o : didv) (q : nat) (dt0 : R) (p : processed) (d : pdata).
Hypothesis (Hq : (0 < q)%nat) (Hsg : 0 < dsgfreq o) (Hfs : dfs o / dsgfreq o = INR q) (Hp : process o dt0 = Ok p) (Hd : p_data p = Some d).
Local Notation len := (length (nth 0 (raw o) [])).
Local Notation n := (q * (len / q))%nat.

Lemma len_time : length (p_time p) = n.
Proof. now destruct (process_length o q Hq Hsg Hfs dt0 p Hp). Qed.
Lemma tmean_dft k : trace_dft n (d_tmean d) k = cmean (map (fun tr => trace_dft n tr k) (p_traces p)).
Proof.
  destruct (values o q dt0 p Hq Hsg Hfs Hp) as (_ & _ & _ & _ & _ & V). rewrite Hd in V. destruct V as (_ & V & _).
  unfold trace_dft at 1. rewrite (dft_ext n _ (fun j => RtoC (lmean (map (fun x => x j) (map (fun tr j => nth j tr 0) (p_traces p)))))).
  2:{ intros j Hj. rewrite V, mk_nth by exact Hj. now rewrite map_map. }
  rewrite mean_dft. unfold cmean. rewrite !map_map. reflexivity.
Qed.
Lemma kept_nonzero tr k : In tr (p_traces p) -> (k < n)%nat -> trace_dft n tr k <> RtoC 0.
Proof.
  intros Hi Hk. destruct (values o q dt0 p Hq Hsg Hfs Hp) as (_ & _ & _ & V & _). rewrite V in Hi. apply filter_In in Hi. destruct Hi as [_ Z].
  unfold no_zero_bin in Z. rewrite forallb_forall in Z. assert (X := Z k ltac:(apply in_seq; lia)). destruct (Ceq_dec _ _); [discriminate|assumption].
Qed.
Lemma freq_value k : (k < n)%nat -> nth k (p_freq p) 0 = didvfreq n (tm p) k.
Proof. intros Hk. destruct (values o q dt0 p Hq Hsg Hfs Hp) as (_ & _ & V & _). rewrite V. now rewrite mk_nth. Qed.

Lemma excited_bin k m S :
  (0 < k < n)%nat -> (k <> n / 2)%nat -> m <> 0%Z -> nth k (p_freq p) 0 = IZR m * dsgfreq o ->
  S = square_dft n (dsgamp o * drsh o) (dduty o) m -> S <> RtoC 0 ->
  (forall tr, In tr (p_traces p) -> Cmod (trace_dft n tr k) <= 10 ^ 16 * Cmod S) ->
  nth k (d_mean d) (RtoC 0) = cmean (map (fun tr => trace_dft n tr k / S)%C (p_traces p)) /\
  nth k (d_mean d) (RtoC 0) = (trace_dft n (d_tmean d) k / S)%C /\
  nth k (d_std d) (RtoC 0) =
    (list_std (map (fun tr => fst (trace_dft n tr k / S)%C) (p_traces p)) / sqrt (INR (length (p_traces p))),
     list_std (map (fun tr => snd (trace_dft n tr k / S)%C) (p_traces p)) / sqrt (INR (length (p_traces p)))).
Proof.
  intros Hk Hk2 Hm Hf HS HS0 HB. assert (Hk' : (k < n)%nat) by lia.
  destruct (values o q dt0 p Hq Hsg Hfs Hp) as (N2 & _ & _ & _ & _ & V). rewrite Hd in V.
  destruct V as (Ne & Vt & Vz & Vs & Vm & _).
  assert (Sq : squarewave n (dsgamp o) (drsh o) (dsgfreq o) (dduty o) (didvfreq n (tm p) k) k = S).
  { rewrite <- freq_value by exact Hk'. rewrite Hf, squarewave_harmonic by (lra || lia). now symmetry. }
  assert (Ev : forall tr, In tr (p_traces p) -> didv_val n (tm p) (drsh o) (dsgamp o) (dsgfreq o) (dduty o) tr k = (trace_dft n tr k / S)%C).
  { intros tr Hi. destruct (decon_excited n (tm p) tr (drsh o) (dsgamp o) (dsgfreq o) (dduty o) k S Hk2 Sq HS0 (HB tr Hi)) as [_ X].
    apply X. now apply kept_nonzero. }
  assert (Em : nth k (d_mean d) (RtoC 0) = cmean (map (fun tr => trace_dft n tr k / S)%C (p_traces p))).
  { rewrite Vm, mk_nth by exact Hk'. f_equal. apply map_ext_in. exact Ev. }
  split; [exact Em|]. split.
  - rewrite Em, tmean_dft. unfold Cdiv. rewrite <- cmean_scal, map_map. reflexivity.
  - rewrite Vs, mk_nth by exact Hk'. rewrite Vz, mk_nth by exact Hk'.
    destruct (decon_excited n (tm p) (d_tmean d) (drsh o) (dsgamp o) (dsgfreq o) (dduty o) k S Hk2 Sq HS0) as [X _].
    { rewrite tmean_dft. apply Cmod_mean_le; [now destruct (p_traces p)|]. intros z Hz. apply in_map_iff in Hz. destruct Hz as (tr & <- & Hi). now apply HB. }
    rewrite X. assert (Pm : sqrt (INR (length (p_traces p))) <> 0).
    { intros E. apply sqrt_eq_0 in E; [|apply pos_INR]. apply INR_eq with (m := 0%nat) in E. apply length_zero_iff_nil in E. contradiction. }
    rewrite div_RtoC by exact Pm. unfold stdcomplex. rewrite !lvar_std, !map_map. cbn [fst snd].
    assert (F1 : map (fun x => fst (didv_val n (tm p) (drsh o) (dsgamp o) (dsgfreq o) (dduty o) x k)) (p_traces p) = map (fun tr => fst (trace_dft n tr k / S)%C) (p_traces p)).
    { apply map_ext_in. intros tr Hi. now rewrite Ev. }
    assert (F2 : map (fun x => snd (didv_val n (tm p) (drsh o) (dsgamp o) (dsgfreq o) (dduty o) x k)) (p_traces p) = map (fun tr => snd (trace_dft n tr k / S)%C) (p_traces p)).
    { apply map_ext_in. intros tr Hi. now rewrite Ev. }
    rewrite F1, F2. reflexivity.
Qed.

Lemma unexcited_bin k : (k < n)%nat ->
  unexcited n (len / q) (dsgamp o * drsh o) (dduty o) (dsgfreq o) (nth k (p_freq p) 0) k ->
  nth k (d_mean d) (RtoC 0) = (1 / 2, - (1 / 2)) /\
  nth k (d_std d) (RtoC 0) = if Ceq_dec (trace_dft n (d_tmean d) k) (RtoC 0) then RtoC 0 else (10 ^ 20, 10 ^ 20).
Proof.
  intros Hk Hu. destruct (values o q dt0 p Hq Hsg Hfs Hp) as (N2 & _ & _ & _ & _ & V). rewrite Hd in V.
  destruct V as (Ne & Vt & Vz & Vs & Vm & _).
  assert (U : (k =? n / 2)%nat = true \/ squarewave n (dsgamp o) (drsh o) (dsgfreq o) (dduty o) (didvfreq n (tm p) k) k = RtoC 0).
  { rewrite (freq_value k Hk) in Hu. destruct Hu as [->|[->|[[Hl Hu]|(m & Hm & Hf & Hs)]]].
    - right. replace (didvfreq n (tm p) 0) with 0; [apply squarewave_zero|].
      unfold didvfreq, fftfreq, freqnum. destruct (Z.ltb_spec (2 * Z.of_nat 0) (Z.of_nat n)); [|lia]. cbn. unfold Rdiv. ring.
    - left. apply Nat.eqb_refl.
    - right. assert (Pq : 0 < INR q) by (apply lt_0_INR; assumption).
      assert (Lp : (0 < len / q)%nat) by (destruct (len / q)%nat; lia).
      assert (Pp : 0 < INR (len / q)) by (apply lt_0_INR; exact Lp).
      assert (Ex : didvfreq n (tm p) k / dsgfreq o = IZR (freqnum n k) / INR (len / q)).
      { destruct (process_parts o q dt0 p Hq Hsg Hfs Hp) as [_ Pf]. cbv zeta in Pf. rewrite <- (freq_value k Hk), Pf, mk_nth by exact Hk.
        unfold fftfreq. rewrite mult_INR, (fs_eq o q Hsg Hfs). field. lra. }
      apply (squarewave_off _ _ _ _ _ _ _ (freqnum n k) (len / q)); try assumption.
      intros m E. apply (Hu m). rewrite <- Ex in E. rewrite <- E. field. lra.
    - destruct (Nat.eq_dec k 0) as [->|Hk0].
      + right. replace (didvfreq n (tm p) 0) with 0; [apply squarewave_zero|].
        unfold didvfreq, fftfreq, freqnum. destruct (Z.ltb_spec (2 * Z.of_nat 0) (Z.of_nat n)); [|lia]. cbn. unfold Rdiv. ring.
      + right. rewrite Hf, squarewave_harmonic by (lra || assumption). exact Hs. }
  assert (Ev : forall tr, In tr (p_traces p) -> didv_val n (tm p) (drsh o) (dsgamp o) (dsgfreq o) (dduty o) tr k = (1 / 2, - (1 / 2))).
  { intros tr Hi. apply decon_unexcited; [exact U|]. now apply kept_nonzero. }
  split.
  - rewrite Vm, mk_nth by exact Hk. rewrite (map_ext_in _ (fun _ => (1 / 2, - (1 / 2)))) by exact Ev.
    unfold cmean. rewrite !map_map. cbn [fst snd]. now rewrite !lmean_repeat.
  - rewrite Vs, mk_nth by exact Hk. rewrite Vz, mk_nth by exact Hk. destruct (Ceq_dec _ _) as [E|E].
    + assert (F : snd (deconvolvedidv n (tm p) (fun j => nth j (d_tmean d) 0) (drsh o) (dsgamp o) (dsgfreq o) (dduty o) k) = false).
      { unfold deconvolvedidv. cbv zeta. fold (trace_dft n (d_tmean d) k). destruct (Ceq_dec _ _); [reflexivity|contradiction]. }
      rewrite F, (map_ext_in _ (fun _ => (1 / 2, - (1 / 2)))) by exact Ev. unfold stdcomplex. rewrite !lvar_std, !map_map. cbn [fst snd].
      rewrite !list_std_const by exact Ne. unfold Cdiv, Cmult, RtoC. simpl. f_equal; ring.
    + destruct (decon_unexcited n (tm p) (d_tmean d) (drsh o) (dsgamp o) (dsgfreq o) (dduty o) k U E) as [F _]. rewrite F. f_equal; ring.
Qed.
End Bins.
