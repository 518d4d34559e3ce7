(** * Proofs: the DIDV object *)
From Coq Require Import Reals Lra Lia.
From Coquelicot Require Import Complex.
From Verif Require Import Base Dft ListLemmas UtilsModel DidvModel DidvSpec DidvProofs1 DidvProofs2.
Local Open Scope R_scope.

(** ** Periods *)
Lemma ztrunc_IZR z : (0 <= z)%Z -> ztrunc (IZR z) = z.
Proof.
  intros H. unfold ztrunc, Rltb. destruct (Rlt_dec (IZR z) 0) as [L|_]; [|apply Int_part_IZR].
  apply (lt_IZR _ 0) in L. lia.
Qed.
Lemma Int_part_add x z : Int_part (IZR z + x) = (z + Int_part x)%Z.
Proof.
  destruct (base_Int_part x). apply Int_part_unique; rewrite plus_IZR; lra.
Qed.
Lemma ztrunc_nonneg x : 0 <= x -> ztrunc x = Int_part x.
Proof. intros H. unfold ztrunc, Rltb. destruct (Rlt_dec x 0); [lra|reflexivity]. Qed.
Lemma ratio_Int n q : (0 < q)%nat -> Int_part (INR n / INR q) = Z.of_nat (n / q).
Proof.
  intros Hq. assert (Hq' : 0 < INR q) by (apply lt_0_INR; assumption).
  assert (H := Nat.div_mod n q ltac:(lia)). assert (Hm := Nat.mod_upper_bound n q ltac:(lia)).
  assert (E : INR n = INR q * INR (n / q) + INR (n mod q)) by (rewrite <- mult_INR, <- plus_INR; f_equal; exact H).
  assert (0 <= INR (n mod q)) by apply pos_INR. assert (INR (n mod q) < INR q) by (apply lt_INR; assumption).
  assert (D : INR n / INR q = INR (n / q) + INR (n mod q) / INR q) by (rewrite E; field; lra).
  assert (0 <= INR (n mod q) / INR q) by (apply Rmult_le_pos; [assumption|left; apply Rinv_0_lt_compat; assumption]).
  assert (INR (n mod q) / INR q < 1) by (apply (Rmult_lt_reg_r (INR q)); [assumption|]; unfold Rdiv; rewrite Rmult_assoc, Rinv_l; lra).
  apply Int_part_unique; rewrite <- INR_IZR_INZ; lra.
Qed.

Section Periods.
Context (o : didv) (q : nat).
Hypothesis (Hq : (0 < q)%nat) (Hsg : 0 < dsgfreq o) (Hfs : dfs o / dsgfreq o = INR q).
Local Notation n := (length (nth 0 (raw o) [])).

Lemma fs_eq : dfs o = INR q * dsgfreq o.
Proof. rewrite <- Hfs. field. lra. Qed.
Lemma fs_pos : 0 < dfs o.
Proof. rewrite fs_eq. apply Rmult_lt_0_compat; [apply lt_0_INR; assumption|assumption]. Qed.
Lemma nperiods_eq m : Int_part (INR m * (1 / dfs o) / (1 / dsgfreq o)) = Z.of_nat (m / q).
Proof.
  rewrite <- (ratio_Int m q Hq). f_equal. rewrite fs_eq. assert (0 < INR q) by (apply lt_0_INR; assumption). field. lra.
Qed.
Lemma indmax_eq m : Z.to_nat (ztrunc (IZR (Z.of_nat (m / q)) * dfs o / dsgfreq o)) = (q * (m / q))%nat.
Proof.
  replace (IZR (Z.of_nat (m / q)) * dfs o / dsgfreq o) with (IZR (Z.of_nat (q * (m / q)))).
  - rewrite ztrunc_IZR by lia. lia.
  - rewrite <- !INR_IZR_INZ, mult_INR. unfold Rdiv. rewrite Rmult_assoc. fold (dfs o / dsgfreq o). rewrite Hfs. ring.
Qed.
Lemma flat_edge i c : 0 <= c ->
  ztrunc ((INR i + c) * INR q) = (Z.of_nat (i * q) + Int_part (c * INR q))%Z.
Proof.
  intros Hc. assert (0 <= INR q) by apply pos_INR.
  rewrite ztrunc_nonneg. 2:{ apply Rmult_le_pos; [|assumption]. assert (0 <= INR i) by apply pos_INR. lra. }
  rewrite <- Int_part_add. f_equal. rewrite <- INR_IZR_INZ, mult_INR. ring.
Qed.
Lemma flat_ok dt0 fs np nb : exists l, flat_indices (INR q) dt0 fs np nb = Ok l.
Proof.
  unfold flat_indices.
  assert (L : forall i, length (flat_range (INR q) dt0 fs i) = Z.to_nat (Int_part (48 / 100 * INR q) - Int_part (25 / 100 * INR q))).
  { intros i. unfold flat_range. rewrite map_length, seq_length.
    rewrite !flat_edge by lra. f_equal. ring. }
  match goal with |- exists _, (if ?b then _ else _) = _ => replace b with true; [eexists; reflexivity|] end.
  symmetry. apply forallb_forall. intros x Hx. apply Nat.eqb_eq.
  rewrite map_map in Hx |- *. apply in_map_iff in Hx. destruct Hx as (i & <- & Hi). rewrite L.
  destruct np; [destruct Hi|]. cbn [seq map nth]. now rewrite L.
Qed.

Lemma process_ok dt0 : raw o <> [] -> (2 <= q * (n / q))%nat ->
  exists p, process o dt0 = Ok p.
Proof.
  intros Hr H2. unfold process. destruct (raw o) as [|r rs] eqn:E; [congruence|].
  cbn [nth] in H2. cbv zeta. rewrite nperiods_eq, indmax_eq.
  assert (Hle : (q * (length r / q) <= length r)%nat) by (apply Nat.mul_div_le; lia).
  destruct (Nat.ltb_spec (length r) (q * (length r / q))); [lia|].
  rewrite Hfs. destruct (flat_ok dt0 (dfs o) (Z.to_nat (Z.of_nat (length r / q))) (q * (length r / q))) as [l El].
  rewrite El. cbn [bind]. destruct (Nat.ltb_spec (q * (length r / q)) 2); [lia|]. eexists. reflexivity.
Qed.

Lemma keep_some_in {A B} (l : list (A * option B)) x : In x (map fst (keep_some l)) -> In x (map fst l).
Proof.
  induction l as [|[a [b|]] l IH]; cbn; [tauto| |tauto]. intros [H|H]; [now left|right; auto].
Qed.
Lemma process_length dt0 p : process o dt0 = Ok p ->
  length (p_time p) = (q * (n / q))%nat /\ length (p_freq p) = (q * (n / q))%nat
  /\ (forall tr, In tr (p_traces p) -> exists r, In r (raw o) /\ tr = map (fun v => v / dtracegain o) (firstn (q * (n / q)) r))
  /\ (forall d, p_data p = Some d -> length (d_tmean d) = (q * (n / q))%nat /\ length (d_mean d) = (q * (n / q))%nat).
Proof.
  unfold process. destruct (raw o) as [|r rs] eqn:E; [discriminate|].
  cbn [nth]. cbv zeta. rewrite nperiods_eq, indmax_eq.
  destruct (_ <? _)%nat; [discriminate|]. destruct (flat_indices _ _ _ _ _) as [l|e]; [|discriminate]. cbn [bind].
  destruct (_ <? _)%nat; [discriminate|]. intros H.
  assert (H' : forall A (f : processed -> A) a b, (@Ok processed a = Ok b) -> f a = f b) by (intros A f a b [= ->]; reflexivity).
  repeat split.
  - rewrite <- (H' _ (fun p => p_time p) _ _ H). cbn [p_time]. apply mk_length.
  - rewrite <- (H' _ (fun p => p_freq p) _ _ H). cbn [p_freq]. apply mk_length.
  - intros tr. rewrite <- (H' _ (fun p => p_traces p) _ _ H). cbn [p_traces]. intros Hin.
    apply keep_some_in in Hin. rewrite map_map in Hin. cbn [fst] in Hin. rewrite map_id in Hin.
    apply in_map_iff in Hin. destruct Hin as (r' & <- & Hr). exists r'. split; [exact Hr|reflexivity].
  - rewrite <- (H' _ (fun p => p_data p) _ _ H) in H0. cbn [p_data] in H0.
    destruct (_ =? 0)%nat; [discriminate|]. apply (f_equal (fun x => match x with Some d => d_tmean d | None => [] end)) in H0.
    rewrite <- H0. cbn [d_tmean]. apply mk_length.
  - rewrite <- (H' _ (fun p => p_data p) _ _ H) in H0. cbn [p_data] in H0.
    destruct (_ =? 0)%nat; [discriminate|]. apply (f_equal (fun x => match x with Some d => d_mean d | None => [] end)) in H0.
    rewrite <- H0. cbn [d_mean]. apply mk_length.
Qed.
End Periods.

(** ** Histories *)
(** The constructor arguments of an object. *)
Definition base (o : didv) : didv :=
  mkDidv (raw o) (dfs o) (dsgfreq o) (dsgamp o) (dr0 o) (drp o) (drsh o) (dtracegain o) (dduty o) (dadd180 o) (ddt0 o) None None None None.
Lemma process_base o dt0 : process o dt0 = process (base o) dt0.
Proof. reflexivity. Qed.

Lemma fst_processtraces o : raw o <> [] ->
  exists pr, fst (processtraces o) = set_proc o (shifted_dt0 o) pr
             /\ (snd (processtraces o) = Ok tt -> exists p, process o (shifted_dt0 o) = Ok p /\ pr = Some p).
Proof.
  unfold processtraces. intros H. destruct (raw o); [congruence|].
  destruct (process o (shifted_dt0 o)) as [p|e]; cbn [fst snd].
  - exists (Some p). split; [reflexivity|]. intros _. now exists p.
  - exists (dproc o). split; [reflexivity|]. discriminate.
Qed.
Lemma base_processtraces o : dadd180 o = false -> base (fst (processtraces o)) = base o.
Proof.
  intros H. unfold processtraces. destruct (raw o) eqn:E; [reflexivity|].
  destruct (process _ _); cbn [fst]; unfold base, set_proc, shifted_dt0; cbn; now rewrite H, E.
Qed.
Lemma base_dofit_core fit fs poles fc o : base (fst (dofit_core fit fs poles fc o)) = base o.
Proof.
  unfold dofit_core. destruct (_ || _)%bool; [|reflexivity]. destruct (dproc o) as [p|]; [|reflexivity].
  destruct (p_data p) as [d|]; [|reflexivity]. cbv zeta.
  destruct (dofit_start o p d poles) as [[[[[[[A0 B0] C0] t1] t2] t3] dt] s].
  destruct (fitdidv _ _ _ _ _ _ _ _ _ _ _) as [[[po pc] co]|e]; [|reflexivity].
  destruct (fitresult_of _ _ _ _ _ _ _); reflexivity.
Qed.
Lemma base_run fit fs op o : dadd180 o = false -> base (fst (run_didv fit fs op o)) = base o.
Proof.
  intros H. destruct op as [|poles fc]; cbn [run_didv]; [now apply base_processtraces|].
  unfold dofit. destruct (dproc o); [apply base_dofit_core|].
  assert (B := base_processtraces o H). destruct (processtraces o) as [o' [u|e]]; cbn [fst] in *; [|exact B].
  rewrite base_dofit_core. exact B.
Qed.
Lemma base_runs fit fs ops o : dadd180 o = false -> base (run_didvs fit fs ops o) = base o.
Proof.
  intros H. unfold run_didvs. revert o H. induction ops as [|op ops IH]; intros o H; [reflexivity|].
  cbn [fold_left]. rewrite IH; [now apply base_run|].
  assert (B := f_equal dadd180 (base_run fit fs op o H)). cbn in B. now rewrite B.
Qed.

(** [processtraces] is repeatable. *)
Lemma processtraces_result o : dadd180 o = false ->
  snd (processtraces o) = match process (base o) (ddt0 o) with Ok _ => Ok tt | Err e => Err e end
  /\ (forall p, process (base o) (ddt0 o) = Ok p -> dproc (fst (processtraces o)) = Some p).
Proof.
  intros H. unfold processtraces, shifted_dt0. rewrite H, process_base.
  destruct (raw o) as [|r rs] eqn:E.
  - unfold process, base. cbn [raw]. rewrite E. split; [reflexivity|discriminate].
  - destruct (process (base o) (ddt0 o)); cbn; split; congruence || discriminate.
Qed.
Lemma processtraces_repeat fit fs ops o :
  dadd180 o = false ->
  snd (processtraces (run_didvs fit fs ops o)) = snd (processtraces o)
  /\ (snd (processtraces o) = Ok tt ->
      dproc (fst (processtraces (run_didvs fit fs ops o))) = dproc (fst (processtraces o))
      /\ ddt0 (fst (processtraces (run_didvs fit fs ops o))) = ddt0 o).
Proof.
  intros H. set (o' := run_didvs fit fs ops o).
  assert (B : base o' = base o) by (apply base_runs; exact H).
  assert (H' : dadd180 o' = false) by (assert (X := f_equal dadd180 B); cbn in X; congruence).
  assert (D : ddt0 o' = ddt0 o) by exact (f_equal ddt0 B).
  destruct (processtraces_result o H) as [R1 S1]. destruct (processtraces_result o' H') as [R2 S2].
  rewrite B, D in R2, S2. split; [congruence|]. intros Ok1. split.
  - destruct (process (base o) (ddt0 o)) as [p|e]; [|congruence].
    rewrite (S1 p eq_refl), (S2 p eq_refl). reflexivity.
  - assert (X := f_equal ddt0 (base_processtraces o' H')). cbn in X. congruence.
Qed.

(** With add180phase every call moves the time axis by half a period. *)
Lemma process_time o dt0 p : process o dt0 = Ok p ->
  p_time p = mk (length (p_time p)) (fun j => INR j * (1 / dfs o) - dt0) /\ (2 <= length (p_time p))%nat.
Proof.
  unfold process. destruct (raw o); [discriminate|]. cbv zeta. destruct (_ <? _)%nat; [discriminate|].
  destruct (flat_indices _ _ _ _ _); [|discriminate]. cbn [bind]. destruct (Nat.ltb_spec (Z.to_nat (ztrunc (IZR (Int_part (INR (length l) * (1 / dfs o) / (1 / dsgfreq o))) * dfs o / dsgfreq o))) 2); [discriminate|].
  intros E. assert (E' := f_equal (fun r => match r with Ok p => p_time p | Err _ => [] end) E). cbn [p_time] in E'.
  rewrite <- E'. rewrite mk_length. split; [reflexivity|exact H].
Qed.
Lemma add180_shifts o o1 o2 p1 p2 :
  dadd180 o = true -> dsgfreq o <> 0 ->
  processtraces o = (o1, Ok tt) -> processtraces o1 = (o2, Ok tt) ->
  dproc o1 = Some p1 -> dproc o2 = Some p2 ->
  nth 0 (p_time p2) 0 = nth 0 (p_time p1) 0 - 1 / (2 * dsgfreq o) /\ dproc o2 <> dproc o1.
Proof.
  intros Ha Hs H1 H2 D1 D2.
  assert (G : forall o o1 p1, processtraces o = (o1, Ok tt) -> dproc o1 = Some p1 ->
     process o (shifted_dt0 o) = Ok p1 /\ o1 = set_proc o (shifted_dt0 o) (Some p1)).
  { clear. intros o o1 p1. unfold processtraces. destruct (raw o); [discriminate|].
    destruct (process o (shifted_dt0 o)) as [p|e]; [|discriminate]. intros E D.
    assert (E1 := f_equal fst E). cbn [fst] in E1. rewrite <- E1 in D |- *. cbn in D.
    assert (p = p1) by congruence. subst. split; reflexivity. }
  destruct (G _ _ _ H1 D1) as [P1 E1]. destruct (G _ _ _ H2 D2) as [P2 E2].
  assert (S2 : shifted_dt0 o1 = shifted_dt0 o + 1 / (2 * dsgfreq o)).
  { rewrite E1. unfold shifted_dt0 at 1. cbn. now rewrite Ha. }
  rewrite S2 in P2. apply process_time in P1. apply process_time in P2.
  destruct P1 as [P1 L1], P2 as [P2 L2].
  assert (T : nth 0 (p_time p2) 0 = nth 0 (p_time p1) 0 - 1 / (2 * dsgfreq o)).
  { rewrite P1, P2, !mk_nth by lia. assert (dfs o1 = dfs o) by (rewrite E1; reflexivity). rewrite H. ring. }
  split; [exact T|]. rewrite D1, D2. intros E. assert (p2 = p1) by congruence. subst p2.
  assert (1 / (2 * dsgfreq o) <> 0).
  { unfold Rdiv. rewrite Rmult_1_l. apply Rinv_neq_0_compat. lra. }
  lra.
Qed.
