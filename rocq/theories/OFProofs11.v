(** * Optimum filters: interpolated scan, best pair of delays, pileup from scratch *)
From Coq Require Import Lia.
From Verif Require Import Base ListLemmas UtilsModel Dft WindowModel WindowSpec WindowProofs OFModel OFFreeModel OFSpec
  OFProofs1 OFProofs2 OFProofs3 OFProofs4 OFProofs6 OFProofs7 OFProofs8 OFProofs9 OFProofs10.
From Coq Require Import Reals Lra.
Local Open Scope R_scope.

Lemma parabola_through3 vals b delta vm v0 vp ti :
  pyindex vals (b - 1) = Ok vm -> pyindex vals b = Ok v0 -> pyindex vals (b + 1) = Ok vp ->
  0 < delta -> (ti = None -> vm - 2 * v0 + vp <> 0) ->
  let t := match ti with Some t => t | None => - (delta * (vp - vm) / (2 * (vp - 2 * v0 + vm))) end in
  interpolate_parabola vals b delta ti = Ok (t, through3 vm v0 vp delta t).
Proof.
  intros E1 E2 E3 Hd Hc t. unfold interpolate_parabola. rewrite E1, E2, E3. cbn [bind].
  match goal with |- Ok (?x, _) = _ => assert (Et : x = t) end.
  { subst t. destruct ti as [t|]; [reflexivity|]. specialize (Hc eq_refl). field. lra. }
  rewrite Et. clearbody t. clear Et. f_equal. f_equal. unfold through3. field. lra.
Qed.

Lemma through3_vertex vm v0 vp delta : 0 < delta -> vm - 2 * v0 + vp <> 0 ->
  let t := - (delta * (vp - vm) / (2 * (vp - 2 * v0 + vm))) in
  forall u, through3 vm v0 vp delta (t + u) = through3 vm v0 vp delta (t - u).
Proof. intros Hd Hc t u. subst t. unfold through3. field. lra. Qed.

Lemma through3_best vm v0 vp delta : 0 < delta -> vm - 2 * v0 + vp <> 0 -> v0 <= vm -> v0 <= vp ->
  let t := - (delta * (vp - vm) / (2 * (vp - 2 * v0 + vm))) in
  Rabs t <= delta / 2 /\ through3 vm v0 vp delta t <= v0.
Proof.
  intros Hd Hc H1 H2 t.
  assert (P := parabola_spec [v0; vp; vm] 0 delta vm v0 vp eq_refl eq_refl eq_refl Hd H1 H2 ltac:(lra)).
  destruct P as (t' & c & E & B1 & B2).
  rewrite (parabola_through3 [v0; vp; vm] 0 delta vm v0 vp None eq_refl eq_refl eq_refl Hd (fun _ => Hc)) in E.
  change (Ok (t, through3 vm v0 vp delta t) = Ok (t', c)) in E. clearbody t.
  assert (E1 : t' = t) by congruence. assert (E2 : c = through3 vm v0 vp delta t) by congruence.
  rewrite E1 in B1. rewrite E2 in B2. now split.
Qed.

Section Interp.
  Variables (n : nat) (signal template p : nat -> R) (fs0 : R) (ac inorm : bool).
  Hypothesis Hfit : fit_problem n template p fs0 ac inorm.
  Let T := used_template n fs0 template inorm.
  Let o := of_init n signal template p fs0 ac inorm.
  Let Hn : (0 < n)%nat. Proof. apply Hfit. Qed.
  Let Hf : 0 < fs0. Proof. apply Hfit. Qed.
  Let A := filt n signal template p fs0 ac inorm.
  Let X d := wchi2 n fs0 p ac (minus_pulse n signal T (A d) d).

  Lemma A_shift d k : A (d + k * Z.of_nat n) = A d.
  Proof.
    unfold A. rewrite <- (filt_mod n signal template p fs0 ac inorm (d + _)).
    rewrite Z_mod_plus_full. apply filt_mod.
  Qed.

  Lemma scan_entry (g : Z -> R) j : (forall d k, g (d + k * Z.of_nat n)%Z = g d) ->
    (-1 <= j < Z.of_nat n)%Z ->
    pyindex (mk n (fun i => g (Z.of_nat i - Z.of_nat n / 2)%Z)) j = Ok (g (delay n j)).
  Proof.
    intros Hg Hj. unfold delay. destruct (Z_lt_dec j 0) as [H|H].
    - assert (j = -1)%Z as -> by lia. unfold pyindex. rewrite mk_length.
      destruct (Z.ltb_spec (-1) 0); [|lia].
      destruct (Z.ltb_spec (-1 + Z.of_nat n) 0); [lia|]. rewrite mk_nth_error.
      destruct (Nat.ltb_spec (Z.to_nat (-1 + Z.of_nat n)) n); [|lia]. f_equal.
      rewrite <- (Hg (-1 - Z.of_nat n / 2)%Z 1%Z). f_equal. lia.
    - rewrite (pyindex_in _ _ 0) by (rewrite mk_length; lia). rewrite nth_mk by lia.
      now rewrite Z2Nat.id by lia.
  Qed.

  Lemma X_scan d : scan_chi n signal template p fs0 ac inorm (d + Z.of_nat n / 2) = X d.
  Proof.
    unfold scan_chi, scan_amp, X, A, T. rewrite chi_at_filt by exact Hfit.
    now replace (d + Z.of_nat n / 2 - Z.of_nat n / 2)%Z with d by lia.
  Qed.

  Lemma X_shift d k : X (d + k * Z.of_nat n) = X d.
  Proof. unfold X, T, A. rewrite !chi_at_filt by exact Hfit. fold A. now rewrite A_shift. Qed.

  Lemma withdelay_interp a : interp_t0 a = true ->
    valid_args n (nconstrain a) (direction a) (wcenter a) ->
    interp_outcome n fs0 p ac signal T (nconstrain a) (outside a) (direction a) (wcenter a)
      (snd (ofamp_withdelay a o)).
  Proof.
    intros Hi Hv. exists A. split; [exact (filt_optimal n signal template p fs0 ac inorm Hfit)|]. cbn zeta.
    unfold o. rewrite (withdelay_unfold n signal template p fs0 ac inorm Hfit), Hi.
    assert (G := search_spec n (fun i => scan_amp n signal template p fs0 ac inorm (Z.of_nat i))
      (fun i => scan_chi n signal template p fs0 ac inorm (Z.of_nat i)) (nconstrain a) (outside a)
      (direction a) (wcenter a) Hv).
    cbn zeta in G.
    set (r := bind (direction_mask _ _) _) in *. clearbody r.
    set (cand := candidate n (nconstrain a) (outside a) (direction a) (wcenter a) (fun j => A (delay n j))).
    assert (Ecand : forall j, candidate n (nconstrain a) (outside a) (direction a) (wcenter a)
       (fun j => scan_amp n signal template p fs0 ac inorm (Z.of_nat (Z.to_nat j))) j <-> cand j).
    { intros j. apply allowed_ext. intros i Hir. unfold scan_amp, A, delay. now rewrite Z2Nat.id by lia. }
    destruct G as [[-> G]|(j & -> & G1 & G2)].
    - left. split; [|reflexivity]. intros j Hj. apply (G j). now apply Ecand.
    - right. exists j.
      assert (Hj : (0 <= j < Z.of_nat n)%Z) by (destruct G1; assumption).
      assert (EX : forall i, (0 <= i < Z.of_nat n)%Z ->
         scan_chi n signal template p fs0 ac inorm (Z.of_nat (Z.to_nat i)) = X (delay n i)).
      { intros i Hir. rewrite Z2Nat.id by lia. rewrite <- X_scan. f_equal. unfold delay. lia. }
      split.
      { split; [now apply Ecand|]. intros i Hi'. destruct (G2 i) as [K1 K2]; [now apply Ecand|].
        assert (Hi2 : (0 <= i < Z.of_nat n)%Z) by (destruct Hi'; assumption).
        rewrite !EX in K1, K2 by assumption. split; assumption. }
      cbn [bind select_best].
      assert (LA : mk n (fun i => scan_amp n signal template p fs0 ac inorm (Z.of_nat i)) =
                   mk n (fun i => A (Z.of_nat i - Z.of_nat n / 2)%Z)) by reflexivity.
      assert (LX : mk n (fun i => scan_chi n signal template p fs0 ac inorm (Z.of_nat i)) =
                   mk n (fun i => X (Z.of_nat i - Z.of_nat n / 2)%Z)).
      { apply mk_ext. intros i _. rewrite <- X_scan. f_equal. lia. }
      rewrite LA, LX. clear LA LX. split.
      + intros Ej. unfold interpolate_of.
        replace j with (Z.of_nat (length (mk n (fun i => X (Z.of_nat i - Z.of_nat n / 2)%Z))) - 1)%Z
          by (rewrite mk_length; lia).
        rewrite parabola_last. reflexivity.
      + intros Ej Hc.
        assert (D1 : delay n (j - 1) = (delay n j - 1)%Z) by (unfold delay; lia).
        assert (D2 : delay n (j + 1) = (delay n j + 1)%Z) by (unfold delay; lia).
        assert (E1 := scan_entry X (j - 1) X_shift ltac:(lia)).
        assert (E2 := scan_entry X j X_shift ltac:(lia)).
        assert (E3 := scan_entry X (j + 1) X_shift ltac:(lia)).
        assert (F1 := scan_entry A (j - 1) A_shift ltac:(lia)).
        assert (F2 := scan_entry A j A_shift ltac:(lia)).
        assert (F3 := scan_entry A (j + 1) A_shift ltac:(lia)).
        rewrite D1 in E1, F1. rewrite D2 in E3, F3.
        assert (Hdel : 0 < 1 / fs0) by (apply Rdiv_lt_0_compat; lra).
        unfold interpolate_of.
        rewrite (parabola_through3 _ _ _ _ _ _ None E1 E2 E3 Hdel) by (intros; exact Hc).
        cbn [bind fst snd].
        rewrite (parabola_through3 _ _ _ _ _ _ (Some _) F1 F2 F3 Hdel) by discriminate.
        cbn [bind fst snd]. eexists. split; [reflexivity|]. split.
        * exact (through3_vertex _ _ _ _ Hdel Hc).
        * exact (through3_best _ _ _ _ Hdel Hc).
  Qed.

  (** The pair of pulses of the stationary pileup fit *)
  Lemma stationary_best nc out wc : valid_center (Z.of_nat n) wc -> (forall k, nc = Some k -> (0 < k)%Z) ->
    (exists j, allowed (Z.of_nat n) nc out (fun _ => True) wc j) ->
    exists a1 a2 j,
      snd (pileup_stationary nc out wc o)
        = Ok (a1, a2, IZR (delay n j) / fs0, wchi2 n fs0 p ac (minus_two n signal T a1 0 a2 (delay n j))) /\
      allowed (Z.of_nat n) nc out (fun _ => True) wc j /\
      forall j', allowed (Z.of_nat n) nc out (fun _ => True) wc j' ->
        (delay n j' mod Z.of_nat n <> 0)%Z -> distinct_delay n ac T (delay n j') ->
        forall b1 b2, wchi2 n fs0 p ac (minus_two n signal T a1 0 a2 (delay n j))
                      <= wchi2 n fs0 p ac (minus_two n signal T b1 0 b2 (delay n j')).
  Proof.
    intros Hc Hnc [j0 Hw].
    destruct (stationary_fresh n signal template p fs0 ac inorm Hfit nc out wc Hc Hnc) as [[_ K]|(j & [Hj Hm] & E)].
    - exfalso. exact (K j0 Hw).
    - do 2 eexists. exists j. split; [exact E|]. split; [exact Hj|].
      intros j' Hj' H1 H2 b1 b2.
      eapply Rle_trans; [|exact (st_optimal n signal template p fs0 ac inorm Hfit (delay n j') b1 b2 H1 H2)].
      exact (proj1 (Hm j' Hj')).
  Qed.
End Interp.

Lemma baseline_interp n signal template p fs0 ac inorm :
  fit_problem n template p fs0 ac inorm -> visible n true template ->
  forall a, interp_t0 a = true -> valid_args n (nconstrain a) (direction a) (wcenter a) ->
  let T := used_template n fs0 template inorm in
  exists b,
    (exists A d, forall A' d' b', wchi2 n fs0 p false (minus_pulse_base n signal T A d b)
                                  <= wchi2 n fs0 p false (minus_pulse_base n signal T A' d' b')) /\
    interp_outcome n fs0 p false (fun i => signal i - b) T (nconstrain a) (outside a) (direction a) (wcenter a)
      (snd (ofamp_baseline a (of_init n signal template p fs0 ac inorm))).
Proof.
  intros Hfit Hvis a Hi Hv T. exists (used_baseline n signal template p fs0 ac inorm). split.
  - destruct (used_baseline_joint n signal template p fs0 ac inorm Hfit Hvis) as (A & d & _ & H).
    exists A, d. exact H.
  - rewrite baseline_is_scan by assumption.
    apply withdelay_interp; [apply (fit_dc n template p fs0 ac inorm Hfit)|exact Hi|exact Hv].
Qed.

Lemma inside_nonempty n nc : (0 < n)%nat -> (forall k, nc = Some k -> (0 < k)%Z) ->
  exists j, allowed (Z.of_nat n) nc false (fun _ => True) 0 j.
Proof.
  intros Hn Hk. exists (Z.of_nat n / 2)%Z.
  assert (D := Z.div_mod (Z.of_nat n) 2 ltac:(lia)). assert (M := Z.mod_pos_bound (Z.of_nat n) 2 ltac:(lia)).
  split; [lia|]. split; [|exact I].
  destruct nc as [k|]; [|exact I]. specialize (Hk k eq_refl). unfold in_window.
  set (w := Z.min k (Z.of_nat n)). assert (0 < w)%Z by (subst w; lia). clearbody w.
  assert (D' := Z.div_mod w 2 ltac:(lia)). assert (M' := Z.mod_pos_bound w 2 ltac:(lia)). lia.
Qed.

(** Pileup fit that finds the first pulse itself *)
Lemma free_pileup_scratch n template p fs0 ac : fit_problem n template p fs0 ac false ->
  forall x oa ot nc1 nc2 out, oa = None \/ ot = None ->
  (forall k, nc1 = Some k -> (0 < k)%Z) ->
  ofamp_pileup n x template p n fs0 (oa, ot) ac nc1 nc2 out =
  (do r <- snd (ofamp_withdelay (mkArgs nc1 false 0 0 false) (of_init n x template p fs0 ac false));
   ofamp_pileup n x template p n fs0 (Some (fst (fst r)), Some (snd (fst r))) ac nc1 nc2 out).
Proof.
  intros Hfit x oa ot nc1 nc2 out Ho Hnc.
  assert (Hn : (0 < n)%nat) by apply Hfit.
  assert (E := free_ofamp_withdelay n template p fs0 ac false Hfit [x] nc1 false Hnc (inside_nonempty n nc1 Hn Hnc)).
  unfold ofamp_pileup at 1.
  replace (match oa, ot with Some a1, Some t1 => Ok (a1, t1)
    | _, _ => do r <- ofamp n [x] template p n fs0 true ac false nc1 false;
      match r with [(a1, t1, _)] => Ok (a1, t1) | _ => Err ValueError end end)
    with (do r <- ofamp n [x] template p n fs0 true ac false nc1 false;
      match r with [(a1, t1, _)] => Ok (a1, t1) | _ => Err ValueError end)
    by (destruct Ho as [-> | ->]; [|destruct oa]; reflexivity).
  rewrite E. cbn [map sequence].
  destruct (snd (ofamp_withdelay _ _)) as [[[a1 t1] c]|e]; cbn [bind]; reflexivity.
Qed.

(** A spike at the origin *)
Lemma spike_chi a d : wchi2 3 1 unit_psd false (minus_pulse 3 (spike 0) (spike 0) a d) =
  if (d mod 3 =? 0)%Z then (1 - a) ^ 2 else 1 + a ^ 2.
Proof.
  rewrite wchi2_unit. unfold minus_pulse. rewrite !roll3 by lia. change (Z.of_nat 0 + d)%Z with d.
  assert (M := Z.mod_pos_bound d 3 ltac:(lia)).
  assert (d mod 3 = 0 \/ d mod 3 = 1 \/ d mod 3 = 2)%Z as [-> | [-> | ->]] by lia;
    change (Z.to_nat 0) with 0%nat; change (Z.to_nat 1) with 1%nat; change (Z.to_nat 2) with 2%nat;
    unfold spike; cbn [Nat.eqb Z.eqb]; ring.
Qed.

Lemma spike_opt a d : optimal_amp 3 1 unit_psd false (spike 0) (spike 0) d a ->
  a = if (d mod 3 =? 0)%Z then 1 else 0.
Proof.
  intros H. destruct (Req_dec (if (d mod 3 =? 0)%Z then 1 else 0) a) as [E|E]; [now symmetry|].
  specialize (H _ E). rewrite !spike_chi in H. destruct (d mod 3 =? 0)%Z; exfalso; nra.
Qed.

Lemma spike_interp :
  snd (ofamp_withdelay (mkArgs None false 0 0 true) (of_init 3 (spike 0) (spike 0) unit_psd 1 false false)) = Ok (1, 0, 0).
Proof.
  destruct (withdelay_interp 3 (spike 0) (spike 0) unit_psd 1 false false (spike_problem false)
    (mkArgs None false 0 0 true) eq_refl) as (amp & Ho & H).
  { split; [cbn; lia|]. split; [|discriminate]. split; discriminate || reflexivity. }
  cbn [nconstrain outside direction wcenter] in H. cbn zeta in H.
  change (used_template 3 1 (spike 0) false) with (spike 0) in *.
  assert (EA : forall d, amp d = if (d mod 3 =? 0)%Z then 1 else 0) by (intros; now apply spike_opt).
  assert (EX : forall d, wchi2 3 1 unit_psd false (minus_pulse 3 (spike 0) (spike 0) (amp d) d) =
     if (d mod 3 =? 0)%Z then 0 else 1).
  { intros d. rewrite spike_chi, EA. destruct (d mod 3 =? 0)%Z; ring. }
  assert (HC : forall j, (0 <= j < 3)%Z -> candidate 3 None false 0 0 (fun j => amp (delay 3 j)) j).
  { intros j Hj. split; [exact Hj|]. split; [exact I|]. now left. }
  destruct H as [[K _]|(j & [Hj Hm] & _ & K)]; [exfalso; exact (K 0%Z (HC 0%Z ltac:(lia)))|].
  assert (j = 1)%Z as ->.
  { destruct Hj as [Hj _]. change (Z.of_nat 3) with 3%Z in Hj.
    destruct (Hm 1%Z (HC 1%Z ltac:(lia))) as [L _]. cbn beta in L. rewrite !EX in L.
    assert (j = 0 \/ j = 1 \/ j = 2)%Z as [-> | [-> | ->]] by lia; try reflexivity; cbn in L; exfalso; lra. }
  destruct K as (dt & E & V & _).
  - cbn. lia.
  - rewrite !EX. cbn. lra.
  - rewrite E. clear E. rewrite !EX in *. rewrite !EA. change (delay 3 1) with 0%Z in *. cbn in V |- *.
    assert (dt = 0) as ->.
    { specialize (V 1). unfold through3 in V. field_simplify in V. lra. }
    f_equal. f_equal; [f_equal|]; unfold through3; field.
Qed.
