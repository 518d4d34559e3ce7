(** * Optimum filters: results of the fits on a fresh object *)
From Verif Require Import Base ListLemmas UtilsModel Dft WindowModel WindowSpec WindowProofs
  OFModel OFSpec OFProofs1.
Local Open Scope R_scope.

Lemma nth_mk {A} n (f : nat -> A) i d : (i < n)%nat -> nth i (mk n f) d = f i.
Proof. apply mk_nth. Qed.

(** ** Selection of the best bin *)

Lemma mask_prop_direction n amps dir m : direction_mask (mk n amps) dir = Ok m ->
  forall j, (0 <= j < Z.of_nat n)%Z -> mask_prop m j <-> direction_ok dir (amps (Z.to_nat j)).
Proof.
  intros Hm j Hj. assert (H := direction_mask_spec (mk n amps) dir). rewrite Hm in H.
  unfold direction_ok. destruct m as [m|].
  - destruct H as (Hd & _ & H). cbn [mask_prop]. rewrite H. rewrite mk_nth_error.
    destruct (Nat.ltb_spec (Z.to_nat j) n); [|lia]. split.
    + intros (a & Ea & Hc). injection Ea as <-. right. exact Hc.
    + intros [->|Hc]; [lia|]. eexists. split; [reflexivity|exact Hc].
  - simpl. tauto.
Qed.

Lemma allowed_ext n nc out P Q wc j :
  (forall i, (0 <= i < n)%Z -> P i <-> Q i) -> allowed n nc out P wc j <-> allowed n nc out Q wc j.
Proof. intros H. unfold allowed. split; intros (A & B & D); repeat split; try tauto; try lia; apply H; auto. Qed.

Lemma direction_mask_ok l dir : (dir = -1 \/ dir = 0 \/ dir = 1)%Z ->
  exists m, direction_mask l dir = Ok m.
Proof.
  intros H. unfold direction_mask.
  destruct H as [->|[->| ->]]; simpl; eexists; reflexivity.
Qed.

Lemma direction_mask_length l dir m : direction_mask l dir = Ok (Some m) -> length m = length l.
Proof. intros H. assert (G := direction_mask_spec l dir). rewrite H in G. tauto. Qed.

(** The common search: mask, then constrained argmin. *)
Lemma search_spec n (amps chi : nat -> R) nc out dir wc :
  valid_args n nc dir wc ->
  let r := (do mask <- direction_mask (mk n amps) dir; argmin_chi2 (mk n chi) nc out mask wc) in
  let cand := candidate n nc out dir wc (fun j => amps (Z.to_nat j)) in
  (r = Ok None /\ forall j, ~ cand j) \/
  (exists j, r = Ok (Some j) /\ first_minimum (fun i => chi (Z.to_nat i)) cand j).
Proof.
  intros (Hd & Hc & Hk) r cand.
  destruct (direction_mask_ok (mk n amps) dir Hd) as [m Hm].
  subst r. rewrite Hm. cbn [bind].
  assert (R := argmin_chi2_result (mk n chi) nc out m wc).
  rewrite mk_length in R. unfold search_result in R.
  assert (E : forall j, allowed (Z.of_nat n) nc out (mask_prop m) wc j <-> cand j).
  { intros j. apply allowed_ext. intros i Hi. exact (mask_prop_direction n amps dir m Hm i Hi). }
  specialize (R ltac:(intros l ->; apply direction_mask_length in Hm; rewrite mk_length in Hm; exact Hm) Hc Hk).
  destruct (argmin_chi2 (mk n chi) nc out m wc) as [[j|]|e]; [right| |destruct R].
  - exists j. split; [reflexivity|].
    destruct R as [R1 R2]. assert (Hj : (0 <= j < Z.of_nat n)%Z) by (destruct R1; assumption).
    split; [now apply E|]. intros i Hi. apply E in Hi. destruct (R2 i Hi) as [G1 G2].
    assert (Hir : (0 <= i < Z.of_nat n)%Z) by (destruct Hi; assumption).
    rewrite !nth_mk in G1, G2 by lia. split; auto.
  - left. split; [reflexivity|]. intros j Hj. apply (R j). now apply E.
Qed.

Lemma search_errors n (amps chi : nat -> R) nc out dir wc : ~ valid_args n nc dir wc ->
  (do mask <- direction_mask (mk n amps) dir; argmin_chi2 (mk n chi) nc out mask wc) = Err ValueError.
Proof.
  intros H. destruct (direction_mask (mk n amps) dir) as [m|e] eqn:Hm.
  - cbn [bind]. apply argmin_chi2_error.
    + intros l ->. apply direction_mask_length in Hm. rewrite !mk_length in *. exact Hm.
    + rewrite mk_length. destruct (Z_le_dec 0 0) as [_|]; [|lia].
      assert (Hd : (dir = -1 \/ dir = 0 \/ dir = 1)%Z).
      { assert (G := direction_mask_spec (mk n amps) dir). rewrite Hm in G. destruct m; lia. }
      destruct nc as [k|].
      * destruct (Z_le_dec k 0) as [Hk|Hk]; [right; eauto|].
        left. intros Hc. apply H. split; [exact Hd|]. split; [exact Hc|]. intros k' Ek. injection Ek as <-. lia.
      * left. intros Hc. apply H. split; [exact Hd|]. split; [exact Hc|]. discriminate.
  - assert (G := direction_mask_spec (mk n amps) dir). rewrite Hm in G. destruct G as [-> _]. reflexivity.
Qed.

Lemma bind_assoc {A B D} (m : res A) (f : A -> res B) (g : B -> res D) :
  (do x <- (do y <- m; f y); g x) = (do y <- m; do x <- f y; g x).
Proof. destruct m; reflexivity. Qed.

(** Search followed by the selection of the values of the best bin. *)
Lemma select_spec n (A X : Z -> R) nc out dir wc fs0 time chin :
  valid_args n nc dir wc ->
  let cand := candidate n nc out dir wc A in
  let r := (do b <- (do mask <- direction_mask (mk n (fun i => A (Z.of_nat i))) dir;
                     argmin_chi2 (mk n (fun i => X (Z.of_nat i))) nc out mask wc);
            select_best (mk n (fun i => A (Z.of_nat i))) (mk n (fun i => X (Z.of_nat i))) b fs0 time chin false) in
  (r = Ok (0, 0, chin) /\ forall j, ~ cand j) \/
  (exists j, first_minimum X cand j /\ r = Ok (A j, time j, X j)).
Proof.
  intros Hv cand r. subst r.
  assert (G := search_spec n (fun i => A (Z.of_nat i)) (fun i => X (Z.of_nat i)) nc out dir wc Hv).
  cbn zeta in G.
  set (r := bind (direction_mask _ _) _) in *. clearbody r.
  assert (Ecand : forall j, candidate n nc out dir wc (fun j => A (Z.of_nat (Z.to_nat j))) j <-> cand j).
  { intros j. apply allowed_ext. intros i Hir. now rewrite Z2Nat.id by lia. }
  destruct G as [[-> G]|(j & -> & G)].
  - left. split; [reflexivity|]. intros j Hj. apply (G j). now apply Ecand.
  - right. exists j. destruct G as [G1 G2].
    assert (Hj : (0 <= j < Z.of_nat n)%Z) by (destruct G1; assumption).
    split.
    + split; [now apply Ecand|]. intros i Hi'. destruct (G2 i) as [K1 K2]; [now apply Ecand|].
      assert (Hi2 : (0 <= i < Z.of_nat n)%Z) by (destruct Hi'; assumption).
      rewrite !Z2Nat.id in K1, K2 by lia. split; assumption.
    + cbn [bind select_best].
      rewrite !(pyindex_in _ _ 0) by (rewrite mk_length; lia). cbn [bind].
      rewrite !nth_mk by lia. now rewrite Z2Nat.id by lia.
Qed.

(** ** The fits in terms of weighted inner products *)
Section Fits.
  Variables (n : nat) (signal template p : nat -> R) (fs0 : R) (ac inorm : bool).
  Hypothesis Hfit : fit_problem n template p fs0 ac inorm.
  Let T := used_template n fs0 template inorm.
  Let w := bin_weight n fs0 p ac.
  Let o := of_init n signal template p fs0 ac inorm.
  Let N := norm o.
  Definition filt (d : Z) : R := wip n w (roll n d T) signal / N.
  Let X0 := wchi2 n fs0 p ac signal.
  Let Hn : (0 < n)%nat. Proof. apply Hfit. Qed.
  Let Hf : 0 < fs0. Proof. apply Hfit. Qed.
  Let Hf0 : fs0 <> 0. Proof. lra. Qed.
  Let HN : 0 < N. Proof. apply (norm_pos n signal template p fs0 ac inorm Hfit). Qed.

  Lemma roll_mod {A} (f : nat -> A) d i : roll n (d mod Z.of_nat n) f i = roll n d f i.
  Proof. unfold roll. f_equal. f_equal. exact (Zminus_mod_idemp_r (Z.of_nat i) d (Z.of_nat n)). Qed.

  Lemma filt_mod d : filt (d mod Z.of_nat n) = filt d.
  Proof.
    unfold filt. f_equal. apply wip_ext; intros i Hi; [|reflexivity]. apply roll_mod.
  Qed.

  Lemma N_roll d : wip n w (roll n d T) (roll n d T) = N.
  Proof. rewrite wip_roll by exact Hn. symmetry. apply norm_wip. exact Hfit. Qed.

  (** chi-square of the residual of one pulse *)
  Lemma chi2_pulse a d :
    wchi2 n fs0 p ac (minus_pulse n signal T a d) = X0 - 2 * a * filt d * N + a ^ 2 * N.
  Proof.
    rewrite (wchi2_ext n fs0 p ac _ (fun i => signal i + (- a) * roll n d T i))
      by (intros; unfold minus_pulse; ring).
    rewrite wchi2_wip, wip_lin, !wip_lin_r. fold w. rewrite (wip_sym n w signal (roll n d T)).
    rewrite N_roll. subst X0. rewrite wchi2_wip. fold w. unfold filt. field. lra.
  Qed.

  Lemma chi2_pulse_min a d :
    wchi2 n fs0 p ac (minus_pulse n signal T a d) = (X0 - filt d ^ 2 * N) + (a - filt d) ^ 2 * N.
  Proof. rewrite chi2_pulse. ring. Qed.

  Lemma nodelay_fresh d : snd (ofamp_nodelay d o) = Ok (filt d, X0 - filt d ^ 2 * N).
  Proof.
    unfold ofamp_nodelay, bindM. destruct (Z.eqb_spec d 0) as [E|E]; cbn [negb].
    - unfold get_chi0, cached. cbn [chi0 o of_init snd fst].
      assert (EA : fst (csum n (signalfilt o)) * df o = filt d).
      { unfold filt. subst d. subst N w T. rewrite <- filt_wip by exact Hfit. f_equal. f_equal.
        apply csum_ext. intros k Hk. rewrite Z.mul_0_l, tw_0. symmetry. apply Cmult_1_r. }
      do 2 f_equal; [exact EA|]. f_equal.
      + apply (chi0_wip2 n signal template p fs0 ac inorm Hfit).
      + do 2 f_equal. exact EA.
    - unfold check_freqs, get_chi0, cached. cbn [freqs chi0 o of_init snd fst set_freqs nbins].
      assert (EA : fst (csum n (fun k => signalfilt o k * cis (2 * PI * (IZR d / fs0) * fftfreq n fs0 k))%C) * df o = filt d).
      { unfold filt. subst N w T. rewrite <- filt_wip by exact Hfit. f_equal. f_equal.
        apply csum_ext. intros k Hk. now rewrite cis_tw by auto. }
      do 2 f_equal; [exact EA|]. f_equal.
      + apply (chi0_wip2 n signal template p fs0 ac inorm Hfit).
      + do 2 f_equal. exact EA.
  Qed.

  Let h := (Z.of_nat n / 2)%Z.

  Lemma roll_filt (g : R -> R) (sf : nat -> R) i : (forall j, sf j = filt (Z.of_nat j)) ->
    roll n h (fun j => g (sf j)) i = g (filt (Z.of_nat i - h)).
  Proof.
    intros H. unfold roll. rewrite H, Z2Nat.id by (apply Z.mod_pos_bound; lia).
    now rewrite filt_mod.
  Qed.

  Lemma sftd_filt j : ifft_td n (df o) (signalfilt o) j = filt (Z.of_nat j).
  Proof. apply sftd_wip. exact Hfit. Qed.

  (** Amplitude and chi-square of the delay scan in bin [j]. *)
  Definition scan_amp (j : Z) : R := filt (j - Z.of_nat n / 2).
  Definition scan_chi (j : Z) : R := X0 - scan_amp j ^ 2 * N.

  Lemma withdelay_unfold a : snd (ofamp_withdelay a o) =
    (do b <- (do mask <- direction_mask (mk n (fun i => scan_amp (Z.of_nat i))) (direction a);
              argmin_chi2 (mk n (fun i => scan_chi (Z.of_nat i))) (nconstrain a) (outside a) mask (wcenter a));
     select_best (mk n (fun i => scan_amp (Z.of_nat i))) (mk n (fun i => scan_chi (Z.of_nat i))) b fs0
       (fun b => IZR (b - Z.of_nat n / 2) / fs0) X0 (interp_t0 a)).
  Proof.
    rewrite bind_assoc.
    unfold ofamp_withdelay, bindM, get_sftd, get_chi0, cached.
    cbn [signalfilt_td chi0 chit_withdelay chi_withdelay amps_withdelay snd fst
         set_sftd set_chi0 set_chit set_chi set_amps of_init o nbins fs].
    set (sf := ifft_td _ _ _).
    assert (Esf : forall j, sf j = filt (Z.of_nat j)) by exact sftd_filt.
    set (c0 := fst _).
    assert (Ec : c0 = X0) by (apply (chi0_wip2 n signal template p fs0 ac inorm Hfit)).
    rewrite Ec.
    assert (EA : mk n (roll n (Z.of_nat n / 2) sf) = mk n (fun i => scan_amp (Z.of_nat i))).
    { apply mk_ext. intros k Hk. exact (roll_filt (fun x => x) sf k Esf). }
    assert (EX : forall M, M = N -> mk n (roll n (Z.of_nat n / 2) (fun j => X0 - sf j ^ 2 * M)) = mk n (fun i => scan_chi (Z.of_nat i))).
    { intros M ->. apply mk_ext. intros k Hk. exact (roll_filt (fun x => X0 - x ^ 2 * N) sf k Esf). }
    rewrite EA. rewrite EX by reflexivity. reflexivity.
  Qed.

  Lemma withdelay_fresh a : interp_t0 a = false -> valid_args n (nconstrain a) (direction a) (wcenter a) ->
    let cand := candidate n (nconstrain a) (outside a) (direction a) (wcenter a) scan_amp in
    (snd (ofamp_withdelay a o) = Ok (0, 0, X0) /\ forall j, ~ cand j) \/
    (exists j, first_minimum scan_chi cand j /\
       snd (ofamp_withdelay a o) = Ok (scan_amp j, IZR (j - Z.of_nat n / 2) / fs0, scan_chi j)).
  Proof.
    intros Hi Hv. rewrite withdelay_unfold, Hi. cbn zeta.
    exact (select_spec n scan_amp scan_chi _ (outside a) _ _ fs0 (fun b => IZR (b - Z.of_nat n / 2) / fs0) X0 Hv).
  Qed.

  Lemma withdelay_errors a : ~ valid_args n (nconstrain a) (direction a) (wcenter a) ->
    snd (ofamp_withdelay a o) = Err ValueError.
  Proof. intros H. rewrite withdelay_unfold, search_errors by exact H. reflexivity. Qed.
End Fits.
