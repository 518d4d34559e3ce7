(** * The free optimum-filter functions agree with the class *)
From Verif Require Import Base UtilsModel Dft WindowModel WindowSpec WindowProofs OFModel OFFreeModel OFSpec
  OFProofs1 OFProofs2 OFProofs3 OFProofs6 OFProofs7.
Local Open Scope R_scope.

Lemma sequence_ok {A B} (f : A -> res B) (g : A -> B) l :
  (forall x, In x l -> f x = Ok (g x)) -> sequence (map f l) = Ok (map g l).
Proof.
  induction l as [|x l IH]; intros H; [reflexivity|]. cbn [map sequence].
  rewrite H by now left. cbn [bind]. rewrite IH by (intros; apply H; now right). reflexivity.
Qed.

Lemma sequence_err {A B} (f : A -> res B) e l : l <> [] -> (forall x, In x l -> f x = Err e) ->
  sequence (map f l) = Err e.
Proof. destruct l as [|x l]; [easy|]. intros _ H. cbn [map sequence]. rewrite H by now left. reflexivity. Qed.

Lemma center_0 n : (0 < n)%nat -> valid_center (Z.of_nat n) 0.
Proof.
  intros H. unfold valid_center.
  assert (0 <= Z.of_nat n / 2)%Z by (apply Z.div_pos; lia).
  assert (Z.of_nat n / 2 < Z.of_nat n)%Z by (apply Z.div_lt; lia). lia.
Qed.

(** The row-wise search is the search of every row. *)
Lemma argmin_rows_spec n rows nc out : (0 < n)%nat ->
  (forall r, In r rows -> length r = n) -> (forall k, nc = Some k -> (0 < k)%Z) ->
  (exists j, allowed (Z.of_nat n) nc out (fun _ => True) 0 j) ->
  exists bs, argmin_rows n rows nc out = Ok (Some bs) /\
    Forall2 (fun row b => argmin_chi2 row nc out None 0 = Ok (Some b) /\ (0 <= b < Z.of_nat n)%Z) rows bs.
Proof.
  intros Hn Hl Hnc Hw.
  assert (Hc := center_0 n Hn).
  assert (Hone : forall r, In r rows -> exists b, argmin_chi2 r nc out None 0 = Ok (Some b) /\ (0 <= b < Z.of_nat n)%Z).
  { intros r Hr. assert (G := argmin_chi2_result r nc out None 0).
    rewrite (Hl r Hr) in G. specialize (G ltac:(discriminate) Hc Hnc).
    destruct (argmin_chi2 r nc out None 0) as [[b|]|e]; cbn [search_result mask_prop] in G.
    - exists b. split; [reflexivity|]. destruct G as [(G & _) _]. exact G.
    - destruct Hw as [j Hj]. exfalso. exact (G j Hj).
    - contradiction. }
  unfold argmin_rows. rewrite (proj2 (center_iff (Z.of_nat n) 0 ltac:(lia)) Hc). cbn [negb].
  destruct nc as [k|].
  - specialize (Hnc k eq_refl).
    assert (Enc : exists w, (if (k >? Z.of_nat n)%Z then Ok (Z.of_nat n)
        else if (k <=? 0)%Z then Err ValueError else Ok k) = Ok w).
    { destruct (k >? Z.of_nat n)%Z; [eexists; reflexivity|].
      destruct (Z.leb_spec k 0); [lia|]. eexists; reflexivity. }
    destruct Enc as [w Ew]. rewrite Ew. cbn [bind].
    assert (Hb : forall r, In r rows -> exists b, best_of r (window_inds (Z.of_nat n) w 0 out) = Ok (Some b) /\
        argmin_chi2 r (Some k) out None 0 = Ok (Some b) /\ (0 <= b < Z.of_nat n)%Z).
    { intros r Hr. destruct (Hone r Hr) as (b & E & Hb). exists b. split; [|split; assumption].
      unfold argmin_chi2 in E. rewrite (Hl r Hr) in E.
      rewrite (proj2 (center_iff (Z.of_nat n) 0 ltac:(lia)) Hc) in E. cbn [negb] in E.
      rewrite Ew in E. exact E. }
    clear Hone.
    destruct (window_inds (Z.of_nat n) w 0 out) as [|i0 l0] eqn:Ei.
    + destruct rows as [|r rows].
      * exfalso. destruct Hw as [j (Hj & Hw & _)].
        assert (Hwr : (0 < w <= Z.of_nat n)%Z).
        { destruct (Z.gtb_spec k (Z.of_nat n)); [injection Ew as <-; lia|].
          destruct (Z.leb_spec k 0); [lia|]. injection Ew as <-. lia. }
        destruct (window_inds_spec (Z.of_nat n) w 0 out ltac:(lia) Hwr Hc) as [_ G].
        rewrite Ei in G. apply (G j). split; [exact Hj|].
        assert (Emin : Z.min w (Z.of_nat n) = Z.min k (Z.of_nat n)).
        { destruct (Z.gtb_spec k (Z.of_nat n)); [injection Ew as <-; lia|].
          destruct (Z.leb_spec k 0); [lia|]. injection Ew as <-. lia. }
        unfold in_window in *. rewrite Emin. exact Hw.
      * destruct (Hb r (or_introl eq_refl)) as (b & E & _). discriminate.
    + set (inds := i0 :: l0) in *. clear Hl Hw.
      assert (G : exists bs, sequence (map (fun row =>
          do vals <- take row inds; do b <- argmin vals; pyindex inds (Z.of_nat b)) rows) = Ok bs /\
        Forall2 (fun row b => argmin_chi2 row (Some k) out None 0 = Ok (Some b) /\ (0 <= b < Z.of_nat n)%Z) rows bs).
      { induction rows as [|r rows IH]; [exists []; split; [reflexivity|constructor]|].
        destruct IH as (bs & E & F2); [intros; apply Hb; now right|].
        destruct (Hb r (or_introl eq_refl)) as (b & E1 & E2 & E3).
        exists (b :: bs). split; [|constructor; auto].
        cbn [map sequence]. rewrite E. unfold best_of, inds in E1. fold inds in E1.
        destruct (take r inds) as [vs|]; [|discriminate]. cbn [bind] in *. destruct (argmin vs) as [m|]; [|discriminate].
        cbn [bind] in *. destruct (pyindex inds (Z.of_nat m)); [|discriminate]. cbn [bind] in *.
        injection E1 as ->. reflexivity. }
      destruct G as (bs & E & F2). exists bs. split; [|exact F2]. rewrite E. reflexivity.
  - assert (G : exists bs, sequence (map (fun row => do b <- argmin row; Ok (Z.of_nat b)) rows) = Ok bs /\
        Forall2 (fun row b => argmin_chi2 row None out None 0 = Ok (Some b) /\ (0 <= b < Z.of_nat n)%Z) rows bs).
    { clear Hw. induction rows as [|r rows IH]; [exists []; split; [reflexivity|constructor]|].
      destruct IH as (bs & E & F2); [intros; apply Hl; now right|intros; apply Hone; now right|].
      destruct (Hone r (or_introl eq_refl)) as (b & E1 & E2).
      exists (b :: bs). split; [|constructor; auto].
      cbn [map sequence]. rewrite E. unfold argmin_chi2 in E1. rewrite (Hl r (or_introl eq_refl)) in E1.
      rewrite (proj2 (center_iff (Z.of_nat n) 0 ltac:(lia)) Hc) in E1. cbn [negb] in E1.
      destruct (argmin r); [|discriminate]. cbn [bind] in *. injection E1 as ->. reflexivity. }
    destruct G as (bs & E & F2). exists bs. rewrite E. split; [reflexivity|exact F2].
Qed.

Lemma argmin_rows_error n rows k out : (0 < n)%nat -> (k <= 0)%Z ->
  argmin_rows n rows (Some k) out = Err ValueError.
Proof.
  intros Hn Hk. unfold argmin_rows. rewrite (proj2 (center_iff (Z.of_nat n) 0 ltac:(lia)) (center_0 n Hn)).
  cbn [negb]. destruct (Z.gtb_spec k (Z.of_nat n)); [lia|]. destruct (Z.leb_spec k 0); [reflexivity|lia].
Qed.

Lemma argmin_rows_empty n rows nc out : (0 < n)%nat -> (forall k, nc = Some k -> (0 < k)%Z) ->
  (forall j, ~ allowed (Z.of_nat n) nc out (fun _ => True) 0 j) ->
  argmin_rows n rows nc out = Ok None.
Proof.
  intros Hn Hnc Hw. assert (Hc := center_0 n Hn).
  unfold argmin_rows. rewrite (proj2 (center_iff (Z.of_nat n) 0 ltac:(lia)) Hc). cbn [negb].
  destruct nc as [k|].
  2:{ exfalso. apply (Hw 0%Z). repeat split; lia. }
  specialize (Hnc k eq_refl).
  assert (Enc : exists w, (if (k >? Z.of_nat n)%Z then Ok (Z.of_nat n)
        else if (k <=? 0)%Z then Err ValueError else Ok k) = Ok w /\ (0 < w <= Z.of_nat n)%Z /\
        Z.min w (Z.of_nat n) = Z.min k (Z.of_nat n)).
  { destruct (Z.gtb_spec k (Z.of_nat n)); [eexists; split; [reflexivity|lia]|].
    destruct (Z.leb_spec k 0); [lia|]. eexists; split; [reflexivity|lia]. }
  destruct Enc as (w & -> & Hwr & Emin). cbn [bind].
  destruct (window_inds (Z.of_nat n) w 0 out) as [|i0 l0] eqn:Ei; [reflexivity|].
  exfalso. destruct (window_inds_spec (Z.of_nat n) w 0 out ltac:(lia) Hwr Hc) as [_ G].
  rewrite Ei in G. destruct (proj1 (G i0) (or_introl eq_refl)) as [G1 G2].
  apply (Hw i0). split; [exact G1|]. split; [|exact I]. unfold in_window in *. rewrite <- Emin. exact G2.
Qed.

Lemma diag_take_spec n rows bs : length rows = length bs ->
  (forall r, In r rows -> length r = n) -> (forall b, In b bs -> (0 <= b < Z.of_nat n)%Z) ->
  diag_take rows bs = Ok (map (fun x => nth (Z.to_nat (snd x)) (fst x) 0) (combine rows bs)).
Proof.
  intros Hlen Hr Hb. unfold diag_take.
  rewrite (sequence_ok _ (fun row => map (fun i => nth (Z.to_nat i) row 0) bs)).
  2:{ intros row Hrow. apply take_in. intros i Hi. rewrite (Hr row Hrow). now apply Hb. }
  cbn [bind]. rewrite map_length.
  rewrite (sequence_ok _ (fun i => nth (Z.to_nat (nth i bs 0%Z)) (nth i rows []) 0)).
  - f_equal. apply (nth_ext _ _ 0 0).
    + rewrite !map_length, combine_length, seq_length. lia.
    + intros i Hi. rewrite map_length, seq_length in Hi.
      rewrite (nth_indep _ 0 (nth (Z.to_nat (nth 0 bs 0%Z)) (nth 0 rows []) 0)) by (rewrite map_length, seq_length; lia).
      rewrite (map_nth (fun i => nth (Z.to_nat (nth i bs 0%Z)) (nth i rows []) 0) (seq 0 (length rows)) 0%nat i).
      rewrite seq_nth by lia. cbn [Nat.add].
      rewrite (nth_indep (map _ (combine rows bs)) 0 ((fun x => nth (Z.to_nat (snd x)) (fst x) 0) ([], 0%Z)))
        by (rewrite map_length, combine_length; lia).
      rewrite (map_nth (fun x => nth (Z.to_nat (snd x)) (fst x) 0)).
      rewrite combine_nth by exact Hlen. reflexivity.
  - intros i Hi. apply in_seq in Hi.
    rewrite nth_error_map.
    rewrite (nth_error_nth' rows []) by lia. cbn [option_map].
    rewrite (pyindex_in _ _ ((fun i0 => nth (Z.to_nat i0) (nth i rows []) 0) 0%Z)) by (rewrite map_length; lia).
    rewrite Nat2Z.id.
    rewrite (map_nth (fun i0 => nth (Z.to_nat i0) (nth i rows []) 0) bs 0%Z i). reflexivity.
Qed.

Lemma Forall2_len {A B} (P : A -> B -> Prop) l m : Forall2 P l m -> length l = length m.
Proof. induction 1; cbn; congruence. Qed.

Section Agree.
  Variables (n : nat) (template p : nat -> R) (fs0 : R) (ac inorm : bool).
  Hypothesis Hfit : fit_problem n template p fs0 ac inorm.
  Let Hn : (0 < n)%nat. Proof. apply Hfit. Qed.
  Let ob x := of_init n x template p fs0 ac inorm.
  Let h := (Z.of_nat n / 2)%Z.
  Let A x := mk n (roll n h (ifft_td n (fs0 / INR n) (free_filt n x template p fs0 ac inorm))).
  Let X x := mk n (roll n h (fun j =>
    fst (free_vv n x p fs0 ac * RtoC (fs0 / INR n))%C
    - ifft_td n (fs0 / INR n) (free_filt n x template p fs0 ac inorm) j ^ 2 * free_norm n template p fs0 ac inorm)).

  Lemma oo_one x nc out b : argmin_chi2 (X x) nc out None 0 = Ok (Some b) -> (0 <= b < Z.of_nat n)%Z ->
    snd (ofamp_withdelay (mkArgs nc out 0 0 false) (ob x)) =
    Ok (nth (Z.to_nat b) (A x) 0, IZR (b - h) / fs0, nth (Z.to_nat b) (X x) 0).
  Proof.
    intros E Hb.
    change (snd (ofamp_withdelay (mkArgs nc out 0 0 false) (ob x))) with
      (do mask <- direction_mask (A x) 0;
       do b <- argmin_chi2 (X x) nc out mask 0;
       select_best (A x) (X x) b fs0 (fun b => IZR (b - h) / fs0)
         (fst (free_vv n x p fs0 ac * RtoC (fs0 / INR n))%C) false).
    cbn [direction_mask bind Z.eqb orb]. 
    change (direction_mask (A x) 0) with (@Ok (option (list bool)) None). cbn [bind].
    rewrite E. cbn [bind select_best].
    rewrite !(pyindex_in _ _ 0) by (unfold A, X; rewrite mk_length; lia). reflexivity.
  Qed.

  Lemma free_ofamp_withdelay signals nc out : (forall k, nc = Some k -> (0 < k)%Z) ->
    (exists j, allowed (Z.of_nat n) nc out (fun _ => True) 0 j) ->
    ofamp n signals template p n fs0 true ac inorm nc out =
    sequence (map (fun x => snd (ofamp_withdelay (mkArgs nc out 0 0 false) (ob x))) signals).
  Proof.
    intros Hnc Hw. unfold ofamp. rewrite Nat.eqb_refl. cbn [negb].
    rewrite !map_map.
    set (amps := map (fun a => mk n (roll n (Z.of_nat n / 2) _)) signals).
    assert (EA : amps = map A signals) by reflexivity. rewrite EA. clear amps EA.
    match goal with |- context[argmin_rows n ?c nc out] => set (chis := c) end.
    assert (EX : chis = map X signals).
    { unfold chis. clear. induction signals as [|x l IH]; [reflexivity|]. cbn [map combine]. f_equal. exact IH. }
    rewrite EX. clear chis EX.
    destruct (argmin_rows_spec n (map X signals) nc out Hn) as (bs & E & F2); [|exact Hnc|exact Hw|].
    { intros r Hr. apply in_map_iff in Hr. destruct Hr as (x & <- & _). apply mk_length. }
    rewrite E. cbn [bind].
    assert (Hlen : length signals = length bs) by (apply Forall2_len in F2; now rewrite map_length in F2).
    assert (Hb : forall b, In b bs -> (0 <= b < Z.of_nat n)%Z).
    { clear - F2. induction F2 as [|r b rows bs [_ H] _ IH]; intros c Hc; [easy|].
      destruct Hc as [<-|Hc]; auto. }
    rewrite !(diag_take_spec n) by (try (rewrite map_length; exact Hlen); try exact Hb;
      intros r Hr; apply in_map_iff in Hr; destruct Hr as (x & <- & _); apply mk_length).
    cbn [bind]. clear E Hlen.
    revert bs F2 Hb. induction signals as [|x l IH]; intros bs F2 Hb.
    - inversion F2. reflexivity.
    - inversion F2 as [|r b rows bs' [E1 E2] F2']. subst. cbn [map combine zip3 sequence fst snd].
      rewrite (oo_one x nc out b E1 E2). cbn [bind].
      rewrite <- IH with (bs := bs'); [reflexivity|exact F2'|intros; apply Hb; now right].
  Qed.

  Lemma free_ofamp_empty signals nc out : (forall k, nc = Some k -> (0 < k)%Z) ->
    (forall j, ~ allowed (Z.of_nat n) nc out (fun _ => True) 0 j) ->
    ofamp n signals template p n fs0 true ac inorm nc out = Err IndexError.
  Proof.
    intros Hnc Hw. unfold ofamp. rewrite Nat.eqb_refl. cbn [negb].
    rewrite argmin_rows_empty by assumption. reflexivity.
  Qed.

  Lemma free_ofamp_badnc signals k out : (k <= 0)%Z ->
    ofamp n signals template p n fs0 true ac inorm (Some k) out = Err ValueError.
  Proof.
    intros Hk. unfold ofamp. rewrite Nat.eqb_refl. cbn [negb].
    rewrite argmin_rows_error by assumption. reflexivity.
  Qed.

  Lemma free_ofamp_nodelay signals nc out :
    ofamp n signals template p n fs0 false ac inorm nc out =
    sequence (map (fun x => do r <- snd (ofamp_nodelay 0 (ob x)); Ok (fst r, 0, snd r)) signals).
  Proof.
    unfold ofamp. rewrite Nat.eqb_refl. cbn [negb]. symmetry. apply sequence_ok. intros x _. reflexivity.
  Qed.

  Lemma free_sigma x : ofamp_sigma n template p fs0 ac inorm = energy_resolution (ob x).
  Proof. reflexivity. Qed.

  Lemma free_nopulse signals :
    map (fun c => Ok c) (free_chi2_nopulse n signals p fs0 ac) =
    map (fun x => snd (m_chi2_nopulse (ob x))) signals.
  Proof.
    unfold free_chi2_nopulse. rewrite map_map. apply map_ext. intros x.
    change (snd (m_chi2_nopulse (ob x))) with (Ok (fst (cdot n (fun k => cdivp (Cconj (v (ob x) k)) (psd (ob x) k)) (v (ob x)) * RtoC (df (ob x)))%C)).
    f_equal. unfold ob. rewrite chi0_wip2 by exact Hfit. rewrite <- (chi0_sum n x template p fs0 ac inorm Hfit).
    rewrite Rmult_comm. reflexivity.
  Qed.
End Agree.

(** Functions without the integral normalisation *)
Section Agree2.
  Variables (n : nat) (template p : nat -> R) (fs0 : R) (ac : bool).
  Hypothesis Hfit : fit_problem n template p fs0 ac false.
  Let Hn : (0 < n)%nat. Proof. apply Hfit. Qed.
  Let Hf : 0 < fs0. Proof. apply Hfit. Qed.
  Let ob x := of_init n x template p fs0 ac false.
  Let h := (Z.of_nat n / 2)%Z.
  Let N := free_norm n template p fs0 ac false.
  Let HN : 0 < N. Proof. apply (norm_pos n template template p fs0 ac false Hfit). Qed.

  Lemma free_lowfreq sats fc :
    map (fun c => Ok c) (free_chi2lowfreq n sats template p fs0 fc ac) =
    map (fun x => snd (m_chi2_lowfreq (snd (fst x)) (snd x) fc (ob (fst (fst x))))) sats.
  Proof.
    unfold free_chi2lowfreq. rewrite map_map. apply map_ext. intros [[x a] t]. reflexivity.
  Qed.

  Lemma free_time_eq b : (0 <= b)%Z -> free_time n fs0 b = IZR (- h + Z.of_nat (Z.to_nat b)) / fs0.
  Proof. reflexivity. Qed.

  (** Pileup fit with a given first pulse *)
  Lemma free_pileup_eq x a1 t1 nc1 nc2 out :
    (forall k, nc2 = Some k -> (0 < k)%Z) ->
    (exists j, allowed (Z.of_nat n) nc2 out (fun _ => True) 0 j) ->
    ofamp_pileup n x template p n fs0 (Some a1, Some t1) ac nc1 nc2 out =
    (do r <- snd (pileup_iterative a1 t1 (mkArgs nc2 out 0 0 false) (ob x));
     Ok (a1, t1, fst (fst r), snd (fst r), snd r)).
  Proof.
    intros Hnc Hw. unfold ofamp_pileup. cbn [bind]. rewrite Nat.eqb_refl. cbn [negb].
    unfold pileup_iterative, bindM, check_freqs, get_sftd, get_times, get_chi0', cached.
    cbn [freqs signalfilt_td times chi0 snd fst set_freqs set_sftd set_times set_chi0 ob of_init nbins fs df phi s norm v psd signalfilt direction nconstrain outside wcenter interp_t0].
    set (sf := ifft_td n (fs0 / INR n) (free_filt n x template p fs0 ac false)).
    change (ifft_td n (fs0 / INR n) (fun k => (cdivp (Cconj (template_ft n (fs0 / INR n) template false k)) (coupled_psd ac p k) *
             fftnorm n (fs0 / INR n) x k /
             RtoC (fst (cdot n (fun k0 => cdivp (Cconj (template_ft n (fs0 / INR n) template false k0)) (coupled_psd ac p k0))
                   (template_ft n (fs0 / INR n) template false)) * (fs0 / INR n)))%C)) with sf.
    change (fst (cdot n (fun k0 => cdivp (Cconj (template_ft n (fs0 / INR n) template false k0)) (coupled_psd ac p k0))
                   (template_ft n (fs0 / INR n) template false)) * (fs0 / INR n)) with N.
    change (free_norm n template p fs0 ac false) with N.
    set (c0 := fst (free_vv n x p fs0 ac) * (fs0 / INR n)).
    change (fst (cdot n (fun k => cdivp (Cconj (fftnorm n (fs0 / INR n) x k)) (coupled_psd ac p k)) (fftnorm n (fs0 / INR n) x)) * (fs0 / INR n)) with c0.
    set (ttd := template_td n (fs0 / INR n) _ _ _ t1).
    change (template_td n (fs0 / INR n) (fun k => cdivp (Cconj (template_ft n (fs0 / INR n) template false k)) (coupled_psd ac p k))
              (template_ft n (fs0 / INR n) template false) (fftfreq n fs0) t1) with ttd. clearbody ttd c0 sf.
    destruct (pyindex (mk n sf) (t1_index n fs0 t1)) as [sf1|e]; [|reflexivity]. cbn [bind].
    set (a2s := fun j => sf j - a1 * ttd j / N).
    change (direction_mask (mk n (roll n (Z.of_nat n / 2) a2s)) 0) with (@Ok (option (list bool)) None). cbn [bind].
    assert (EX : mk n (roll n (Z.of_nat n / 2) (fun j => c0 + ((a1 ^ 2 + a2s j ^ 2) * N + 2 * a1 * a2s j * ttd j)
        - (2 * a1 * sf1 * N + 2 * a2s j * sf j * N)))
      = mk n (roll n (Z.of_nat n / 2) (fun j => c0 + (a1 ^ 2 * N - 2 * a1 * sf1 * N)
        + (a2s j ^ 2 * N + 2 * a1 * a2s j * ttd j - 2 * a2s j * sf j * N)))).
    { apply mk_ext. intros k _. unfold roll. ring. }
    unfold a2s in EX. rewrite EX. clear EX.
    match goal with |- context[argmin_chi2 ?c nc2] => set (chi := c) end.
    assert (G := argmin_chi2_result chi nc2 out None 0 ltac:(discriminate)).
    assert (EL : length chi = n) by apply mk_length. rewrite EL in G. specialize (G (center_0 n Hn) Hnc).
    destruct (argmin_chi2 chi nc2 out None 0) as [[b|]|e]; cbn [search_result mask_prop bind] in *.
    - destruct G as [((Hb0 & Hb1) & _) _]. cbn [select_best].
      rewrite !(pyindex_in _ _ 0) by (unfold chi; rewrite mk_length; lia). cbn [bind fst snd]. reflexivity.
    - exfalso. destruct Hw as [j Hj]. exact (G j Hj).
    - contradiction.
  Qed.

  (** Stationary fit *)
  Lemma free_stationary_eq x nc out :
    free_pileup_stationary n x template p n fs0 ac nc out = snd (pileup_stationary nc out 0 (ob x)).
  Proof.
    unfold free_pileup_stationary. rewrite Nat.eqb_refl. cbn [negb].
    unfold pileup_stationary, bindM, get_sftd, get_times, get_chi0', cached.
    cbn [freqs signalfilt_td times chi0 snd fst set_freqs set_sftd set_times set_chi0 ob of_init nbins fs df phi s norm v psd signalfilt].
    set (sf := ifft_td n (fs0 / INR n) (free_filt n x template p fs0 ac false)).
    change (ifft_td n (fs0 / INR n) (fun k => (cdivp (Cconj (template_ft n (fs0 / INR n) template false k)) (coupled_psd ac p k) *
             fftnorm n (fs0 / INR n) x k /
             RtoC (fst (cdot n (fun k0 => cdivp (Cconj (template_ft n (fs0 / INR n) template false k0)) (coupled_psd ac p k0))
                   (template_ft n (fs0 / INR n) template false)) * (fs0 / INR n)))%C)) with sf.
    change (fst (cdot n (fun k0 => cdivp (Cconj (template_ft n (fs0 / INR n) template false k0)) (coupled_psd ac p k0))
                   (template_ft n (fs0 / INR n) template false)) * (fs0 / INR n)) with N.
    change (free_norm n template p fs0 ac false) with N.
    set (c0 := fst (free_vv n x p fs0 ac) * (fs0 / INR n)).
    change (fst (cdot n (fun k => cdivp (Cconj (fftnorm n (fs0 / INR n) x k)) (coupled_psd ac p k)) (fftnorm n (fs0 / INR n) x)) * (fs0 / INR n)) with c0.
    set (ttd := ifft_td n (fs0 / INR n) (fun k => (free_phi n template p fs0 ac false k * free_s n template fs0 false k)%C)).
    change (ifft_td n (fs0 / INR n) (fun k => (cdivp (Cconj (template_ft n (fs0 / INR n) template false k)) (coupled_psd ac p k) * template_ft n (fs0 / INR n) template false k)%C)) with ttd.
    clearbody ttd c0 sf.
    assert (EA : forall j, free_stationary_amps N (fun j => sf j * N) ttd j = stationary_amps N sf ttd j).
    { intros j. unfold free_stationary_amps, stationary_amps. destruct (j =? 0)%nat.
      - f_equal; field; lra.
      - f_equal; unfold Rdiv; f_equal; ring. }
    assert (EC : forall j, free_stationary_chi N c0 (fun j => sf j * N) ttd j = stationary_chi N c0 sf ttd j).
    { intros j. unfold free_stationary_chi, stationary_chi. rewrite EA.
      destruct (stationary_amps N sf ttd j) as [u w]. ring. }
    rewrite (mk_ext n (roll n (Z.of_nat n / 2) (fun j => fst (free_stationary_amps N (fun j0 => sf j0 * N) ttd j)))
              (roll n (Z.of_nat n / 2) (fun j => fst (stationary_amps N sf ttd j)))) by (intros; unfold roll; now rewrite EA).
    rewrite (mk_ext n (roll n (Z.of_nat n / 2) (fun j => snd (free_stationary_amps N (fun j0 => sf j0 * N) ttd j)))
              (roll n (Z.of_nat n / 2) (fun j => snd (stationary_amps N sf ttd j)))) by (intros; unfold roll; now rewrite EA).
    rewrite (mk_ext n (roll n (Z.of_nat n / 2) (free_stationary_chi N c0 (fun j => sf j * N) ttd))
              (roll n (Z.of_nat n / 2) (stationary_chi N c0 sf ttd))) by (intros; unfold roll; now rewrite EC).
    reflexivity.
  Qed.
End Agree2.

Lemma free_badpsd n m signals signal template p fs0 ac inorm nc out nc1 nc2 a1t1 : m <> n ->
  (forall wd, ofamp n signals template p m fs0 wd ac inorm nc out = Err ValueError) /\
  ofamp_pileup n signal template p m fs0 a1t1 ac nc1 nc2 out = Err ValueError /\
  free_pileup_stationary n signal template p m fs0 ac nc out = Err ValueError.
Proof.
  intros H. apply Nat.eqb_neq in H.
  assert (E : forall sg wd b nc o, ofamp n sg template p m fs0 wd ac b nc o = Err ValueError)
    by (intros; unfold ofamp; now rewrite H).
  split; [intros; apply E|]. split.
  - unfold ofamp_pileup. rewrite E, H. destruct a1t1 as [[a|] [t|]]; reflexivity.
  - unfold free_pileup_stationary. now rewrite H.
Qed.
