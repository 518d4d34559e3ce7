(** * Proofs about the noise plots *)
From Coq Require Import String Ascii DecimalString DecimalNat.
From Verif Require Import Base ListLemmas Dft UtilsModel NoiseModel NoiseSpec NoiseProofs7 PlotModel PlotSpec.
Open Scope R_scope.

(** ** Invariant of the object *)
Definition sized (o : noise) : Prop :=
  let m := (nbins o / 2 + 1)%nat in
  (forall p, n_psd o = Some p -> length p = nchan o /\ forall r, In r p -> length r = m) /\
  (forall p, n_real_psd o = Some p -> length p = nchan o /\ forall r, In r p -> length r = m) /\
  (forall p, n_imag_psd o = Some p -> length p = nchan o /\ forall r, In r p -> length r = m) /\
  (forall p, n_uncorr o = Some p -> length p = nchan o /\ forall r, In r p -> length r = m) /\
  (forall p, n_corr o = Some p -> length p = nchan o /\ forall r, In r p -> length r = m) /\
  (forall p, n_real_csd o = Some p -> forall i j, length (p i j) = m) /\
  (forall p, n_imag_csd o = Some p -> forall i j, length (p i j) = m).

Definition nonneg_rows (p : option (list (list R))) : Prop :=
  forall rows r v, p = Some rows -> In r rows -> In v r -> 0 <= v.

Definition together (o : noise) : Prop :=
  (n_real_psd o = None <-> n_imag_psd o = None) /\ (n_psd o = None <-> n_real_psd o = None) /\
  (n_csd o = None <-> n_real_csd o = None) /\ (n_csd o = None <-> n_imag_csd o = None) /\
  (n_uncorr o = None <-> n_corr o = None) /\ (n_csd o = None -> n_uncorr o = None).

Lemma lenpsd_half n : lenpsd n = (n / 2 + 1)%nat.
Proof.
  unfold lenpsd. destruct (Nat.eqb_spec (n mod 2) 0) as [H|H]; [reflexivity|].
  pose proof (Nat.mod_upper_bound n 2 ltac:(lia)).
  pose proof (Nat.div_mod n 2 ltac:(lia)). assert (n mod 2 = 1)%nat by lia.
  replace (n + 1)%nat with ((n / 2 + 1) * 2)%nat by lia. rewrite Nat.div_mul by lia. lia.
Qed.

Lemma rows_mk {A} n (f : nat -> list A) m : (forall i, (i < n)%nat -> length (f i) = m) ->
  length (mk n f) = n /\ forall r, In r (mk n f) -> length r = m.
Proof.
  intros H. split; [apply mk_length|]. intros r Hr. unfold mk in Hr. apply in_map_iff in Hr.
  destruct Hr as (i & <- & Hi). apply in_seq in Hi. apply H. lia.
Qed.

Lemma sized_init n inp fs k gain time o : noise_init n inp fs k gain time = Ok o ->
  sized o /\ together o /\ nchan o = k /\ nbins o = n /\ nfs o = fs /\ (0 < n)%nat.
Proof.
  intros H. destruct (init_ok _ _ _ _ _ _ _ H) as (En & Ec & Ef & _ & Hn & _ & _ & Er).
  rewrite Er. unfold refreshed. repeat split; intros; try discriminate; try reflexivity; assumption.
Qed.

Lemma sized_run inv op o : sized o -> together o ->
  let o' := fst (run_noise inv op o) in
  sized o' /\ together o' /\ nchan o' = nchan o /\ nbins o' = nbins o /\ nfs o' = nfs o.
Proof.
  intros S T.
  assert (Csd : let o' := fst (calculate_csd o) in sized o' /\ together o' /\ nchan o' = nchan o /\ nbins o' = nbins o /\ nfs o' = nfs o /\
     nchan o' = nchan o).
  { unfold calculate_csd. cbv zeta. destruct (nchan o =? 1)%nat; cbn [fst]; [auto 10|].
    destruct S as (S1 & S2 & S3 & S4 & S5 & S6 & S7). destruct T as (T1 & T2 & T3 & T4 & T5 & T6).
    assert (F : forall (g : nat -> R), length (fill_negatives (mk (lenpsd (nbins o)) g)) = (nbins o / 2 + 1)%nat)
      by (intros; rewrite UtilsProofs2.fill_negatives_length, mk_length; apply lenpsd_half).
    unfold sized, together. cbv zeta. cbn [nbins nchan nfs n_psd n_real_psd n_imag_psd n_uncorr n_corr n_csd n_real_csd n_imag_csd].
    repeat match goal with |- _ /\ _ => split end; try assumption; try reflexivity; try (split; discriminate); try discriminate.
    - intros p H i j. assert (E : forall a b, p a b = fill_negatives (mk (lenpsd (nbins o)) (fun k => mean_over (traces o) (fun x => fst (scipy_csd (nbins o) (nfs o) (x a) (x b) k)))))
        by (intros; injection H as <-; reflexivity).
      rewrite E. apply F.
    - intros p H i j. assert (E : forall a b, p a b = fill_negatives (mk (lenpsd (nbins o)) (fun k => mean_over (traces o) (fun x => snd (scipy_csd (nbins o) (nfs o) (x a) (x b) k)))))
        by (intros; injection H as <-; reflexivity).
      rewrite E. apply F. }
  destruct op; cbn [run_noise fst].
  - (* slope *) split; [exact S|split; [exact T|auto]].
  - (* psd *) destruct S as (S1 & S2 & S3 & S4 & S5 & S6 & S7). destruct T as (T1 & T2 & T3 & T4 & T5 & T6).
    assert (R : forall g, length (spectra g o) = nchan o /\ forall r, In r (spectra g o) -> length r = (nbins o / 2 + 1)%nat).
    { intros g. apply rows_mk. intros i _. apply mk_length. }
    assert (R' : forall g p, Some (spectra g o) = Some p -> length p = nchan o /\ forall r, In r p -> length r = (nbins o / 2 + 1)%nat).
    { intros g p E. assert (E' : spectra g o = p) by congruence. rewrite <- E'. apply R. }
    unfold calculate_psd, sized, together. cbv zeta. cbn [nbins nchan nfs n_psd n_real_psd n_imag_psd n_uncorr n_corr n_csd n_real_csd n_imag_csd].
    repeat match goal with |- _ /\ _ => split end; try assumption; try reflexivity; try (split; discriminate); apply R'.
  - (* corrcoeff *) unfold calculate_corrcoeff. destruct (nchan o =? 1)%nat; (split; [exact S|split; [exact T|auto]]).
  - (* csd *) cbv zeta in Csd. tauto.
  - (* uncorr *)
    unfold calculate_uncorr_noise.
    assert (X : forall o1 : noise, sized o1 -> together o1 ->
      let r := match n_csd o1, n_real_csd o1 with
        | Some csd, Some real_csd =>
          match invert_bins inv (nchan o1) csd (seq 0 (lenpsd (nbins o1))) with
          | Err e => (o1, Err e)
          | Ok invs =>
            (mkNoise (nbins o1) (nchan o1) (nfs o1) (ntime o1) (traces o1)
              (n_psd o1) (n_real_psd o1) (n_imag_psd o1) (n_corrcoeff o1)
              (Some (mk (nchan o1) (fun j => map (fun b : cmatrix => 1 / Complex.Cmod (b j j)) invs)))
              (Some (mk (nchan o1) (fun j =>
                 map (fun p : R * cmatrix => fst p - 1 / Complex.Cmod (snd p j j)) (combine (real_csd j j) invs))))
              (n_csd o1) (n_real_csd o1) (n_imag_csd o1) (n_real_csd_std o1) (n_imag_csd_std o1),
             Ok tt)
          end
        | _, _ => (o1, Err TypeError)
        end in
      sized (fst r) /\ together (fst r) /\ nchan (fst r) = nchan o1 /\ nbins (fst r) = nbins o1 /\ nfs (fst r) = nfs o1).
    { intros o1 S' T'. destruct (n_csd o1) as [csd|] eqn:Ec; [|cbn [fst]; auto].
      destruct (n_real_csd o1) as [rc|] eqn:Erc; [|cbn [fst]; auto].
      destruct (invert_bins _ _ _ _) as [invs|e] eqn:Ei; [|cbn [fst]; auto].
      assert (Hl := NoiseProofs3.invert_bins_length _ _ _ _ _ Ei). rewrite seq_length, lenpsd_half in Hl.
      cbv zeta. cbn [fst nchan nbins nfs].
      destruct S' as (S1 & S2 & S3 & S4 & S5 & S6 & S7). destruct T' as (T1 & T2 & T3 & T4 & T5 & T6).
      assert (R1 : length (mk (nchan o1) (fun j => map (fun b : cmatrix => 1 / Complex.Cmod (b j j)) invs)) = nchan o1 /\
        forall r, In r (mk (nchan o1) (fun j => map (fun b : cmatrix => 1 / Complex.Cmod (b j j)) invs)) -> length r = (nbins o1 / 2 + 1)%nat).
      { apply rows_mk. intros i _. now rewrite map_length. }
      assert (R2 : length (mk (nchan o1) (fun j => map (fun p : R * cmatrix => fst p - 1 / Complex.Cmod (snd p j j)) (combine (rc j j) invs))) = nchan o1 /\
        forall r, In r (mk (nchan o1) (fun j => map (fun p : R * cmatrix => fst p - 1 / Complex.Cmod (snd p j j)) (combine (rc j j) invs))) -> length r = (nbins o1 / 2 + 1)%nat).
      { apply rows_mk. intros i _. rewrite map_length, combine_length, (S6 rc Erc i i), Hl. apply Nat.min_id. }
      split.
      - unfold sized. cbv zeta. cbn [nbins nchan n_psd n_real_psd n_imag_psd n_uncorr n_corr n_real_csd n_imag_csd].
        repeat match goal with |- _ /\ _ => split end; try assumption.
        + intros p E. assert (E' : mk (nchan o1) (fun j => map (fun b : cmatrix => 1 / Complex.Cmod (b j j)) invs) = p) by congruence.
          rewrite <- E'. exact R1.
        + intros p E. assert (E' : mk (nchan o1) (fun j => map (fun p : R * cmatrix => fst p - 1 / Complex.Cmod (snd p j j)) (combine (rc j j) invs)) = p) by congruence.
          rewrite <- E'. exact R2.
        + intros p E. apply S6. congruence.
      - split; [|auto]. unfold together. cbn [n_psd n_real_psd n_imag_psd n_uncorr n_corr n_csd n_real_csd n_imag_csd].
        rewrite Ec in T4. rewrite <- ?Ec. repeat match goal with |- _ /\ _ => split end; try assumption; try congruence;
        try (split; congruence). }
    cbv zeta in X, Csd |- *.
    destruct (n_csd o) as [c0|] eqn:Ec.
    + exact (X o S T).
    + destruct (calculate_csd o) as [o1 [u|e]] eqn:Eo; cbn [fst] in Csd |- *.
      * destruct Csd as (S1 & T1 & E1 & E2 & E3 & _). destruct (X o1 S1 T1) as (X1 & X2 & X3 & X4 & X5).
        split; [exact X1|split; [exact X2|split; [rewrite <- E1; exact X3|split; [rewrite <- E2; exact X4|rewrite <- E3; exact X5]]]].
      * tauto.
Qed.

Definition nonneg_psds (o : noise) : Prop :=
  nonneg_rows (n_psd o) /\ nonneg_rows (n_real_psd o) /\ nonneg_rows (n_imag_psd o).

Lemma lmean_pos l : (forall v, In v l -> 0 <= v) -> 0 <= lmean l.
Proof.
  intros H. unfold lmean. destruct l as [|a l]; [change (lsum []) with 0; unfold Rdiv; rewrite Rmult_0_l; lra|].
  apply Rmult_le_pos; [apply UtilsProofs3.lsum_nonneg; exact H|]. left. apply Rinv_0_lt_compat. cbn [length]. apply lt_0_INR. lia.
Qed.

Lemma spectra_pos g o r v : (forall z, 0 <= g z) -> 0 < nfs o -> In r (spectra g o) -> In v r -> 0 <= v.
Proof.
  intros Hg Hf Hr Hv. unfold spectra, mk in Hr. apply in_map_iff in Hr. destruct Hr as (c & <- & _).
  apply in_map_iff in Hv. destruct Hv as (k & <- & Hk).
  apply Rmult_le_pos.
  - apply Rmult_le_pos; [|lra]. apply lmean_pos. intros w Hw. apply in_map_iff in Hw. destruct Hw as (x & <- & _). apply Hg.
  - destruct (nbins o) as [|n]; [cbn; rewrite Rmult_0_l, Rinv_0; lra|].
    left. apply Rinv_0_lt_compat. apply Rmult_lt_0_compat; [apply lt_0_INR; lia|exact Hf].
Qed.

Lemma nonneg_run inv op o : 0 < nfs o -> nonneg_psds o -> nonneg_psds (fst (run_noise inv op o)).
Proof.
  intros Hf N. destruct op; cbn [run_noise fst].
  - exact N.
  - repeat split; intros rows r v E Hr Hv; unfold calculate_psd in E; cbn [n_psd n_real_psd n_imag_psd] in E;
      apply (f_equal (fun x => match x with Some y => y | None => rows end)) in E; cbn in E; rewrite <- E in Hr;
      refine (spectra_pos _ _ _ _ _ Hf Hr Hv); intros z; unfold cn2;
      pose proof (pow2_ge_0 (fst z)); pose proof (pow2_ge_0 (snd z)); lra.
  - unfold calculate_corrcoeff. destruct (nchan o =? 1)%nat; exact N.
  - unfold calculate_csd. destruct (nchan o =? 1)%nat; exact N.
  - assert (N' : nonneg_psds (fst (calculate_csd o))) by (unfold calculate_csd; destruct (nchan o =? 1)%nat; exact N).
    assert (X : forall o1, nonneg_psds o1 -> forall (e e' : exn), nonneg_psds (fst
      match n_csd o1, n_real_csd o1 with
      | Some csd, Some rc =>
          match invert_bins inv (nchan o1) csd (seq 0 (lenpsd (nbins o1))) with
          | Err e => (o1, Err e)
          | Ok invs => (mkNoise (nbins o1) (nchan o1) (nfs o1) (ntime o1) (traces o1)
              (n_psd o1) (n_real_psd o1) (n_imag_psd o1) (n_corrcoeff o1)
              (Some (mk (nchan o1) (fun j => map (fun b : cmatrix => 1 / Complex.Cmod (b j j)) invs)))
              (Some (mk (nchan o1) (fun j =>
                 map (fun p : R * cmatrix => fst p - 1 / Complex.Cmod (snd p j j)) (combine (rc j j) invs))))
              (n_csd o1) (n_real_csd o1) (n_imag_csd o1) (n_real_csd_std o1) (n_imag_csd_std o1), Ok tt)
          end
      | _, _ => (o1, Err TypeError)
      end)).
    { intros o1 N1 _ _. destruct (n_csd o1); [destruct (n_real_csd o1); [destruct (invert_bins _ _ _ _)|]|]; exact N1. }
    unfold calculate_uncorr_noise. destruct (n_csd o) eqn:Ec.
    + exact (X o N ValueError ValueError).
    + destruct (calculate_csd o) as [o1 [u|e]]; [exact (X o1 N' ValueError ValueError)|exact N'].
Qed.

Lemma runs_facts inv ops : forall o, 0 < nfs o -> sized o -> together o -> nonneg_psds o ->
  let o' := run_noises inv ops o in
  sized o' /\ together o' /\ nonneg_psds o' /\ nchan o' = nchan o /\ nbins o' = nbins o /\ nfs o' = nfs o.
Proof.
  induction ops as [|op ops IH]; intros o Hf S T N; [cbn; auto 10|].
  cbn [run_noises fold_left]. destruct (sized_run inv op o S T) as (S' & T' & E1 & E2 & E3).
  specialize (IH (fst (run_noise inv op o)) ltac:(rewrite E3; exact Hf) S' T' (nonneg_run inv op o Hf N)).
  cbv zeta in IH. fold (run_noises inv ops (fst (run_noise inv op o))).
  rewrite E1, E2, E3 in IH. exact IH.
Qed.

Lemma rfftfreqs_nth n fs k : (0 < n)%nat -> 0 < fs -> (k <= n / 2)%nat ->
  nth_error (rfftfreqs n fs) k = Some (INR k * fs / INR n).
Proof.
  intros Hn Hf Hk. unfold rfftfreqs. rewrite mk_nth_error.
  destruct (Nat.ltb_spec k (n / 2 + 1)); [|lia]. f_equal.
  assert (INR n <> 0) by (apply not_0_INR; lia). assert (fs <> 0) by lra. field; auto.
Qed.

Lemma reach_facts o : reachable o ->
  sized (pn o) /\ together (pn o) /\ nonneg_psds (pn o) /\ nchan (pn o) = length (channames o) /\
  length (freqs o) = (nbins (pn o) / 2 + 1)%nat /\ (0 < nbins (pn o))%nat /\ 0 < nfs (pn o) /\
  freqs o = rfftfreqs (nbins (pn o)) (nfs (pn o)).
Proof.
  intros (inv & ops & n & inp & fs & names & gain & name & time & o0 & Hf & _ & _ & E & ->).
  unfold noise_new in E. destruct (noise_init n inp fs (length names) gain time) as [b|e] eqn:Ei; [|discriminate].
  cbn [bind] in E. assert (E0 : o0 = mkPn b names name (rfftfreqs n fs)) by congruence. rewrite E0. clear E0 E.
  cbn [after pn channames freqs].
  destruct (sized_init _ _ _ _ _ _ _ Ei) as (S & T & E1 & E2 & E3 & Hn).
  assert (N : nonneg_psds b).
  { destruct (init_ok _ _ _ _ _ _ _ Ei) as (_ & _ & _ & _ & _ & _ & _ & Er). rewrite Er. unfold refreshed, fresh_noise.
    repeat split; intros rows r v H; discriminate. }
  destruct (runs_facts inv ops b ltac:(rewrite E3; exact Hf) S T N) as (S' & T' & N' & F1 & F2 & F3).
  rewrite F1, F2, F3, E1, E2, E3. repeat match goal with |- _ /\ _ => split end; auto. unfold rfftfreqs. apply mk_length.
Qed.

Lemma run_noises_app inv a b o : run_noises inv (a ++ b) o = run_noises inv b (run_noises inv a o).
Proof. unfold run_noises. apply fold_left_app. Qed.
