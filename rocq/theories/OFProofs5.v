(** * Optimum filters: results do not depend on the call history *)
From Verif Require Import Base ListLemmas UtilsModel Dft WindowModel OFModel OFSpec.
Local Open Scope R_scope.

(** Values of the cached attributes computed from scratch. *)
Definition val_chi0 (o : of_obj) : R :=
  fst (cdot (nbins o) (fun k => cdivp (Cconj (v o k)) (psd o k)) (v o)) * df o.
Definition val_sftd (o : of_obj) : nat -> R := ifft_td (nbins o) (df o) (signalfilt o).
Definition val_chit (o : of_obj) : nat -> R := fun j => val_sftd o j ^ 2 * norm o.
Definition val_chi (o : of_obj) : nat -> R :=
  roll (nbins o) (Z.of_nat (nbins o) / 2) (fun j => val_chi0 o - val_chit o j).
Definition val_amps (o : of_obj) : nat -> R := roll (nbins o) (Z.of_nat (nbins o) / 2) (val_sftd o).
Definition val_times (o : of_obj) : nat -> R :=
  fun j => IZR (- (Z.of_nat (nbins o) / 2) + Z.of_nat j) / fs o.
Definition val_freqs (o : of_obj) : nat -> R := fftfreq (nbins o) (fs o).

Definition okc {A} (c : option A) (x : A) : Prop := c = None \/ c = Some x.

(** The object without its caches. *)
Definition bare (o : of_obj) : of_obj :=
  mkOF (psd o) (psd0 o) (nbins o) (fs o) (df o) (s o) (phi o) (norm o) (v o) (signalfilt o)
    None None None None None None None.

Definition inv (b o : of_obj) : Prop :=
  bare o = b /\
  okc (chi0 o) (val_chi0 b) /\ okc (signalfilt_td o) (val_sftd b) /\
  okc (chit_withdelay o) (val_chit b) /\ okc (chi_withdelay o) (val_chi b) /\
  okc (amps_withdelay o) (val_amps b) /\ okc (times o) (val_times b) /\ okc (freqs o) (val_freqs b).

Definition const {A} (b : of_obj) (m : M A) (r : res A) : Prop :=
  forall o, inv b o -> snd (m o) = r /\ inv b (fst (m o)).

Lemma const_bind {A B} b (m : M A) (f : A -> M B) a r :
  const b m (Ok a) -> const b (f a) r -> const b (bindM m f) r.
Proof.
  intros Hm Hf o Ho. destruct (Hm o Ho) as [E I]. unfold bindM.
  destruct (m o) as [o1 ra]. cbn [fst snd] in *. subst ra. apply Hf. exact I.
Qed.

Lemma const_bind_err {A B} b (m : M A) (f : A -> M B) e :
  const b m (Err e) -> const b (bindM m f) (Err e).
Proof.
  intros Hm o Ho. destruct (Hm o Ho) as [E I]. unfold bindM.
  destruct (m o) as [o1 ra]. cbn [fst snd] in *. subst ra. split; [reflexivity|exact I].
Qed.

Lemma const_ret {A} b (g : of_obj -> res A) r :
  (forall o, bare o = b -> g o = r) -> const b (fun o => (o, g o)) r.
Proof. intros H o Ho. split; [apply H, Ho|exact Ho]. Qed.

Lemma const_pure {A} b (a : A) : const b (ret a) (Ok a).
Proof. intros o Ho. split; [reflexivity|exact Ho]. Qed.

Lemma const_cached {A} b (field : of_obj -> option A) set compute x :
  (forall o, inv b o -> okc (field o) x) ->
  (forall o, bare o = b -> compute o = x) ->
  (forall o, inv b o -> inv b (set x o)) ->
  const b (cached field set compute) (Ok x).
Proof.
  intros H1 H2 H3 o Ho. unfold cached. destruct (H1 o Ho) as [E|E]; rewrite E.
  - cbn [fst snd]. rewrite (H2 o) by apply Ho. split; [reflexivity|now apply H3].
  - split; [reflexivity|exact Ho].
Qed.

Ltac set_inv := intros o (E & H1 & H2 & H3 & H4 & H5 & H6 & H7);
  unfold inv; cbn; rewrite <- E in *; repeat split; try assumption; now right.

Lemma bare_fields o b : bare o = b ->
  psd o = psd b /\ psd0 o = psd0 b /\ nbins o = nbins b /\ fs o = fs b /\ df o = df b /\ s o = s b /\
  phi o = phi b /\ norm o = norm b /\ v o = v b /\ signalfilt o = signalfilt b.
Proof. intros <-. repeat split. Qed.

Ltac fields E := apply bare_fields in E; destruct E as (? & ? & ? & ? & ? & ? & ? & ? & ? & ?).

Lemma const_freqs b : const b check_freqs (Ok (val_freqs b)).
Proof.
  apply const_cached.
  - intros o Ho. apply Ho.
  - intros o E. rewrite <- E. reflexivity.
  - set_inv.
Qed.
Lemma const_sftd b : const b get_sftd (Ok (val_sftd b)).
Proof.
  apply const_cached.
  - intros o Ho. apply Ho.
  - intros o E. rewrite <- E. reflexivity.
  - set_inv.
Qed.
Lemma const_times b : const b get_times (Ok (val_times b)).
Proof.
  apply const_cached.
  - intros o Ho. apply Ho.
  - intros o E. rewrite <- E. reflexivity.
  - set_inv.
Qed.
Lemma const_chi0' b : const b get_chi0' (Ok (val_chi0 b)).
Proof.
  apply const_cached.
  - intros o Ho. apply Ho.
  - intros o E. rewrite <- E. reflexivity.
  - set_inv.
Qed.
Lemma const_chi0 b : const b get_chi0 (Ok (val_chi0 b)).
Proof.
  apply const_cached.
  - intros o Ho. apply Ho.
  - intros o E. rewrite <- E. unfold val_chi0. cbn [nbins v psd df bare].
    simpl. ring.
  - set_inv.
Qed.
Lemma const_chit b : const b (cached chit_withdelay set_chit (fun o => fun j => val_sftd b j ^ 2 * norm o)) (Ok (val_chit b)).
Proof.
  apply const_cached.
  - intros o Ho. apply Ho.
  - intros o E. rewrite <- E. reflexivity.
  - set_inv.
Qed.
Lemma const_chi b : const b (cached chi_withdelay set_chi (fun o =>
    roll (nbins o) (Z.of_nat (nbins o) / 2) (fun j => val_chi0 b - val_chit b j))) (Ok (val_chi b)).
Proof.
  apply const_cached.
  - intros o Ho. apply Ho.
  - intros o E. rewrite <- E. reflexivity.
  - set_inv.
Qed.
Lemma const_amps b : const b (cached amps_withdelay set_amps (fun o =>
    roll (nbins o) (Z.of_nat (nbins o) / 2) (val_sftd b))) (Ok (val_amps b)).
Proof.
  apply const_cached.
  - intros o Ho. apply Ho.
  - intros o E. rewrite <- E. reflexivity.
  - set_inv.
Qed.

Lemma ex_bind {A B} b (m : M A) (f : A -> M B) :
  (exists r, const b m r) -> (forall a, exists r, const b (f a) r) -> exists r, const b (bindM m f) r.
Proof.
  intros [[a|e] Hm] Hf.
  - destruct (Hf a) as [r Hr]. exists r. now apply const_bind with a.
  - exists (Err e). now apply const_bind_err.
Qed.

Lemma ex_fun {A} b (g : of_obj -> res A) : (forall o, bare o = b -> g o = g b) ->
  exists r, const b (fun o => (o, g o)) r.
Proof. intros H. exists (g b). now apply const_ret. Qed.

Lemma ex_pure {A} b (a : A) : exists r, const b (ret a) r.
Proof. eexists. apply const_pure. Qed.

Lemma const_withdelay b a : exists r, const b (ofamp_withdelay a) r.
Proof.
  match goal with |- exists r, const b (ofamp_withdelay a) r => idtac end.
  assert (H : forall r, const b (fun o =>
    let n := nbins o in
    (o, do mask <- direction_mask (mk n (val_amps b)) (direction a);
        do bi <- argmin_chi2 (mk n (val_chi b)) (nconstrain a) (outside a) mask (wcenter a);
        select_best (mk n (val_amps b)) (mk n (val_chi b)) bi (fs o)
          (fun bi => IZR (bi - Z.of_nat n / 2) / fs o) (val_chi0 b) (interp_t0 a))) r ->
    exists r, const b (ofamp_withdelay a) r).
  { intros r Hr. exists r. unfold ofamp_withdelay.
    apply const_bind with (val_sftd b); [apply const_sftd|].
    apply const_bind with (val_chi0 b); [apply const_chi0|].
    apply const_bind with (val_chit b); [apply const_chit|].
    apply const_bind with (val_chi b); [apply const_chi|].
    apply const_bind with (val_amps b); [apply const_amps|]. exact Hr. }
  eapply H. apply const_ret. intros o E. fields E. rewrite H2, H3. reflexivity.
Qed.

Lemma const_iterative b a1 t1 a : exists r, const b (pileup_iterative a1 t1 a) r.
Proof.
  unfold pileup_iterative.
  apply ex_bind; [eexists; apply const_freqs|]. intros f.
  apply ex_bind; [eexists; apply const_sftd|]. intros sf.
  apply ex_bind; [eexists; apply const_times|]. intros tm.
  apply ex_bind; [eexists; apply const_chi0'|]. intros c0.
  apply ex_fun. intros o E. fields E.
  rewrite H1, H2, H3, H4, H5, H6. reflexivity.
Qed.

Lemma const_stationary b nc out wc : exists r, const b (pileup_stationary nc out wc) r.
Proof.
  unfold pileup_stationary.
  apply ex_bind; [eexists; apply const_sftd|]. intros sf.
  apply ex_bind; [eexists; apply const_times|]. intros tm.
  apply ex_bind; [eexists; apply const_chi0'|]. intros c0.
  apply ex_fun. intros o E. fields E.
  rewrite H1, H3, H4, H5, H6. reflexivity.
Qed.

Lemma const_baseline b a : exists r, const b (ofamp_baseline a) r.
Proof.
  unfold ofamp_baseline. apply ex_fun. intros o E.
  assert (EB : baseline_setup o = baseline_setup b).
  { fields E. unfold baseline_setup. rewrite H, H0, H1, H3, H4, H5, H6, H7. reflexivity. }
  rewrite EB. fields E. rewrite H1, H2. reflexivity.
Qed.

Lemma const_nodelay b wc : exists r, const b (ofamp_nodelay wc) r.
Proof.
  unfold ofamp_nodelay. apply ex_bind.
  - destruct (negb (wc =? 0)%Z).
    + apply ex_bind; [eexists; apply const_freqs|]. intros f.
      apply (ex_fun b (fun o => Ok (fst (csum (nbins o) (fun k => signalfilt o k * cis (2 * PI * (IZR wc / fs o) * f k))%C) * df o))).
      intros o E. fields E. rewrite H1, H2, H3, H8. reflexivity.
    + apply (ex_fun b (fun o => Ok (fst (csum (nbins o) (signalfilt o)) * df o))).
      intros o E. fields E. rewrite H1, H3, H8. reflexivity.
  - intros amp. apply ex_bind; [eexists; apply const_chi0|]. intros c0.
    apply (ex_fun b (fun o => Ok (amp, c0 - amp ^ 2 * norm o))).
    intros o E. fields E. rewrite H6. reflexivity.
Qed.

Lemma run_const b c : match c with OpUpdate _ => True | _ => exists r, const b (run c) r end.
Proof.
  destruct c; cbn [run]; try exact I.
  - apply (ex_fun b (fun o => Ok [energy_resolution o])). intros o E. fields E.
    unfold energy_resolution. now rewrite H6.
  - unfold out1. apply ex_bind; [|intros; apply ex_pure]. unfold time_resolution.
    apply ex_bind; [eexists; apply const_freqs|]. intros f.
    match goal with |- exists r, const b (fun o => (o, ?g)) r => idtac end.
    apply (ex_fun b (fun o => Ok (1 / sqrt (amp ^ 2 *
      rsum (nbins o) (fun k => rdivp ((2 * PI * f k) ^ 2 * cn2 (s o k)) (psd o k)) * df o)))).
    intros o E. fields E. rewrite H, H1, H3, H4. reflexivity.
  - unfold out1. apply ex_bind; [|intros; apply ex_pure]. unfold m_chi2_nopulse.
    apply ex_bind; [eexists; apply const_chi0|]. intros; apply ex_pure.
  - unfold out1. apply ex_bind; [|intros; apply ex_pure]. unfold m_chi2_lowfreq.
    apply ex_bind; [eexists; apply const_freqs|]. intros f.
    apply (ex_fun b (fun o => Ok (lowfreq_sum (nbins o) (df o) (v o) (s o) (psd o) f amp t0 fcutoff))).
    intros o E. fields E. rewrite H, H1, H3, H4, H7. reflexivity.
  - unfold out2. apply ex_bind; [apply const_nodelay|intros; apply ex_pure].
  - unfold out3. apply ex_bind; [apply const_withdelay|intros; apply ex_pure].
  - unfold out3. apply ex_bind; [apply const_iterative|intros; apply ex_pure].
  - unfold out4. apply ex_bind; [apply const_stationary|intros; apply ex_pure].
  - unfold out3. apply ex_bind; [apply const_baseline|intros; apply ex_pure].
Qed.

Lemma inv_bare b : bare b = b -> inv b b.
Proof.
  intros E. unfold inv, okc. split; [exact E|]. rewrite <- E. cbn. repeat split; now left.
Qed.

Lemma inv_update b o sg : inv b o -> inv (bare (update_signal sg b)) (update_signal sg o).
Proof.
  intros (E & H1 & H2 & H3 & H4 & H5 & H6 & H7). unfold inv.
  assert (EU : bare (update_signal sg o) = bare (update_signal sg b)) by (rewrite <- E; reflexivity).
  split; [exact EU|]. rewrite <- E in *. unfold okc in *. cbn.
  repeat split; try (now left); assumption.
Qed.

Lemma run_all_inv n template p fs0 ac inorm cs : forall sg o,
  inv (of_init n sg template p fs0 ac inorm) o ->
  inv (of_init n (current_signal sg cs) template p fs0 ac inorm) (run_all cs o).
Proof.
  induction cs as [|c cs IH]; intros sg o Ho; [exact Ho|].
  change (run_all (c :: cs) o) with (run_all cs (fst (run c o))).
  assert (G := run_const (of_init n sg template p fs0 ac inorm) c).
  destruct c; try (cbn [current_signal]; apply IH; destruct G as [r G]; apply (G o Ho)).
  cbn [current_signal run fst]. apply IH.
  exact (inv_update _ _ signal Ho).
Qed.

Lemma history_independent n signal template p fs0 ac inorm cs c :
  snd (run c (run_all cs (of_init n signal template p fs0 ac inorm))) =
  snd (run c (of_init n (current_signal signal cs) template p fs0 ac inorm)).
Proof.
  assert (I1 := run_all_inv n template p fs0 ac inorm cs signal _ (inv_bare _ eq_refl)).
  assert (I2 := inv_bare (of_init n (current_signal signal cs) template p fs0 ac inorm) eq_refl).
  assert (G := run_const (of_init n (current_signal signal cs) template p fs0 ac inorm) c).
  destruct c; try reflexivity; destruct G as [r G];
    rewrite (proj1 (G _ I1)), (proj1 (G _ I2)); reflexivity.
Qed.
