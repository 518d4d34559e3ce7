(** * itercov: the whole history of rounds *)
From Verif Require Import Base ListLemmas UtilsModel CutModel CutSpec CutProofs2 CutProofs3.
Local Open Scope R_scope.

(** The comparisons of one round, with the limits of the model. *)
Definition close (d : nat) (em : list R) (ec : R) (m1 m0 : list R) (c1 c0 : list (list R)) : Prop :=
  (forall i, (i < d)%nat -> Rabs (nth i m1 0 - nth i m0 0) <= nth i em 0) /\
  (forall i j, (i < d)%nat -> (j < d)%nat -> Rabs (nth j (nth i c1 []) 0 - nth j (nth i c0 []) 0) <= ec).

Lemma any_change_false d a b lim : length a = d -> length b = d -> length lim = d ->
  any_change a b lim = false <-> forall i, (i < d)%nat -> Rabs (nth i a 0 - nth i b 0) <= nth i lim 0.
Proof.
  revert a b lim. induction d as [|d IH]; intros [|x a] [|y b] [|z lim] Ha Hb Hl; try discriminate.
  - split; [intros _ i H; lia|reflexivity].
  - cbn [any_change combine existsb fst snd]. fold (any_change a b lim). rewrite Bool.orb_false_iff.
    cbn in Ha, Hb, Hl. rewrite (IH a b lim) by lia. split.
    + intros [H1 H2] [|i] Hi; cbn [nth]; [|apply H2; lia]. destruct (Rltb_spec z (Rabs (x - y))); [discriminate|lra].
    + intros H. split; [|intros i Hi; exact (H (S i) ltac:(lia))]. apply Rltb_false. exact (H 0%nat ltac:(lia)).
Qed.

Lemma cov_change_false d e (a b : list (list R)) ec : length a = e -> length b = e ->
  (forall i, (i < e)%nat -> length (nth i a []) = d) -> (forall i, (i < e)%nat -> length (nth i b []) = d) ->
  existsb (fun p => any_change (fst p) (snd p) (map (fun _ => ec) (fst p))) (combine a b) = false <->
  forall i j, (i < e)%nat -> (j < d)%nat -> Rabs (nth j (nth i a []) 0 - nth j (nth i b []) 0) <= ec.
Proof.
  revert a b. induction e as [|e IH]; intros [|x a] [|y b] Ha Hb Hra Hrb; try discriminate.
  - split; [intros _ i j H; lia|reflexivity].
  - cbn [combine existsb fst snd]. rewrite Bool.orb_false_iff. cbn in Ha, Hb.
    rewrite (IH a b) by first [lia|intros i Hi; exact (Hra (S i) ltac:(lia))|intros i Hi; exact (Hrb (S i) ltac:(lia))].
    pose proof (Hra 0%nat ltac:(lia)) as Lx. pose proof (Hrb 0%nat ltac:(lia)) as Ly. cbn in Lx, Ly.
    rewrite (any_change_false d) by (rewrite ?map_length; assumption).
    assert (L : forall j, (j < d)%nat -> nth j (map (fun _ : R => ec) x) 0 = ec) by (intros j Hj; rewrite (nth_map_lt _ _ _ 0) by lia; reflexivity).
    split.
    + intros [H1 H2] [|i] j Hi Hj; cbn [nth]; [|apply H2; lia]. rewrite <- (L j Hj). apply H1. exact Hj.
    + intros H. split; [|intros i j Hi Hj; exact (H (S i) j ltac:(lia) Hj)].
      intros j Hj. rewrite L by exact Hj. exact (H 0%nat j ltac:(lia) Hj).
Qed.

Lemma count_le_1 n (P : nat -> bool) : (count_true (mk n P) <= 1)%nat ->
  forall e e', (e < n)%nat -> (e' < n)%nat -> P e = true -> P e' = true -> e = e'.
Proof.
  unfold count_true, mk. intros Hc e e' He He' H H'.
  assert (X : forall l, (length (filter (fun b : bool => b) (map P l)) <= 1)%nat -> NoDup l -> In e l -> In e' l -> e = e').
  { induction l as [|a l IH]; intros Hl ND Hin Hin'; [destruct Hin|]. inversion ND as [|? ? Ha ND']; subst.
    cbn [map filter] in Hl. destruct (P a) eqn:Ea.
    - cbn [length] in Hl.
      assert (Z : forall b, In b l -> P b = true -> False).
      { intros b Hb Pb. assert (Hf : In true (filter (fun b : bool => b) (map P l))).
        { apply filter_In. split; [|reflexivity]. rewrite <- Pb. now apply in_map. }
        destruct (filter (fun b : bool => b) (map P l)); [destruct Hf|cbn in Hl; lia]. }
      destruct Hin as [<-|Hin]; [|exfalso; exact (Z e Hin H)]. destruct Hin' as [<-|Hin']; [reflexivity|exfalso; exact (Z e' Hin' H')].
    - destruct Hin as [<-|Hin]; [congruence|]. destruct Hin' as [<-|Hin']; [congruence|]. apply IH; assumption. }
  apply (X (seq 0 n)); [exact Hc|apply seq_NoDup|apply in_seq; lia|apply in_seq; lia].
Qed.

Section History.
Context (data : list (list R)) (nevts : nat).
Hypothesis Hlen : forall i, (i < length data)%nat -> length (nth i data []) = nevts.
Let d := length data.
Let x := fun i e => nth e (nth i data []) 0.

Lemma mask_around inv mc th ml cl icov pm : cov_of d nevts x pm ml cl -> inv cl = Some icov ->
  selects_around d nevts x inv mc th ml cl (cov_mask nevts data ml (cov_std cl) icov mc th).
Proof.
  intros Hp Ei. split; [apply mk_length|]. exists icov. split; [exact Ei|]. intros e. rewrite (cov_mask_kept data nevts).
  fold d x.
  assert (Hstd : forall i, (i < d)%nat -> nth i (cov_std cl) 0 = sqrt (nth i (nth i cl []) 0)).
  { intros i Hi. unfold cov_std. rewrite mk_nth; [reflexivity|]. replace (length cl) with d; [assumption|]. symmetry; apply Hp. }
  split; intros [H1 [H2 H3]]; (split; [assumption|split; [assumption|]]); intros i Hi;
    specialize (H3 i Hi); [rewrite <- Hstd by assumption|rewrite Hstd by assumption]; assumption.
Qed.

Lemma loop_history inv mc th em ec maxiter : (1 < nevts)%nat -> length em = d ->
  forall fuel ml cl ns jj m c mask pm, (ns <= 1)%nat -> cov_of d nevts x pm ml cl ->
  itercov_loop fuel inv nevts data mc th em ec maxiter ml cl ns jj = Ok (Some (m, c, mask)) ->
  exists K mu cov sel, mu 0%nat = ml /\ cov 0%nat = cl /\ sel 0%nat = pm /\
    (forall k, (k <= K)%nat -> cov_of d nevts x (sel k) (mu k) (cov k)) /\
    (forall k, (k < K)%nat -> selects_around d nevts x inv mc th (mu k) (cov k) (sel (S k))) /\
    let cl' j := close d em ec (mu (S j)) (mu j) (cov (S j)) (cov j) in
    let stop k := exists j, k = S j /\ ((cl' j /\ match j with O => ns = 1%nat | S i => cl' i end) \/ (maxiter < jj + Z.of_nat j)%Z) in
    (forall k, (k < K)%nat -> ~ stop k) /\
    ((stop K /\ m = mu K /\ c = cov K /\ mask = sel K) \/
     (~ stop K /\ (exists few, selects_around d nevts x inv mc th (mu K) (cov K) few /\
        forall e e', kept few e -> kept few e' -> e = e') /\
      m = means data /\ c = covm data /\ mask = mk nevts (fun _ => true))).
Proof.
  intros Hn Lem. induction fuel as [|fuel IH]; intros ml cl ns jj m c mask pm Hns Hp E; [discriminate|].
  cbn [itercov_loop] in E. destruct (inv cl) as [icov|] eqn:Ei; [|discriminate].
  pose proof (mask_around inv mc th ml cl icov pm Hp Ei) as Ha.
  set (mk' := cov_mask nevts data ml (cov_std cl) icov mc th) in *.
  destruct (Nat.leb_spec (count_true mk') 1) as [Hc|Hc].
  - injection E as <- <- <-. exists 0%nat, (fun _ => ml), (fun _ => cl), (fun _ => pm).
    split; [reflexivity|]. split; [reflexivity|]. split; [reflexivity|]. split; [intros; exact Hp|]. split; [intros; lia|].
    split; [intros; lia|]. right. split; [intros (j & Ej & _); discriminate|]. split; [|auto].
    exists mk'. split; [exact Ha|]. intros e e' He He'.
    unfold kept in He, He'. unfold mk', cov_mask in He, He'. rewrite mk_nth_error in He, He'.
    destruct (Nat.ltb_spec e nevts) as [L|]; [|discriminate]. destruct (Nat.ltb_spec e' nevts) as [L'|]; [|discriminate].
    refine (count_le_1 _ _ Hc e e' L L' _ _); congruence.
  - assert (Hs : cov_of d nevts x mk' (means (map (mask_select mk') data)) (covm (map (mask_select mk') data)))
      by (apply (select_cov data nevts Hlen); [apply mk_length|assumption]).
    set (mt := means (map (mask_select mk') data)) in *. set (ct := covm (map (mask_select mk') data)) in *.
    set (chg := (any_change mt ml em || existsb _ _)%bool) in *.
    assert (Hchg : chg = false <-> close d em ec mt ml ct cl).
    { unfold chg. rewrite Bool.orb_false_iff. destruct Hs as (_ & S2 & S3 & _ & _ & S6 & _). destruct Hp as (_ & P2 & P3 & _ & _ & P6 & _).
      rewrite (any_change_false d) by assumption. rewrite (cov_change_false d d) by assumption. reflexivity. }
    destruct ((2 <=? (if chg then 0 else S ns))%nat || (jj >? maxiter)%Z)%bool eqn:Es.
    + injection E as <- <- <-.
      exists 1%nat, (fun k => match k with O => ml | _ => mt end), (fun k => match k with O => cl | _ => ct end), (fun k => match k with O => pm | _ => mk' end).
      split; [reflexivity|]. split; [reflexivity|]. split; [reflexivity|].
      split; [intros [|k] Hk; [exact Hp|exact Hs]|]. split; [intros [|k] Hk; [exact Ha|lia]|].
      split; [intros [|k] Hk; [intros (j & Ej & _); discriminate|lia]|]. left. split; [|auto].
      exists 0%nat. split; [reflexivity|]. apply Bool.orb_true_iff in Es. destruct Es as [Es|Es].
      * left. apply Nat.leb_le in Es. destruct chg; [lia|]. split; [apply Hchg; reflexivity|]. lia.
      * right. rewrite Z.gtb_ltb in Es. apply Z.ltb_lt in Es. lia.
    + apply Bool.orb_false_iff in Es. destruct Es as [Es1 Es2]. apply Nat.leb_gt in Es1.
      rewrite Z.gtb_ltb in Es2. apply Z.ltb_ge in Es2.
      assert (Hns' : ((if chg then 0 else S ns) <= 1)%nat) by lia.
      destruct (IH mt ct _ _ m c mask mk' Hns' Hs E) as (K & mu & cov & sel & M0 & C0 & S0 & Hcov & Hsel & Hstop & Hend).
      exists (S K), (fun k => match k with O => ml | S k => mu k end), (fun k => match k with O => cl | S k => cov k end),
        (fun k => match k with O => pm | S k => sel k end).
      split; [reflexivity|]. split; [reflexivity|]. split; [reflexivity|].
      split; [intros [|k] Hk; [exact Hp|apply Hcov; lia]|]. split; [intros [|k] Hk; [rewrite S0; exact Ha|apply Hsel; lia]|].
      cbv zeta in Hstop, Hend |- *.
      set (stop' := fun k => exists j, k = S j /\
        ((close d em ec (mu (S j)) (mu j) (cov (S j)) (cov j) /\
          match j with O => (if chg then 0 else S ns)%nat = 1%nat | S i => close d em ec (mu (S i)) (mu i) (cov (S i)) (cov i) end)
         \/ (maxiter < (jj + 1) + Z.of_nat j)%Z)) in *.
      match goal with |- (forall k, _ -> ~ ?s k) /\ _ => set (stop := s) end.
      assert (Q0 : ~ stop 0%nat) by (intros (j & Ej & _); discriminate).
      assert (C1 : close d em ec (mu 0%nat) ml (cov 0%nat) cl <-> chg = false) by (rewrite M0, C0, Hchg; reflexivity).
      assert (Q1 : ~ stop 1%nat).
      { intros (j & Ej & H). assert (j = 0%nat) by lia. subst j. destruct H as [[H1 H2]|H]; [|lia].
        apply C1 in H1. rewrite H1 in Es1. lia. }
      assert (QS : forall k, stop (S (S k)) <-> stop' (S k)).
      { intros k. split; intros (j & Ej & H).
        - assert (j = S k) by lia. subst j. exists k. split; [reflexivity|]. destruct H as [[H1 H2]|H]; [|right; lia].
          left. split; [exact H1|]. destruct k as [|i]; [|exact H2]. apply C1 in H2. rewrite H2 in *. lia.
        - assert (j = k) by lia. subst j. exists (S k). split; [reflexivity|]. destruct H as [[H1 H2]|H]; [|right; lia].
          left. split; [exact H1|]. destruct k as [|i]; [|exact H2]. apply C1. destruct chg; [lia|reflexivity]. }
      assert (QQ : forall k, stop (S k) <-> stop' k).
      { intros [|k]; [|apply QS]. split; [intros H; contradiction|intros (j & Ej & _); discriminate]. }
      split.
      * intros [|k] Hk; [exact Q0|]. rewrite QQ. apply Hstop. lia.
      * destruct Hend as [(H1 & H2)|(H1 & H2)]; [left|right]; rewrite QQ; auto.
Qed.
End History.

Lemma cov_of_len d n x m mu c : cov_of d n x m mu c -> length c = d.
Proof. now intros (_ & _ & H & _). Qed.

Lemma selects_ext d n x x' inv l t mu c m : (forall i e, (i < d)%nat -> (e < n)%nat -> x i e = x' i e) ->
  selects_around d n x inv l t mu c m -> selects_around d n x' inv l t mu c m.
Proof.
  intros Hx [L (icov & Ei & H)]. split; [exact L|]. exists icov. split; [exact Ei|]. intros e. rewrite H. clear -Hx.
  assert (Hd2 : (e < n)%nat -> distance2 d x mu icov e = distance2 d x' mu icov e).
  { intros He. unfold distance2. apply rsum_ext. intros i Hi. apply rsum_ext. intros j Hj. now rewrite !Hx. }
  split; intros [He [H1 H2]]; (split; [assumption|]); (split; [rewrite Hd2 in * by assumption; assumption|]); intros i Hi;
    specialize (H2 i Hi); rewrite Hx in * by assumption; assumption.
Qed.

Lemma itercov_history fuel inv sigma2 a nsigma th maxiter fe m c mask : good_args a ->
  itercov fuel inv sigma2 a nsigma th maxiter fe = Ok (Some (m, Some c, mask)) ->
  let limit := INR (args_dim a) + nsigma * sqrt (2 * INR (args_dim a)) in
  let threshold := match th with Some t => t | None => Rmax 3 (sigma2 (args_dim a)) end in
  let around := selects_around (args_dim a) (args_events a) (coord a) inv limit threshold in
  exists K mu cov sel,
    (forall e, (e < args_events a)%nat -> kept (sel 0%nat) e) /\
    (forall k, (k <= K)%nat -> cov_of (args_dim a) (args_events a) (coord a) (sel k) (mu k) (cov k)) /\
    (forall k, (k < K)%nat -> around (mu k) (cov k) (sel (S k))) /\
    (forall k, (k < K)%nat -> ~ ends_at (args_dim a) fe maxiter mu cov k) /\
    ((ends_at (args_dim a) fe maxiter mu cov K /\ m = mu K /\ c = cov K /\ mask = sel K) \/
     (~ ends_at (args_dim a) fe maxiter mu cov K /\
      (exists few, around (mu K) (cov K) few /\ forall e e', kept few e -> kept few e' -> e = e') /\
      m = mu 0%nat /\ c = cov 0%nat /\ mask = sel 0%nat)).
Proof.
  intros Hg E. destruct (cov_data_good a Hg) as [data [Ed [Hd [H0 [Hl Hx]]]]]. cbv zeta.
  unfold itercov in E. rewrite Ed in E. cbn [bind] in E. rewrite H0, Hd in E.
  destruct (Nat.leb_spec (args_events a) 1) as [Hn|Hn]; [discriminate|].
  set (mc := INR (args_dim a) + nsigma * sqrt (2 * INR (args_dim a))) in *.
  set (tt := match th with Some t => t | None => Rmax 3 (sigma2 (args_dim a)) end) in *.
  set (em := map (fun s => fe * s) (cov_std (covm data))) in *.
  set (ec := fe * lsum (map (fun s => s ^ 2) (cov_std (covm data)))) in *.
  match type of E with bind ?x _ = _ => destruct x as [[[[m' c'] mask']|]|] eqn:El; cbn [bind] in E; try discriminate end.
  injection E as <- <- <-.
  pose proof (full_cov data (args_events a) Hl Hn) as F0.
  pose proof (cov_of_len _ _ _ _ _ _ F0) as Lc.
  assert (Lem : length em = length data) by (unfold em, cov_std; rewrite map_length, mk_length; exact Lc).
  destruct (loop_history data (args_events a) Hl inv mc tt em ec maxiter Hn Lem fuel _ _ 0%nat 0%Z m' c' mask' _ ltac:(lia) F0 El)
    as (K & mu & cov & sel & M0 & C0 & S0 & Hcov & Hsel & Hstop & Hend).
  rewrite Hd in *.
  assert (Std : forall i, (i < args_dim a)%nat -> nth i (cov_std (covm data)) 0 = sqrt (nth i (nth i (covm data) []) 0)).
  { intros i Hi. unfold cov_std. rewrite mk_nth by lia. reflexivity. }
  assert (Em : forall i, (i < args_dim a)%nat -> nth i em 0 = fe * sqrt (nth i (nth i (cov 0%nat) []) 0)).
  { intros i Hi. unfold em. rewrite (nth_map_lt _ _ _ 0) by (unfold cov_std; rewrite mk_length; lia). rewrite Std, C0 by exact Hi. reflexivity. }
  assert (Ec : ec = fe * rsum (args_dim a) (fun i => sqrt (nth i (nth i (cov 0%nat) []) 0) ^ 2)).
  { unfold ec. f_equal. unfold cov_std. rewrite Lc, C0. rewrite <- Hd. unfold mk. rewrite map_map. apply lsum_mk. }
  assert (Cl : forall j, close (args_dim a) em ec (mu (S j)) (mu j) (cov (S j)) (cov j) <-> settled (args_dim a) fe mu cov j).
  { intros j. unfold close, settled. rewrite <- Ec. split; intros [A B]; (split; [|exact B]); intros i Hi; [rewrite <- Em by exact Hi|rewrite Em by exact Hi]; apply A; exact Hi. }
  cbv zeta in Hstop, Hend.
  set (stop := fun k => exists j, k = S j /\
    ((close (args_dim a) em ec (mu (S j)) (mu j) (cov (S j)) (cov j) /\
      match j with O => 0%nat = 1%nat | S i => close (args_dim a) em ec (mu (S i)) (mu i) (cov (S i)) (cov i) end)
     \/ (maxiter < 0 + Z.of_nat j)%Z)) in *.
  assert (St : forall k, stop k <-> ends_at (args_dim a) fe maxiter mu cov k).
  { intros k. unfold stop, ends_at. split.
    - intros (j & -> & [[A B]|A]); [|right; exists j; split; [reflexivity|lia]].
      destruct j as [|i]; [discriminate|]. left. exists i. rewrite <- !Cl. auto.
    - intros [(j & -> & A & B)|(j & -> & A)].
      + exists (S j). split; [reflexivity|]. left. rewrite !Cl. auto.
      + exists j. split; [reflexivity|]. right. lia. }
  exists K, mu, cov, sel. split.
  { intros e He. rewrite S0. unfold kept. rewrite mk_nth_error. destruct (Nat.ltb_spec e (args_events a)); [reflexivity|lia]. }
  split; [intros k Hk; exact (cov_of_ext _ _ _ _ _ _ _ Hx (Hcov k Hk))|].
  split; [intros k Hk; exact (selects_ext _ _ _ _ _ _ _ _ _ _ Hx (Hsel k Hk))|].
  split; [intros k Hk; rewrite <- St; exact (Hstop k Hk)|].
  destruct Hend as [(H1 & H2 & H3 & H4)|(H1 & (few & Hf & Hu) & H2 & H3 & H4)].
  - left. rewrite <- St. auto.
  - right. split; [rewrite <- St; exact H1|]. split; [exists few; split; [exact (selects_ext _ _ _ _ _ _ _ _ _ _ Hx Hf)|exact Hu]|].
    rewrite M0, C0, S0. auto.
Qed.

(** ** Arguments the stage cuts reject *)
Lemma stage_rejects skew choose traces fs algo nsig d sym rm sg :
  (traces = [] ->
   pileupcut skew traces fs algo nsig rm = Err IndexError /\ slopecut skew choose traces fs algo nsig d sym sg = Err IndexError /\
   baselinecut skew traces fs algo nsig d sg = Err IndexError /\ chi2cut skew traces fs algo nsig = Err IndexError) /\
  (traces <> [] -> fs = 0 ->
   pileupcut skew traces fs algo nsig rm = Err ZeroDivisionError /\ slopecut skew choose traces fs algo nsig d sym sg = Err ZeroDivisionError /\
   baselinecut skew traces fs algo nsig d sg = Err ZeroDivisionError /\ chi2cut skew traces fs algo nsig = Err ZeroDivisionError) /\
  (traces <> [] -> sg = 0 ->
   slopecut skew choose traces fs algo nsig d sym sg = Err ZeroDivisionError /\
   baselinecut skew traces fs algo nsig d sg = Err ZeroDivisionError) /\
  (traces_of 0 traces -> fs <> 0 ->
   pileupcut skew traces fs algo nsig rm = Err ValueError /\ chi2cut skew traces fs algo nsig = Err ValueError).
Proof.
  split; [intros ->; repeat split; reflexivity|].
  split; [|split].
  - intros Hn ->. destruct traces as [|t ts]; [contradiction|]. unfold pileupcut, slopecut, baselinecut, chi2cut, template_checks, range_checks.
    cbn [first_length bind]. destruct (Reqb_spec 0 0); [|contradiction]. repeat split; reflexivity.
  - intros Hn ->. destruct traces as [|t ts]; [contradiction|]. unfold slopecut, baselinecut, range_checks.
    cbn [first_length bind]. destruct (Reqb_spec fs 0); destruct (Reqb_spec 0 0); try contradiction; repeat split; reflexivity.
  - intros [Hn Hl] Hf. destruct traces as [|t ts]; [contradiction|]. unfold pileupcut, chi2cut, template_checks.
    cbn [first_length bind]. rewrite (Hl t (or_introl eq_refl)). destruct (Reqb_spec fs 0); [contradiction|]. repeat split; reflexivity.
Qed.
