(** * Proofs about the noise plots: the functions *)
From Coq Require Import String Ascii DecimalString DecimalNat Permutation.
From Verif Require Import Base ListLemmas Dft UtilsModel NoiseModel NoiseSpec NoiseProofs7 PlotModel PlotSpec PlotProofs1 PlotProofs2.
Open Scope R_scope.

Lemma concat_cells g c : In c (concat (map (fun row => concat (map a_curves row)) g)) ->
  exists r k a, gcell g r k = Some a /\ In c (a_curves a).
Proof.
  intros H. apply in_concat in H. destruct H as (l & Hl & Hc). apply in_map_iff in Hl. destruct Hl as (row & <- & Hrow).
  apply in_concat in Hc. destruct Hc as (l & Hl & Hc). apply in_map_iff in Hl. destruct Hl as (a & <- & Ha).
  apply In_nth_error in Hrow. destruct Hrow as [r Er]. apply In_nth_error in Ha. destruct Ha as [k Ek].
  exists r, k, a. unfold gcell. rewrite Er. auto.
Qed.

(** ** plot_psd *)
Lemma psd_overlay save o lgcsave sp psd : reachable o -> n_psd (pn o) = Some psd ->
  exists f a, shown (fst (plot_psd save o true lgcsave sp)) = [f] /\ snd (plot_psd save o true lgcsave sp) = Ok tt /\
    f_rows f = [[a]] /\ a_hidden a = false /\ length (a_curves a) = length (channames o) /\
    (forall i name, nth_error (channames o) i = Some name -> exists c row,
       nth_error (a_curves a) i = Some c /\ nth_error psd i = Some row /\ shows_amplitude (freqs o) row (Some name) c) /\
    forall c, In c (a_curves a) -> all_numbers c /\ log_drawable c.
Proof.
  intros R E. destruct (reach_facts o R) as (S & T & (N & _) & Hc & Hl & Hb & Hf & Ef).
  destruct (proj1 S psd E) as [Lp Lr].
  unfold plot_psd. rewrite E.
  destruct (overlay_spec (freqs o) psd (channames o) 0) as (cs & Ec & Lc & H); [cbn; lia|intros r Hr; rewrite Hl; apply Lr, Hr|].
  rewrite Ec. cbn [andthen quiet snd fst app finish].
  exists (single (shown_name o ++ " PSD") cs). eexists. split.
  { unfold try_save. destruct lgcsave; [|reflexivity]. destruct sp; [|reflexivity]. destruct (pname o); [|reflexivity].
    destruct (save _); reflexivity. }
  split; [reflexivity|]. split; [reflexivity|]. split; [reflexivity|]. split; [exact Lc|]. cbn [a_curves].
  split.
  - intros i name Ei. destruct (H i name Ei) as (c & r & H1 & H2 & H3). exists c, r. split; [exact H1|]. split; [exact H2|].
    rewrite H3. apply amplitude_draw. rewrite Hl. apply Lr. eapply nth_error_In; exact H2.
  - intros c Hin. apply In_nth_error in Hin. destruct Hin as [i Ei].
    destruct (nth_error_lt (channames o) i) as [nm En]; [rewrite <- Lc; eapply nth_error_Some_lt; exact Ei|].
    destruct (H i nm En) as (c' & r & H1 & H2 & H3). assert (H4 : c = mkCurve (tl (freqs o)) (asd r) (Some nm)) by congruence. rewrite H4. split.
    + apply asd_numbers. intros v Hv. apply (N psd r v E); [|exact Hv]. eapply nth_error_In; exact H2.
    + rewrite Ef. apply freqs_drawable; assumption.
Qed.

Lemma psd_subplots save o lgcsave sp psd : reachable o -> n_psd (pn o) = Some psd -> channames o <> [] ->
  exists f, shown (fst (plot_psd save o false lgcsave sp)) = [f] /\ snd (plot_psd save o false lgcsave sp) = Ok tt /\
    laid_out (length (channames o)) (fun i a => a_title a = nth_error (channames o) i /\
       exists c row, a_curves a = [c] /\ nth_error psd i = Some row /\ shows_amplitude (freqs o) row None c) f /\
    forall c, In c (curves_of f) -> all_numbers c /\ log_drawable c.
Proof.
  intros R E Hne. destruct (reach_facts o R) as (S & T & (N & _) & Hc & Hl & Hb & Hf & Ef).
  destruct (proj1 S psd E) as [Lp Lr].
  unfold plot_psd. rewrite E. cbv zeta.
  set (content := fun ii => do title <- row_at (channames o) ii; do row <- row_at psd ii;
          do c <- draw (tl (freqs o)) (asd row) None; Ok (mkAxes (Some title) false [c])).
  assert (HC : forall i, (i < length (channames o))%nat -> exists nm row, nth_error (channames o) i = Some nm /\
     nth_error psd i = Some row /\ content i = Ok (mkAxes (Some nm) false [mkCurve (tl (freqs o)) (asd row) None])).
  { intros i Hi. destruct (nth_error_lt (channames o) i Hi) as [nm En]. destruct (nth_error_lt psd i) as [row Er]; [lia|].
    exists nm, row. split; [exact En|]. split; [exact Er|]. unfold content, row_at. rewrite En, Er. cbn [bind].
    rewrite (proj1 (amplitude_draw (freqs o) row None ltac:(rewrite Hl; apply Lr; eapply nth_error_In; exact Er))). reflexivity. }
  destruct (subplots_ok content (length (channames o)) (shown_name o ++ " PSD")%string
    (fun i a => a_title a = nth_error (channames o) i /\
       exists c row, a_curves a = [c] /\ nth_error psd i = Some row /\ shows_amplitude (freqs o) row None c))
    as (rows & Er & Lay & All).
  { destruct (channames o); [contradiction|cbn; lia]. }
  { intros i Hi. destruct (HC i Hi) as (nm & row & En & Erow & Ec). eexists. split; [exact Ec|]. split; [reflexivity|].
    cbn [a_title a_curves]. split; [symmetry; exact En|]. do 2 eexists. split; [reflexivity|]. split; [exact Erow|].
    apply amplitude_draw. rewrite Hl. apply Lr. eapply nth_error_In; exact Erow. }
  rewrite Er. cbn [andthen quiet snd fst app finish].
  exists (mkFig (shown_name o ++ " PSD") rows). split.
  { unfold try_save. destruct lgcsave; [|reflexivity]. destruct sp; [|reflexivity]. destruct (pname o); [|reflexivity].
    destruct (save _); reflexivity. }
  split; [reflexivity|]. split; [exact Lay|].
  intros c Hin. apply concat_cells in Hin. cbn [f_rows] in Hin. destruct Hin as (r & k & a & Ea & Ha).
  destruct (All r k a Ea) as [->|(i & Hi & Ci)]; [destruct Ha|].
  destruct (HC i Hi) as (nm & row & En & Erow & Ec). assert (Ea' : a = mkAxes (Some nm) false [mkCurve (tl (freqs o)) (asd row) None]) by congruence.
  rewrite Ea' in Ha. destruct Ha as [<-|[]]. split.
  - apply asd_numbers. intros v Hv. apply (N psd row v E); [|exact Hv]. eapply nth_error_In; exact Erow.
  - rewrite Ef. apply freqs_drawable; assumption.
Qed.

Lemma psd_no_channels save o lgcsave sp psd : n_psd (pn o) = Some psd -> channames o = [] ->
  plot_psd save o false lgcsave sp = ([], Err ValueError).
Proof. intros E En. unfold plot_psd. rewrite E, En. reflexivity. Qed.

(** ** plot_reim_psd *)
Lemma reim_subplots save o lgcsave sp re im : reachable o ->
  n_real_psd (pn o) = Some re -> n_imag_psd (pn o) = Some im -> channames o <> [] ->
  exists f, shown (fst (plot_reim_psd save o lgcsave sp)) = [f] /\ snd (plot_reim_psd save o lgcsave sp) = Ok tt /\
    laid_out (length (channames o)) (fun i a => a_title a = nth_error (channames o) i /\
       exists c d rre rim, a_curves a = [c; d] /\ nth_error re i = Some rre /\ nth_error im i = Some rim /\
         shows_amplitude (freqs o) rre (Some "real"%string) c /\ shows_amplitude (freqs o) rim (Some "imag"%string) d) f /\
    forall c, In c (curves_of f) -> all_numbers c /\ log_drawable c.
Proof.
  intros R E1 E2 Hne. destruct (reach_facts o R) as (S & T & (_ & Nr & Ni) & Hc & Hl & Hb & Hf & Ef).
  destruct S as (_ & S2 & S3 & _). destruct (S2 re E1) as [Lp1 Lr1]. destruct (S3 im E2) as [Lp2 Lr2].
  unfold plot_reim_psd. rewrite E1. cbv zeta. rewrite E2.
  set (content := fun ii => do title <- row_at (channames o) ii; do rre <- row_at re ii;
        do cre <- draw (tl (freqs o)) (asd rre) (Some "real"%string);
        do im0 <- Ok im; do rim <- row_at im0 ii;
        do cim <- draw (tl (freqs o)) (asd rim) (Some "imag"%string);
        Ok (mkAxes (Some title) false [cre; cim])).
  assert (HC : forall i, (i < length (channames o))%nat -> exists nm rre rim, nth_error (channames o) i = Some nm /\
     nth_error re i = Some rre /\ nth_error im i = Some rim /\
     content i = Ok (mkAxes (Some nm) false [mkCurve (tl (freqs o)) (asd rre) (Some "real"%string); mkCurve (tl (freqs o)) (asd rim) (Some "imag"%string)])).
  { intros i Hi. destruct (nth_error_lt (channames o) i Hi) as [nm En]. destruct (nth_error_lt re i) as [rre Er]; [lia|].
    destruct (nth_error_lt im i) as [rim Ei]; [lia|].
    exists nm, rre, rim. split; [exact En|]. split; [exact Er|]. split; [exact Ei|]. unfold content, row_at. rewrite En, Er. cbn [bind].
    rewrite (proj1 (amplitude_draw (freqs o) rre (Some "real"%string) ltac:(rewrite Hl; apply Lr1; eapply nth_error_In; exact Er))). cbn [bind].
    rewrite Ei. cbn [bind].
    rewrite (proj1 (amplitude_draw (freqs o) rim (Some "imag"%string) ltac:(rewrite Hl; apply Lr2; eapply nth_error_In; exact Ei))). reflexivity. }
  destruct (subplots_ok content (length (channames o)) (shown_name o ++ " Real vs Imaginary PSD")%string
    (fun i a => a_title a = nth_error (channames o) i /\
       exists c d rre rim, a_curves a = [c; d] /\ nth_error re i = Some rre /\ nth_error im i = Some rim /\
         shows_amplitude (freqs o) rre (Some "real"%string) c /\ shows_amplitude (freqs o) rim (Some "imag"%string) d))
    as (rows & Er & Lay & All).
  { destruct (channames o); [contradiction|cbn; lia]. }
  { intros i Hi. destruct (HC i Hi) as (nm & rre & rim & En & H1 & H2 & Ec). eexists. split; [exact Ec|]. split; [reflexivity|].
    cbn [a_title a_curves]. split; [symmetry; exact En|]. do 4 eexists. split; [reflexivity|]. split; [exact H1|]. split; [exact H2|].
    split; apply amplitude_draw; rewrite Hl; [apply Lr1|apply Lr2]; eapply nth_error_In; eassumption. }
  rewrite Er. cbn [andthen quiet snd fst app finish].
  exists (mkFig (shown_name o ++ " Real vs Imaginary PSD") rows). split.
  { unfold try_save. destruct lgcsave; [|reflexivity]. destruct sp; [|reflexivity]. destruct (pname o); [|reflexivity].
    destruct (save _); reflexivity. }
  split; [reflexivity|]. split; [exact Lay|].
  intros c Hin. apply concat_cells in Hin. cbn [f_rows] in Hin. destruct Hin as (r & k & a & Ea & Ha).
  destruct (All r k a Ea) as [->|(i & Hi & Ci)]; [destruct Ha|].
  destruct (HC i Hi) as (nm & rre & rim & En & H1 & H2 & Ec). rewrite Ec in Ci.
  assert (Ea' : a = mkAxes (Some nm) false [mkCurve (tl (freqs o)) (asd rre) (Some "real"%string); mkCurve (tl (freqs o)) (asd rim) (Some "imag"%string)]) by congruence.
  rewrite Ea' in Ha. destruct Ha as [<-|[<-|[]]]; (split; [|rewrite Ef; apply freqs_drawable; assumption]); apply asd_numbers; intros v Hv.
  - apply (Nr re rre v E1); [|exact Hv]. eapply nth_error_In; exact H1.
  - apply (Ni im rim v E2); [|exact Hv]. eapply nth_error_In; exact H2.
Qed.

(** ** plot_corrcoeff *)
Lemma pairs_below_in n i j : In (i, j) (pairs_below n) <-> (j < i < n)%nat.
Proof.
  unfold pairs_below. rewrite in_flat_map. split.
  - intros (ii & Hi & H). apply in_map_iff in H. destruct H as (jj & E & Hj). assert (ii = i /\ jj = j) as [-> ->] by (split; congruence).
    apply filter_In in Hj. destruct Hj as [_ Hj]. apply Nat.ltb_lt in Hj. apply in_seq in Hi. lia.
  - intros H. exists i. split; [apply in_seq; lia|]. apply in_map. apply filter_In. split; [apply in_seq; lia|]. apply Nat.ltb_lt. lia.
Qed.

Lemma NoDup_app_intro {A} (a b : list A) : NoDup a -> NoDup b -> (forall x, In x a -> In x b -> False) -> NoDup (a ++ b).
Proof.
  induction a as [|x a IH]; intros Ha Hb Hd; [exact Hb|]. inversion Ha as [|? ? Hx Ha']; subst. cbn. constructor.
  - intros H. apply in_app_or in H. destruct H as [H|H]; [contradiction|]. apply (Hd x); [now left|exact H].
  - apply IH; auto. intros y Hy. apply Hd. now right.
Qed.

Lemma pairs_below_NoDup n : NoDup (pairs_below n).
Proof.
  unfold pairs_below. generalize (seq_NoDup n 0). generalize (seq 0 n) at 1 3. intros l.
  induction l as [|a l IH]; intros ND; [constructor|]. inversion ND as [|? ? Ha Hl]; subst. cbn [flat_map].
  apply NoDup_app_intro.
  - apply FinFun.Injective_map_NoDup; [intros x y E; congruence|]. apply NoDup_filter, seq_NoDup.
  - apply IH. exact Hl.
  - intros [x y] H1 H2. apply in_map_iff in H1. destruct H1 as (j & E & _). assert (a = x) by congruence. subst x.
    apply in_flat_map in H2. destruct H2 as (x & Hx & H2). apply in_map_iff in H2. destruct H2 as (j' & E' & _).
    assert (x = a) by congruence. subst x. contradiction.
Qed.

Lemma filter_ltb_length i n : (i <= n)%nat -> length (filter (fun j => (j <? i)%nat) (seq 0 n)) = i.
Proof.
  intros H. replace n with (i + (n - i))%nat by lia. rewrite seq_app, filter_app, app_length.
  assert (A : forall l, (forall x, In x l -> (x < i)%nat) -> filter (fun j => (j <? i)%nat) l = l).
  { induction l as [|x l IH]; intros Hl; [reflexivity|]. cbn [filter]. destruct (Nat.ltb_spec x i); [f_equal; apply IH; intros; apply Hl; now right|].
    specialize (Hl x (or_introl eq_refl)). lia. }
  assert (B : forall l, (forall x, In x l -> (i <= x)%nat) -> filter (fun j => (j <? i)%nat) l = []).
  { induction l as [|x l IH]; intros Hl; [reflexivity|]. cbn [filter]. destruct (Nat.ltb_spec x i); [specialize (Hl x (or_introl eq_refl)); lia|].
    apply IH; intros; apply Hl; now right. }
  rewrite A by (intros x Hx; apply in_seq in Hx; lia). rewrite B by (intros x Hx; apply in_seq in Hx; lia).
  rewrite seq_length. cbn. lia.
Qed.

Lemma pairs_below_length n : (2 * length (pairs_below n) = n * (n - 1))%nat.
Proof.
  unfold pairs_below.
  assert (H : forall k, (k <= n)%nat ->
    (2 * length (flat_map (fun ii => map (pair ii) (filter (fun jj => (jj <? ii)%nat) (seq 0 n))) (seq 0 k)) = k * (k - 1))%nat).
  { induction k as [|k IH]; intros Hk; [reflexivity|].
    rewrite seq_S, flat_map_app, app_length. cbn [flat_map plus]. rewrite app_nil_r, map_length, filter_ltb_length by lia.
    specialize (IH ltac:(lia)). nia. }
  apply H. lia.
Qed.

Lemma each_ok {A B} (f : A -> res B) (g : A -> B) l : (forall a, In a l -> f a = Ok (g a)) -> each f l = Ok (map g l).
Proof.
  induction l as [|a l IH]; intros H; [reflexivity|]. cbn [each map]. rewrite (H a) by now left. cbn [bind].
  rewrite IH by (intros; apply H; now right). reflexivity.
Qed.

Lemma corrcoeff_plot savgol save o nwindow lgcsave sp cc : reachable o -> n_corrcoeff (pn o) = Some cc ->
  let r := plot_corrcoeff savgol save o false nwindow lgcsave sp in
  exists f a ps, shown (fst r) = [f] /\ snd r = Ok tt /\ f_rows f = [[a]] /\ a_hidden a = false /\
    NoDup ps /\ (forall i j, In (i, j) ps <-> (j < i < length (channames o))%nat) /\
    (2 * length ps = length (channames o) * (length (channames o) - 1))%nat /\
    length (a_curves a) = length ps /\
    forall k i j, nth_error ps k = Some (i, j) -> exists c ni nj,
      nth_error (a_curves a) k = Some c /\ nth_error (channames o) i = Some ni /\ nth_error (channames o) j = Some nj /\
      shows_values (freqs o) (map (cc i j) (seq 0 (length (freqs o)))) (Some (ni ++ " - " ++ nj)%string) c.
Proof.
  intros R E r. subst r. destruct (reach_facts o R) as (S & T & _ & Hc & Hl & Hb & Hf & Ef).
  unfold plot_corrcoeff. rewrite E. cbv zeta. rewrite Hc.
  set (row := fun p : nat * nat => map (cc (fst p) (snd p)) (seq 0 (length (freqs o)))).
  set (nm := fun i => nth i (channames o) EmptyString).
  assert (Row : forall p, mk (lenpsd (nbins (pn o))) (cc (fst p) (snd p)) = row p).
  { intros p. unfold row, mk. rewrite Hl, lenpsd_half. reflexivity. }
  assert (Names : forall i, (i < length (channames o))%nat -> nth_error (channames o) i = Some (nm i))
    by (intros i Hi; apply nth_error_nth_eq; exact Hi).
  rewrite (each_ok _ (fun p => mkCurve (tl (freqs o)) (map Some (tl (row p))) (Some (nm (fst p) ++ " - " ++ nm (snd p))%string))).
  2:{ intros [i j] Hp. apply pairs_below_in in Hp. cbn [fst snd]. unfold row_at. rewrite (Names i), (Names j) by lia. cbn [bind].
      pose proof (Row (i, j)) as Rw. cbn [fst snd] in Rw. rewrite Rw. apply values_draw. unfold row. now rewrite map_length, seq_length. }
  cbn [andthen quiet snd fst app finish].
  match goal with |- context [Shown ?f] => exists f end. eexists. exists (pairs_below (length (channames o))). split.
  { unfold try_save. destruct lgcsave; [|reflexivity]. destruct sp; [|reflexivity]. destruct (pname o); [|reflexivity].
    destruct (save _); reflexivity. }
  split; [reflexivity|]. split; [reflexivity|]. split; [reflexivity|]. split; [apply pairs_below_NoDup|].
  split; [intros; apply pairs_below_in|]. split; [apply pairs_below_length|]. cbn [a_curves]. split; [apply map_length|].
  intros k i j Ek. assert (Hp : In (i, j) (pairs_below (length (channames o)))) by (eapply nth_error_In; exact Ek).
  apply pairs_below_in in Hp. do 3 eexists. split; [rewrite nth_error_map, Ek; cbn [option_map]; reflexivity|].
  split; [apply Names; lia|]. split; [apply Names; lia|]. cbn [fst snd]. apply values_draw. unfold row.
  now rewrite map_length, seq_length.
Qed.
