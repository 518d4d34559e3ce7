(** * Properties of the N-template fits (qetpy/core/_of_nsmb.py) *)
From Coq Require Import Reals ZArith List Bool Lia Lra.
From Verif Require Import Base ListLemmas Dft UtilsProofs3 WindowModel NsmbModel NsmbSpec NsmbProofs1 NsmbProofs2 NsmbProofs3 NsmbProofs4 NsmbProofs5 NsmbProofs6 NsmbProofs7 NsmbProofs8 NsmbProofs9.
Import ListNotations.
Local Open Scope R_scope.

(** ** C54: least squares over all amplitudes and the window *)

(** One signal template, any number of backgrounds for which the setup succeeds.  The result belongs
    to a delay [d] of the window; the time is [d] modulo the trace length, brought to the half-open
    range around 0 when the window entries are at least [-nt]; residual and both chi2 belong to the
    returned amplitudes, and no amplitudes at any delay of the window have a smaller chi2. *)
Theorem C54_nsmb : forall pinv nt s bs psd fs st pulse window lf out,
  0 < fs -> (forall f, (1 <= f < nt)%nat -> 0 < psd f) -> pinv_ok pinv ->
  of_nsmb_setup pinv nt s bs psd fs = Ok st ->
  of_nsmb st (of_nsmb_getiP pinv st) pulse fs window lf = Ok out ->
  exists d : Z, In d window /\
  (exists e : Z, o_tdel out = IZR e / fs /\ (e mod Z.of_nat nt = d mod Z.of_nat nt)%Z /\
     ((forall j, In j window -> (- Z.of_nat nt <= j)%Z) -> (- Z.of_nat nt < 2 * e <= Z.of_nat nt)%Z)) /\
  (forall t, (t < nt)%nat -> o_resid out t = pulse t - sb_model nt s bs (o_amp out) d t) /\
  o_chi2 out = trace_chi2 nt nt (bin_noise nt psd fs) (o_resid out) /\
  o_lf out = trace_chi2 nt (Nat.min lf nt) (bin_noise nt psd fs) (o_resid out) /\
  (forall d' b, In d' window ->
     o_chi2 out <= trace_chi2 nt nt (bin_noise nt psd fs) (trace_minus pulse (sb_model nt s bs b d'))).
Proof.
  intros pinv nt s bs psd fs st pulse window lf out Hfs Hpsd Hp E H.
  apply setup_inv in E. destruct E as [_ [Hnt [_ ->]]].
  exact (nsmb_correct pinv nt s bs psd fs Hnt Hfs Hpsd Hp pulse window lf out H).
Qed.
Print Assumptions C54_nsmb.

(** It succeeds with two or more backgrounds and a window with entries from [-2 nt] upwards. *)
Theorem C54_nsmb_succeeds : forall pinv nt s bs psd fs pulse window lf,
  0 < fs -> (2 <= nt)%nat -> (forall f, (1 <= f < nt)%nat -> 0 < psd f) -> (2 <= length bs)%nat ->
  window <> [] -> (forall j, In j window -> (-2 * Z.of_nat nt <= j)%Z) ->
  exists st out, of_nsmb_setup pinv nt s bs psd fs = Ok st /\
    of_nsmb st (of_nsmb_getiP pinv st) pulse fs window lf = Ok out.
Proof.
  intros pinv nt s bs psd fs pulse window lf Hfs Hnt Hpsd Hb Hw HW.
  assert (bs <> []) by (intros ->; cbn in Hb; lia).
  destruct (nsmb_ok pinv nt s bs psd fs Hnt Hfs Hpsd pulse window lf H Hw HW) as [out [E _]].
  exists (the_setup pinv nt s bs psd fs), out. split; [|exact E]. apply setup_ok; [lra|exact Hnt|lia].
Qed.
Print Assumptions C54_nsmb_succeeds.

(** Background-only fit: a first fit without constraints selects the amplitudes (those that vanish or
    have the wrong sign are set to zero); the second fit is optimal for this selection, and both chi2
    belong to the returned amplitudes. *)
Theorem C54_mb : forall pinv nt s bs psd fs st pulse lf con out,
  0 < fs -> (forall f, (1 <= f < nt)%nat -> 0 < psd f) -> pinv_ok pinv ->
  of_nsmb_setup pinv nt s bs psd fs = Ok st -> length con = length bs ->
  of_mb pinv st pulse lf (Some con) = Ok out ->
  exists a0,
  (forall b, trace_chi2 nt nt (bin_noise nt psd fs) (trace_minus pulse (b_model bs a0)) <=
             trace_chi2 nt nt (bin_noise nt psd fs) (trace_minus pulse (b_model bs b))) /\
  (forall i, (i < length bs)%nat -> a0 i = 0 \/ ~ obeys (nth i con 0) (a0 i) -> b_amp out i = 0) /\
  b_chi2 out = trace_chi2 nt nt (bin_noise nt psd fs) (trace_minus pulse (b_model bs (b_amp out))) /\
  b_lf out = trace_chi2 nt (Nat.min lf nt) (bin_noise nt psd fs) (trace_minus pulse (b_model bs (b_amp out))) /\
  (forall b, (forall i, (i < length bs)%nat -> a0 i = 0 \/ ~ obeys (nth i con 0) (a0 i) -> b i = 0) ->
     b_chi2 out <= trace_chi2 nt nt (bin_noise nt psd fs) (trace_minus pulse (b_model bs b))).
Proof.
  intros pinv nt s bs psd fs st pulse lf con out Hfs Hpsd Hp E HL H.
  apply setup_inv in E. destruct E as [_ [Hnt [_ ->]]].
  exact (mb_correct pinv nt s bs psd fs Hnt Hfs Hpsd Hp pulse lf con out H HL).
Qed.
Print Assumptions C54_mb.

(** The default constraint of [of_mb] is no constraint. *)
Theorem C54_mb_default : forall pinv nt s bs psd fs st pulse lf,
  of_nsmb_setup pinv nt s bs psd fs = Ok st ->
  of_mb pinv st pulse lf None = of_mb pinv st pulse lf (Some (repeat 0 (length bs))).
Proof. intros pinv nt s bs psd fs st pulse lf E. apply setup_inv in E. destruct E as [_ [_ [_ ->]]]. reflexivity. Qed.
Print Assumptions C54_mb_default.

(** The claim fails for one background (the setup raises) and for none (the fit raises). *)
Theorem C54_few_backgrounds_refuted :
  (forall pinv nt s b psd fs, fs <> 0 -> (2 <= nt)%nat -> of_nsmb_setup pinv nt s [b] psd fs = Err LinAlgError) /\
  (forall pinv nt s psd fs pulse w ws lf, fs <> 0 -> (2 <= nt)%nat ->
     exists st, of_nsmb_setup pinv nt s [] psd fs = Ok st /\
       of_nsmb st (of_nsmb_getiP pinv st) pulse fs (w :: ws) lf = Err IndexError /\
       of_nsmb st (of_nsmb_getiP pinv st) pulse fs [] lf = Err ValueError).
Proof.
  split.
  - intros pinv nt s b psd fs Hfs Hnt. unfold of_nsmb_setup. rewrite Reqb_false by exact Hfs.
    destruct nt as [|[|nt]]; [lia|lia|]. reflexivity.
  - intros pinv nt s psd fs pulse w ws lf Hfs Hnt. eexists. split; [apply setup_ok; [exact Hfs|exact Hnt|discriminate]|].
    unfold of_nsmb. rewrite Reqb_false by exact Hfs. split; reflexivity.
Qed.
Print Assumptions C54_few_backgrounds_refuted.

(** One constraint holds for all backgrounds; any other number than one or the number of backgrounds is
    rejected, by both fits. *)
Theorem C54_constraints : forall pinv nt s bs psd fs st pulse lf,
  of_nsmb_setup pinv nt s bs psd fs = Ok st ->
  (forall c, of_mb pinv st pulse lf (Some [c]) = of_mb pinv st pulse lf (Some (repeat c (length bs)))) /\
  (forall con, length con <> 1%nat -> length con <> length bs -> of_mb pinv st pulse lf (Some con) = Err ValueError) /\
  (forall polyfit windows c0 con, length con <> 0%nat -> length con <> length bs ->
     of_nsmb_con pinv polyfit st pulse fs windows lf (Some con) (SigArr [c0]) = Err ValueError) /\
  (forall polyfit windows c0, of_nsmb_con pinv polyfit st pulse fs windows lf None (SigArr [c0])
     = of_nsmb_con pinv polyfit st pulse fs windows lf (Some (repeat 0 (length bs))) (SigArr [c0])).
Proof.
  intros pinv nt s bs psd fs st pulse lf E. assert (Hfs := E). apply setup_inv in E. destruct E as [F [_ [_ ->]]].
  split; [|split; [|split]].
  - intros c. unfold of_mb. change (s_nb (the_setup pinv nt s bs psd fs)) with (length bs). set (nb := length bs).
    assert (X : con_of nb (repeat c nb) = Ok (fun i => nth i (repeat c nb) 0)) by (unfold con_of; now rewrite repeat_length, Nat.eqb_refl).
    rewrite X. assert (Y : exists g, con_of nb [c] = Ok g /\ forall i, (i < nb)%nat -> g i = nth i (repeat c nb) 0).
    { unfold con_of. cbn [length]. assert (R : forall i, (i < nb)%nat -> nth i (repeat c nb) 0 = c).
      { intros i Hi. apply (repeat_spec nb c). apply nth_In. now rewrite repeat_length. }
      destruct (Nat.eqb_spec 1 nb) as [E1|E1]; (eexists; split; [reflexivity|]); intros i Hi; rewrite (R i Hi).
      - destruct i; [reflexivity|lia].
      - reflexivity. }
    destruct Y as (g & -> & G). cbn [bind]. cbv zeta.
    match goal with |- (if (length ?A =? 1)%nat then _ else _) = (if (length ?B =? 1)%nat then _ else _) => assert (Z : A = B) end.
    { unfold indices. apply filter_ext_in. intros i Hi. apply in_seq in Hi. rewrite G by lia. reflexivity. }
    rewrite Z. reflexivity.
  - intros con H1 H2. unfold of_mb. change (s_nb (the_setup pinv nt s bs psd fs)) with (length bs). unfold con_of.
    destruct (Nat.eqb_spec (length con) (length bs)); [contradiction|]. destruct (Nat.eqb_spec (length con) 1); [contradiction|]. reflexivity.
  - intros polyfit windows c0 con H1 H2. unfold of_nsmb_con. rewrite Reqb_false by exact F. cbn [bind]. unfold con_of, nsb, ns. change (s_nb (the_setup pinv nt s bs psd fs)) with (length bs).
    rewrite app_length. cbn [length].
    destruct (Nat.eqb_spec (1 + length con) (1 + length bs)); [lia|]. destruct (Nat.eqb_spec (1 + length con) 1); [lia|]. reflexivity.
  - reflexivity.
Qed.
Print Assumptions C54_constraints.

(** A pseudo-inverse exists, and the hypotheses are met by a flat spectrum and two backgrounds. *)
Example C54_ex : pinv_ok ginv /\ exists st out,
  of_nsmb_setup ginv 4 (fun t => INR t) [fun _ => 1; fun t => INR t] (fun _ => 1) 4 = Ok st /\
  of_nsmb st (of_nsmb_getiP ginv st) (fun t => INR t + 1) 4 [-1; 0; 1]%Z 2 = Ok out.
Proof.
  split; [exact ginv_ok|]. apply C54_nsmb_succeeds; try lra; try lia; try discriminate; intros; try lra.
  - cbn. lia.
  - cbn in H. lia.
Qed.
Example C54_mb_ex : exists st out, of_nsmb_setup ginv 4 (fun _ => 1) sb3 (fun _ => 1) (INR 4) = Ok st /\
    of_mb ginv st sp3 3 (Some [1; 1; 1]) = Ok out /\ b_amp out 1%nat = -1.
Proof. exact (mb_sign_wit ginv 3 ginv_ok). Qed.

(** ** C55: sign constraints *)

(** The test flags zero amplitudes and those with the wrong sign. *)
Theorem C55_disallowed : forall a c, disallowed a c = true <-> a = 0 \/ ~ obeys c a.
Proof.
  intros a c. rewrite disallowed_spec. unfold obeys. split.
  - intros [H|[[H1 H2]|[H1 H2]]]; [now left|right|right]; intros [A B]; [specialize (A H1)|specialize (B H1)]; lra.
  - intros [H|H]; [now left|right].
    destruct (Req_dec c 1) as [C1|C1].
    + left. split; [exact C1|]. apply Rnot_le_lt. intros L. apply H. split; intros; lra.
    + right. destruct (Req_dec c (-1)) as [C2|C2].
      * split; [exact C2|]. apply Rnot_le_lt. intros L. apply H. split; intros; lra.
      * exfalso. apply H. split; intros; lra.
Qed.
Print Assumptions C55_disallowed.

(** What holds of every result: the delay is from the first window, residual and chi2 belong to the
    returned amplitudes; no amplitudes with zeros at the same places are better.  Without the printed
    warning and if the signs are obeyed, no sign-obeying amplitudes at this delay are better.  Without
    constraints, or if every unconstrained optimum obeys its signs strictly, the chi2 is the minimum
    over the window.  Missing for the full claim: the signs (they may be violated, see below). *)
Theorem C55_con_partial : forall pinv polyfit nt s bs psd fs st pulse windows lf c0 cs out,
  0 < fs -> (forall f, (1 <= f < nt)%nat -> 0 < psd f) -> pinv_ok pinv ->
  of_nsmb_setup pinv nt s bs psd fs = Ok st -> length cs = length bs ->
  of_nsmb_con pinv polyfit st pulse fs windows lf (Some cs) (SigArr [c0]) = Ok out ->
  let con := fun i => nth i (c0 :: cs) 0 in
  let chi2_of := fun b d => trace_chi2 nt nt (bin_noise nt psd fs) (trace_minus pulse (sb_model nt s bs b d)) in
  exists w d, nth_error windows 0 = Some w /\ In d w /\
  (exists e, c_tdel out = IZR e / fs /\ (e mod Z.of_nat nt = d mod Z.of_nat nt)%Z) /\
  (forall t, (t < nt)%nat -> c_resid out t = pulse t - sb_model nt s bs (c_amp out) d t) /\
  c_chi2 out = trace_chi2 nt nt (bin_noise nt psd fs) (c_resid out) /\
  c_lf out = trace_chi2 nt (Nat.min lf nt) (bin_noise nt psd fs) (c_resid out) /\
  (forall b, (forall i, (i < 1 + length bs)%nat -> c_amp out i = 0 -> b i = 0) -> c_chi2 out <= chi2_of b d) /\
  (c_warning out = false -> (forall i, (i < 1 + length bs)%nat -> obeys (con i) (c_amp out i)) ->
     forall b, (forall i, (i < 1 + length bs)%nat -> obeys (con i) (b i)) -> c_chi2 out <= chi2_of b d) /\
  ((forall i, (i < 1 + length bs)%nat -> con i <> 1 /\ con i <> -1) \/
   (forall d' a, In d' w -> (forall b, chi2_of a d' <= chi2_of b d') ->
      forall i, (i < 1 + length bs)%nat -> a i <> 0 /\ obeys (con i) (a i)) ->
   forall d' b, In d' w -> c_chi2 out <= chi2_of b d').
Proof.
  intros pinv polyfit nt s bs psd fs st pulse windows lf c0 cs out Hfs Hpsd Hp E HL H con chi2_of.
  apply setup_inv in E. destruct E as [_ [Hnt [_ ->]]].
  destruct (con_correct pinv nt s bs psd fs Hnt Hfs Hpsd Hp polyfit pulse windows lf (Some cs) (SigArr [c0]) out H) as (w & d & H1 & H2 & _ & H4).
  - cbn. now rewrite HL.
  - exists w, d. split; [exact H1|]. split; [exact H2|]. exact H4.
Qed.
Print Assumptions C55_con_partial.

(** Missing constraints are zeros. *)
Theorem C55_default : forall pinv polyfit nt s bs psd fs st pulse windows lf,
  of_nsmb_setup pinv nt s bs psd fs = Ok st ->
  of_nsmb_con pinv polyfit st pulse fs windows lf None SigNone =
  of_nsmb_con pinv polyfit st pulse fs windows lf (Some (repeat 0 (length bs))) (SigArr [0]).
Proof. intros pinv polyfit nt s bs psd fs st pulse windows lf E. apply setup_inv in E. destruct E as [_ [_ [_ ->]]]. reflexivity. Qed.
Print Assumptions C55_default.

(** The fit succeeds if at every delay the best amplitudes obey the constraints and are nonzero, the
    first window lies in [0, nt) and its best bin is not bin 0. *)
Theorem C55_succeeds : forall pinv polyfit nt s bs psd fs st pulse w ws lf c0 cs,
  0 < fs -> (forall f, (1 <= f < nt)%nat -> 0 < psd f) -> pinv_ok pinv ->
  of_nsmb_setup pinv nt s bs psd fs = Ok st -> bs <> [] -> length cs = length bs ->
  let chi2_at := fun a d => trace_chi2 nt nt (bin_noise nt psd fs) (trace_minus pulse (sb_model nt s bs a d)) in
  (forall d a, (0 <= d < Z.of_nat nt)%Z -> (forall b, chi2_at a d <= chi2_at b d) ->
     forall i, (i < 1 + length bs)%nat -> a i <> 0 /\ obeys (nth i (c0 :: cs) 0) (a i)) ->
  w <> [] -> (forall j, In j w -> (0 <= j < Z.of_nat nt)%Z) ->
  (In 0%Z w -> exists j b, In j w /\ forall a, chi2_at b j < chi2_at a 0%Z) ->
  (forall w', In w' ws -> (2 <= length w')%nat /\ forall j, In j w' -> (- Z.of_nat nt <= j < Z.of_nat nt)%Z) ->
  exists out, of_nsmb_con pinv polyfit st pulse fs (w :: ws) lf (Some cs) (SigArr [c0]) = Ok out.
Proof.
  intros pinv polyfit nt s bs psd fs st pulse w ws lf c0 cs Hfs Hpsd Hp E Hbs HL chi2_at HA Hw HR H0 HS.
  apply setup_inv in E. destruct E as [_ [Hnt [_ ->]]].
  exact (con_succeeds pinv nt s bs psd fs Hnt Hfs Hpsd Hp polyfit pulse w ws lf c0 cs Hbs HL HA Hw HR H0 HS).
Qed.
Print Assumptions C55_succeeds.
Example C55_succeeds_ex : exists st out,
  of_nsmb_setup ginv 4 xs xb (fun _ => 1) (INR 4) = Ok st /\
  of_nsmb_con ginv lagrange st xp (INR 4) [[0; 1; 2; 3]; [1; 2]]%Z 2 (Some [1; 1]) (SigArr [0]) = Ok out.
Proof. destruct (x_con ginv lagrange 2 ginv_ok lagrange_ok) as (st & out & _ & E1 & E2 & _). eauto. Qed.

(** The fit returns the amplitude -3/10 under the constraint "positive", with any pseudo-inverse. *)
Theorem C55_sign_refuted : forall pinv polyfit lf, pinv_ok pinv ->
  exists bs pulse st out,
    of_nsmb_setup pinv 4 (fun _ => 1) bs (fun _ => 1) (INR 4) = Ok st /\ length bs = 3%nat /\
    of_nsmb_con pinv polyfit st pulse (INR 4) [[1%Z]] lf (Some [0; -1; 1]) (SigArr [1]) = Ok out /\
    ~ obeys 1 (c_amp out 3%nat).
Proof.
  intros pinv polyfit lf Hp. destruct (wit_con pinv polyfit lf Hp) as (st & out & E1 & E2 & E3).
  exists wb, wp, st, out. split; [exact E1|]. split; [reflexivity|]. split; [exact E2|].
  rewrite E3. intros [A _]. specialize (A eq_refl). lra.
Qed.
Print Assumptions C55_sign_refuted.

(** The same for the background-only fit. *)
Theorem C55_mb_sign_refuted : forall pinv lf, pinv_ok pinv ->
  exists bs pulse st out,
    of_nsmb_setup pinv 4 (fun _ => 1) bs (fun _ => 1) (INR 4) = Ok st /\ length bs = 3%nat /\
    of_mb pinv st pulse lf (Some [1; 1; 1]) = Ok out /\ ~ obeys 1 (b_amp out 1%nat).
Proof.
  intros pinv lf Hp. destruct (mb_sign_wit pinv lf Hp) as (st & out & E1 & E2 & E3).
  exists sb3, sp3, st, out. split; [exact E1|]. split; [reflexivity|]. split; [exact E2|].
  rewrite E3. intros [A _]. specialize (A eq_refl). lra.
Qed.
Print Assumptions C55_mb_sign_refuted.

(** Both fits raise when exactly one amplitude stays allowed. *)
Theorem C55_one_left_refuted : forall pinv polyfit lf windows, pinv_ok pinv ->
  exists bs pulse pulse' st,
    of_nsmb_setup pinv 4 (fun _ => 1) bs (fun _ => 1) (INR 4) = Ok st /\ length bs = 2%nat /\
    of_nsmb_con pinv polyfit st pulse (INR 4) windows lf (Some [1; 1]) (SigArr [1]) = Err IndexError /\
    of_mb pinv st pulse' lf (Some [1; 1]) = Err ValueError.
Proof.
  intros pinv polyfit lf windows Hp. destruct (one_con pinv polyfit lf windows Hp) as (st & E1 & E2).
  destruct (mb_one_wit pinv lf Hp) as (st' & E1' & E2'). rewrite E1 in E1'.
  assert (ES : st = st') by congruence. subst st'.
  exists ob, op, op2, st. split; [exact E1|]. split; [reflexivity|]. split; [exact E2|exact E2'].
Qed.
Print Assumptions C55_one_left_refuted.

Example C55_ex : exists st out, of_nsmb_setup ginv 4 (fun _ => 1) wb (fun _ => 1) (INR 4) = Ok st /\
    of_nsmb_con ginv lagrange st wp (INR 4) [[1%Z]] 3 (Some [0; -1; 1]) (SigArr [1]) = Ok out /\ c_amp out 3%nat = -3 / 10.
Proof. exact (wit_con ginv lagrange 3 ginv_ok). Qed.

(** ** C85: delay zero *)

(** No successful call returns the delay zero. *)
Theorem C85_never_zero : forall pinv polyfit nt s bs psd fs st pulse windows lf c0 cs out,
  0 < fs -> (3 <= nt)%nat -> of_nsmb_setup pinv nt s bs psd fs = Ok st -> length cs = length bs ->
  of_nsmb_con pinv polyfit st pulse fs windows lf (Some cs) (SigArr [c0]) = Ok out -> c_tdel out <> 0.
Proof.
  intros pinv polyfit nt s bs psd fs st pulse windows lf c0 cs out Hfs Hnt E HL H.
  apply setup_inv in E. destruct E as [_ [Hnt2 [_ ->]]].
  refine (con_tdel_nonzero pinv nt s bs psd fs Hnt2 Hfs polyfit pulse windows lf (Some cs) (SigArr [c0]) out H _ Hnt).
  cbn. now rewrite HL.
Qed.
Print Assumptions C85_never_zero.

(** Asked for this delay only, it raises TypeError. *)
Theorem C85_zero_refuted : forall pinv polyfit lf, pinv_ok pinv ->
  exists bs pulse st,
    of_nsmb_setup pinv 4 (fun _ => 1) bs (fun _ => 1) (INR 4) = Ok st /\
    (exists out, of_nsmb_con pinv polyfit st pulse (INR 4) [[1%Z]] lf (Some [0; -1; 1]) (SigArr [1]) = Ok out) /\
    of_nsmb_con pinv polyfit st pulse (INR 4) [[0%Z]] lf (Some [0; -1; 1]) (SigArr [1]) = Err TypeError.
Proof.
  intros pinv polyfit lf Hp. destruct (wit_con pinv polyfit lf Hp) as (st & out & E1 & E2 & _).
  exists wb, wp, st. split; [exact E1|]. split; [now exists out|].
  apply setup_inv in E1. destruct E1 as [_ [_ [_ ->]]].
  apply con_zero_typeerror; [lia|simpl; lra|reflexivity|lia|reflexivity|exact I|].
  intros d Hd. destruct (wit_bin pinv d Hp) as [r [E _]]. exists r. exact E.
Qed.
Print Assumptions C85_zero_refuted.
Example C85_ex : exists st out, of_nsmb_setup ginv 4 (fun _ => 1) wb (fun _ => 1) (INR 4) = Ok st /\
    of_nsmb_con ginv lagrange st wp (INR 4) [[1%Z]] 3 (Some [0; -1; 1]) (SigArr [1]) = Ok out /\ c_amp out 3%nat = -3 / 10.
Proof. exact (wit_con ginv lagrange 3 ginv_ok). Qed.

(** ** C86: the caller's window *)

(** [of_nsmb] writes the wrapped bins into the caller's array: entries of [-nt, 0) and from [nt]
    upwards are replaced by their remainder, entries of [0, nt) stay. *)
Theorem C86_window : forall pinv nt s bs psd fs st pulse window lf out,
  0 < fs -> (forall f, (1 <= f < nt)%nat -> 0 < psd f) -> of_nsmb_setup pinv nt s bs psd fs = Ok st ->
  (forall j, In j window -> (- Z.of_nat nt <= j)%Z) ->
  of_nsmb st (of_nsmb_getiP pinv st) pulse fs window lf = Ok out ->
  o_window out = map (fun j => (j mod Z.of_nat nt)%Z) window /\
  (o_window out = window <-> forall j, In j window -> (0 <= j < Z.of_nat nt)%Z).
Proof.
  intros pinv nt s bs psd fs st pulse window lf out Hfs Hpsd E HW H.
  apply setup_inv in E. destruct E as [_ [Hnt [_ ->]]].
  assert (EO : o_window out = wrap_window nt window).
  { unfold of_nsmb in H. destruct (Reqb fs 0); [discriminate|]. destruct (s_nb _ =? 0)%nat; [destruct (wrap_window _ _); discriminate|].
    destruct (window_min _ _) as [m|]; [|discriminate]. cbn [bind] in H.
    exact (f_equal (fun r => match r with Ok x => o_window x | Err _ => o_window out end) (eq_sym H)). }
  assert (EM : o_window out = map (fun j => (j mod Z.of_nat nt)%Z) window).
  { rewrite EO. unfold wrap_window. apply map_ext_in. intros j Hj. specialize (HW j Hj).
    destruct (Z.ltb_spec j 0).
    - destruct (Z.leb_spec (Z.of_nat nt) (Z.of_nat nt + j)); [lia|].
      apply (Z.mod_unique_pos _ _ (-1)); lia.
    - destruct (Z.leb_spec (Z.of_nat nt) j); [reflexivity|]. symmetry. apply Z.mod_small. lia. }
  split; [exact EM|]. rewrite EM. clear - Hnt. split.
  - intros Eq. assert (forall l, map (fun j => (j mod Z.of_nat nt)%Z) l = l -> forall j, In j l -> (j mod Z.of_nat nt = j)%Z) as G.
    { induction l as [|a l IH]; intros HE j Hj; [destruct Hj|]. cbn in HE. destruct Hj as [<-|Hj]; [congruence|]. apply IH; [congruence|exact Hj]. }
    intros j Hj. specialize (G _ Eq j Hj). rewrite <- G. apply Z.mod_pos_bound. lia.
  - intros A. rewrite <- (map_id window) at 2. apply map_ext_in. intros j Hj. apply Z.mod_small. now apply A.
Qed.
Print Assumptions C86_window.

(** So the claim "arguments are left unchanged" fails for every window with a negative bin. *)
Theorem C86_unchanged_refuted : forall pinv, exists st out,
  of_nsmb_setup pinv 4 (fun t => INR t) [fun _ => 1; fun t => INR t] (fun _ => 1) 4 = Ok st /\
  of_nsmb st (of_nsmb_getiP pinv st) (fun t => INR t + 1) 4 [-1; 0; 1]%Z 2 = Ok out /\
  o_window out = [3; 0; 1]%Z.
Proof.
  intros pinv.
  destruct (C54_nsmb_succeeds pinv 4 (fun t => INR t) [fun _ => 1; fun t => INR t] (fun _ => 1) 4 (fun t => INR t + 1) [-1; 0; 1]%Z 2)
    as (st & out & E1 & E2); try lra; try lia; try discriminate; intros; try lra.
  - cbn. lia.
  - cbn in H. lia.
  - exists st, out. split; [exact E1|]. split; [exact E2|].
    destruct (C86_window pinv 4 (fun t => INR t) [fun _ => 1; fun t => INR t] (fun _ => 1) 4 st (fun t => INR t + 1) [-1; 0; 1]%Z 2 out) as [EO _];
      [lra|intros; lra|exact E1|intros j Hj; cbn in Hj; lia|exact E2|exact EO].
Qed.
Print Assumptions C86_unchanged_refuted.

(** ** C87: interpolated minimum *)

(** Search over all bins: the interpolated chi2 is at most the chi2 of the best bin and the
    interpolated time is within half a bin of it, modulo the trace length. *)
Theorem C87_interp_partial : forall pinv polyfit nt s bs psd fs st pulse windows lf c0 cs out t c a,
  0 < fs -> (3 <= nt)%nat -> (forall f, (1 <= f < nt)%nat -> 0 < psd f) -> pinv_ok pinv -> polyfit_ok polyfit ->
  of_nsmb_setup pinv nt s bs psd fs = Ok st -> length cs = length bs ->
  of_nsmb_con pinv polyfit st pulse fs windows lf (Some cs) (SigArr [c0]) = Ok out ->
  (forall w, nth_error windows 0 = Some w -> forall j, In j w <-> (0 <= j < Z.of_nat nt)%Z) ->
  c_interp out = Some (t, c, a) -> c_tdel out <> - (1 / fs) ->
  c <= c_chi2 out /\
  exists k : Z, (-1 <= k <= 1)%Z /\ Rabs (t - c_tdel out - IZR k * INR nt / fs) <= 1 / (2 * fs).
Proof.
  intros pinv polyfit nt s bs psd fs st pulse windows lf c0 cs out t c a Hfs Hnt Hpsd Hp Hpf E HL H HW HI HD.
  apply setup_inv in E. destruct E as [_ [Hnt2 [_ ->]]].
  refine (con_interp pinv nt s bs psd fs Hnt2 Hfs Hpsd Hp polyfit pulse windows lf (Some cs) (SigArr [c0]) out t c a Hpf H _ HI HW Hnt HD).
  cbn. now rewrite HL.
Qed.
Print Assumptions C87_interp_partial.
Example C87_ex : exists st out t c a,
  of_nsmb_setup ginv 4 xs xb (fun _ => 1) (INR 4) = Ok st /\
  of_nsmb_con ginv lagrange st xp (INR 4) [[0; 1; 2; 3]; [1; 2]]%Z 2 (Some [1; 1]) (SigArr [0]) = Ok out /\
  c_interp out = Some (t, c, a) /\ c_tdel out <> - (1 / INR 4) /\
  c <= c_chi2 out /\ exists k : Z, (-1 <= k <= 1)%Z /\ Rabs (t - c_tdel out - IZR k * INR 4 / INR 4) <= 1 / (2 * INR 4).
Proof.
  destruct (x_con ginv lagrange 2 ginv_ok lagrange_ok) as (st & out & [[t c] a] & E1 & E2 & E3 & E4).
  exists st, out, t, c, a. assert (I4 : INR 4 = 4) by (simpl; lra).
  assert (NT : c_tdel out <> - (1 / INR 4)) by (rewrite E3, I4; lra).
  do 4 (split; [assumption|]).
  apply (C87_interp_partial ginv lagrange 4 xs xb (fun _ => 1) (INR 4) st xp [[0; 1; 2; 3]; [1; 2]]%Z 2 0 [1; 1] out t c a);
    [lra|lia|intros; lra|exact ginv_ok|exact lagrange_ok|exact E1|reflexivity|exact E2| |exact E4|exact NT].
  intros w Hw j. injection Hw as <-. cbn. lia.
Qed.

(** The interpolation: the vertex of the parabola through the three chi2 values around the best bin, its
    value, and the value there of the parabola through the three amplitudes. *)
Theorem C87_parabola : forall polyfit (j : nat) chi2 amp time t c a, polyfit_ok polyfit ->
  length chi2 = length time -> length amp = length time -> (1 <= j)%nat -> (j + 1 < length time)%nat -> NoDup time ->
  interpchi2 polyfit (Z.of_nat j) chi2 amp time = Ok (Some (t, c, a)) ->
  exists z0 z1 z2 y0 y1 y2, z0 <> 0 /\
    (forall i, (j - 1 <= i <= j + 1)%nat ->
       z0 * nth i time 0 ^ 2 + z1 * nth i time 0 + z2 = nth i chi2 0 /\
       y0 * nth i time 0 ^ 2 + y1 * nth i time 0 + y2 = nth i amp 0) /\
    2 * z0 * t + z1 = 0 /\ c = z0 * t ^ 2 + z1 * t + z2 /\ a = y0 * t ^ 2 + y1 * t + y2.
Proof.
  intros polyfit j chi2 amp time t c a HP L1 L2 H1 H2 ND H.
  assert (Sl : forall l, length l = length time ->
    pyslice l (Z.of_nat j - 1) (Z.of_nat j + 2) = [nth (j - 1) l 0; nth j l 0; nth (j + 1) l 0]).
  { intros l L. apply (nth_ext _ _ 0 0).
    - rewrite length_pyslice. unfold slice_bound. cbn [length].
      destruct (Z.ltb_spec (Z.of_nat j - 1) 0), (Z.ltb_spec (Z.of_nat j + 2) 0); lia.
    - intros i Hi. rewrite length_pyslice in Hi. revert Hi. unfold slice_bound.
      destruct (Z.ltb_spec (Z.of_nat j - 1) 0), (Z.ltb_spec (Z.of_nat j + 2) 0); intros Hi; try lia.
      assert (N : forall (m : list R) q, nth q m 0 = match nth_error m q with Some v => v | None => 0 end).
      { clear. intros m q. destruct (nth_error m q) eqn:E; [now apply nth_error_nth|]. apply nth_overflow. now apply nth_error_None. }
      rewrite (N (pyslice _ _ _)). rewrite nth_error_pyslice. unfold slice_bound.
      destruct (Z.ltb_spec (Z.of_nat j - 1) 0), (Z.ltb_spec (Z.of_nat j + 2) 0); try lia.
      match goal with |- context [Z.ltb ?x ?y] => destruct (Z.ltb_spec x y); [|exfalso; lia] end.
      rewrite <- N. destruct i as [|[|[|i]]]; [| | |exfalso; lia]; cbn [nth]; f_equal; lia. }
  unfold interpchi2 in H. cbv zeta in H. rewrite !Sl in H by congruence. cbv iota in H.
  assert (D : forall p q, (p < length time)%nat -> (q < length time)%nat -> p <> q -> nth p time 0 <> nth q time 0).
  { intros p q Hp Hq N E. apply N. now apply (proj1 (NoDup_nth time 0) ND). }
  assert (P1 := HP (nth (j - 1) time 0) (nth j time 0) (nth (j + 1) time 0) (nth (j - 1) chi2 0) (nth j chi2 0) (nth (j + 1) chi2 0)
    ltac:(apply D; lia) ltac:(apply D; lia) ltac:(apply D; lia)).
  assert (P2 := HP (nth (j - 1) time 0) (nth j time 0) (nth (j + 1) time 0) (nth (j - 1) amp 0) (nth j amp 0) (nth (j + 1) amp 0)
    ltac:(apply D; lia) ltac:(apply D; lia) ltac:(apply D; lia)).
  destruct (polyfit _ [nth (j - 1) chi2 0; _; _]) as [[z0 z1] z2]. destruct (polyfit _ [nth (j - 1) amp 0; _; _]) as [[y0 y1] y2].
  unfold Reqb in H. destruct (Req_EM_T z0 0) as [|Nz]; [discriminate H|].
  assert (Q := f_equal (fun r => match r with Ok (Some p) => p | _ => (t, c, a) end) H). cbv beta iota zeta in Q.
  assert (Qt := f_equal (fun p => fst (fst p)) Q). assert (Qc := f_equal (fun p => snd (fst p)) Q). assert (Qa := f_equal snd Q).
  cbn [fst snd] in Qt, Qc, Qa. rewrite Qt in Qc, Qa.
  exists z0, z1, z2, y0, y1, y2. split; [exact Nz|]. split; [|split; [|split; now symmetry]].
  - intros i Hi. assert (C : i = (j - 1)%nat \/ i = j \/ i = (j + 1)%nat) by lia.
    destruct C as [->|[->| ->]]; tauto.
  - rewrite <- Qt. field. exact Nz.
Qed.
Print Assumptions C87_parabola.
Example C87_parabola_ex : exists t, interpchi2 lagrange 1 [2; 1; 4] [0; 3; 5] [0; 1; 2] = Ok (Some t) /\ NoDup [0; 1; 2].
Proof.
  unfold interpchi2. cbv zeta. change (pyslice [0; 1; 2] (1 - 1) (1 + 2)) with [0; 1; 2]. cbv iota.
  change (pyslice [2; 1; 4] (1 - 1) (1 + 2)) with [2; 1; 4]. change (pyslice [0; 3; 5] (1 - 1) (1 + 2)) with [0; 3; 5].
  unfold lagrange at 1. unfold lagrange. cbv zeta. cbn [nth]. rewrite Reqb_false; [|intros X; field_simplify in X; lra].
  eexists. split; [reflexivity|]. repeat constructor; cbn; lra.
Qed.

(** ** C88: extra windows *)

(** The result for an extra window belongs to a bin [i] of it; time 0 of this window is the middle of
    the trace shifted by half its length: the chi2 is that of the delay [i - nt/2].  Without
    constraints it is the minimum over the window. *)
Theorem C88_windows : forall pinv polyfit nt s bs psd fs st pulse windows lf c0 cs out n w,
  0 < fs -> (forall f, (1 <= f < nt)%nat -> 0 < psd f) -> pinv_ok pinv ->
  of_nsmb_setup pinv nt s bs psd fs = Ok st -> length cs = length bs ->
  of_nsmb_con pinv polyfit st pulse fs windows lf (Some cs) (SigArr [c0]) = Ok out ->
  nth_error windows (S n) = Some w ->
  let chi2_at := fun b i => trace_chi2 nt nt (bin_noise nt psd fs)
                              (trace_minus pulse (sb_model nt s bs b (i - Z.of_nat nt / 2))) in
  exists a c t o i b, nth_error (c_windows out) n = Some ((a, c, t), o) /\ In i w /\
    t = IZR i / fs /\ b O = a /\ c = chi2_at b i /\
    ((forall k, (k < 1 + length bs)%nat -> nth k (c0 :: cs) 0 <> 1 /\ nth k (c0 :: cs) 0 <> -1) ->
     forall j b', In j w -> c <= chi2_at b' j).
Proof.
  intros pinv polyfit nt s bs psd fs st pulse windows lf c0 cs out n w Hfs Hpsd Hp E HL H HW chi2_at.
  apply setup_inv in E. destruct E as [_ [Hnt [_ ->]]].
  refine (con_windows pinv nt s bs psd fs Hnt Hfs Hpsd Hp polyfit pulse windows lf (Some cs) (SigArr [c0]) out n w H _ HW).
  cbn. now rewrite HL.
Qed.
Print Assumptions C88_windows.
Example C88_ex : exists st out a c t o,
  of_nsmb_setup ginv 4 xs xb (fun _ => 1) (INR 4) = Ok st /\
  of_nsmb_con ginv lagrange st xp (INR 4) [[0; 1; 2; 3]; [1; 2]]%Z 2 (Some [1; 1]) (SigArr [0]) = Ok out /\
  nth_error (c_windows out) 0 = Some ((a, c, t), o) /\ exists i, In i [1; 2]%Z /\ t = IZR i / INR 4.
Proof.
  destruct (x_con ginv lagrange 2 ginv_ok lagrange_ok) as (st & out & r & E1 & E2 & _). assert (I4 : 0 < INR 4) by (simpl; lra).
  destruct (C88_windows ginv lagrange 4 xs xb (fun _ => 1) (INR 4) st xp [[0; 1; 2; 3]; [1; 2]]%Z 2 0 [1; 1] out 0 [1; 2]%Z) as (a & c & t & o & i & b & H1 & H2 & H3 & _);
    [exact I4|intros; lra|exact ginv_ok|exact E1|reflexivity|exact E2|reflexivity|].
  exists st, out, a, c, t, o. split; [exact E1|]. split; [exact E2|]. split; [exact H1|]. exists i. split; assumption.
Qed.

(** A window of one bin is never accepted. *)
Theorem C88_one_bin_refuted : forall pinv polyfit nt s bs psd fs st pulse windows lf c0 cs w,
  0 < fs -> of_nsmb_setup pinv nt s bs psd fs = Ok st -> length cs = length bs ->
  In w (tl windows) -> length w = 1%nat ->
  forall out, of_nsmb_con pinv polyfit st pulse fs windows lf (Some cs) (SigArr [c0]) <> Ok out.
Proof.
  intros pinv polyfit nt s bs psd fs st pulse windows lf c0 cs w Hfs E HL Hw H1 out H.
  apply setup_inv in E. destruct E as [_ [_ [_ ->]]].
  refine (con_one_bin pinv nt s bs psd fs Hfs polyfit pulse windows lf (Some cs) (SigArr [c0]) out H _ w Hw H1).
  cbn. now rewrite HL.
Qed.
Print Assumptions C88_one_bin_refuted.

(** ** C89: documented type of the signal constraint *)
Theorem C89_int_refuted : forall pinv polyfit nt s bs psd fs st pulse windows lf bkgcon z,
  0 < fs -> of_nsmb_setup pinv nt s bs psd fs = Ok st ->
  of_nsmb_con pinv polyfit st pulse fs windows lf bkgcon (SigInt z) = Err ValueError.
Proof.
  intros pinv polyfit nt s bs psd fs st pulse windows lf bkgcon z Hfs E.
  apply setup_inv in E. destruct E as [_ [_ [_ ->]]]. now apply con_int.
Qed.
Print Assumptions C89_int_refuted.
Example C89_ex : exists st, of_nsmb_setup ginv 4 (fun _ => 1) wb (fun _ => 1) (INR 4) = Ok st.
Proof. destruct (wit_con ginv lagrange 3 ginv_ok) as (st & _ & E & _). now exists st. Qed.
