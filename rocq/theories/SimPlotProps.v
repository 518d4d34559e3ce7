(** * Properties of plot_noise_sim *)
From Coq Require Import String.
From Verif Require Import Base ListLemmas UtilsModel DidvModel SimModel SimProofs1 SimProps PlotModel PlotSpec PlotProofs2 PlotProofs3.
From Verif Require Import SimPlotModel SimPlotSpec SimPlotProofs SimPlotProofs2.
From Coquelicot Require Import Complex.
Open Scope R_scope.
Open Scope string_scope.

Lemma eq_tl {A B} (l : list A) (m : list B) : length l = length m -> length (tl l) = length (tl m).
Proof. intros H. rewrite !length_tl. now rewrite H. Qed.
Lemma impedant_Zt t f : impedant t f -> forall x, In x (tl f) -> Zt t x <> RtoC 0.
Proof. intros H x Hx. destruct (H x Hx) as [z [E Hz]]. apply dVdI_inv in E. destruct E as [_ ->]. exact Hz. Qed.

(** ** C129: what the plots show *)

(** Referenced to current: the four parts, the total and the data. *)
Theorem C129_current : forall fm f psd sim qetbias path, plausible (so_tes sim) -> biased (so_tes sim) -> length psd = length f ->
  exists a, o_result (plot_noise_sim fm f psd sim (mkText "current" true) qetbias false path) = Ok (Some a) /\
    legend a = map (@Some string) ["TES Johnson Noise"; "Load Noise"; "TFN Noise"; "Total Noise"; "Squid+Electronics Noise"; "Raw Data"] /\
    draws a "TES Johnson Noise" f (fun x v => s_ites (so_tes sim) x = Ok v) /\
    draws a "Load Noise" f (fun x v => s_iload (so_tes sim) x = Ok v) /\
    draws a "TFN Noise" f (fun x v => s_itfn (so_tes sim) x = Ok v) /\
    draws a "Total Noise" f (fun x v => s_itot (so_tes sim) x = Ok v) /\
    draws a "Squid+Electronics Noise" f (fun x v => s_isquid (so_tes sim) x = v) /\
    exists c, In c (a_curves a) /\ shows_amplitude f psd (Some "Raw Data") c.
Proof.
  intros fm f psd sim qetbias path P H L. destruct (ti_ok (fm2 fm) f psd (so_tes sim) H (eq_tl _ _ L)) as [title E].
  exists (shown_ti f psd (so_tes sim) title). unfold plot_noise_sim. cbn [is_literal p_text p_interned String.eqb Ascii.eqb Bool.eqb andb].
  rewrite E. split; [reflexivity|]. split; [reflexivity|].
  assert (K : forall x, exists s a b c, s_itot (so_tes sim) x = Ok s /\ s_iload (so_tes sim) x = Ok a /\ s_ites (so_tes sim) x = Ok b /\
    s_itfn (so_tes sim) x = Ok c /\ 0 <= a /\ 0 <= b /\ 0 <= c /\ 0 <= s).
  { intros x. destruct (pos_itot (so_tes sim) x P H) as [s [a [b [c K]]]]. exists s, a, b, c. repeat (split; [tauto|]). lra. }
  repeat split.
  - apply draws_abs; [cbn; auto|]. intros x _. destruct (K x) as [s [a [b [c K']]]]. exists b. tauto.
  - apply draws_abs; [cbn; auto|]. intros x _. destruct (K x) as [s [a [b [c K']]]]. exists a. tauto.
  - apply draws_abs; [cbn; auto|]. intros x _. destruct (K x) as [s [a [b [c K']]]]. exists c. tauto.
  - apply draws_abs; [cbn; auto|]. intros x _. destruct (K x) as [s [a [b [c K']]]]. exists s. tauto.
  - destruct (draws_abs (shown_ti f psd (so_tes sim) title) "Squid+Electronics Noise" f (fun x => Ok (s_isquid (so_tes sim) x))) as [c D].
    { cbn; auto 10. } { intros x _. eexists. split; [reflexivity|apply s_isquid_nonneg]. }
    exists c. destruct D as [D1 [D2 [D3 [D4 D5]]]]. repeat (split; [assumption|]). intros k Hk.
    destruct (D5 k Hk) as [D6 [x [y [D7 [D8 [D9 D10]]]]]]. split; [exact D6|]. exists x, y. repeat (split; [assumption|]). congruence.
  - eexists. split; [cbn; do 5 right; left; reflexivity|]. now apply raw_amplitude.
Qed.
Print Assumptions C129_current.

(** Referenced to power: the data are divided by the response |dIdP| like the simulation. *)
Theorem C129_power : forall fm f psd sim qetbias path, plausible (so_tes sim) -> biased (so_tes sim) -> impedant (so_tes sim) f ->
  length psd = length f ->
  exists a, o_result (plot_noise_sim fm f psd sim (mkText "power" true) qetbias false path) = Ok (Some a) /\
    legend a = map (@Some string) ["TES Johnson Noise"; "Load Noise"; "TFN Noise"; "Total Noise"; "Squid+Electronics Noise"; "Raw Data"] /\
    draws a "TES Johnson Noise" f (fun x v => s_ptes (so_tes sim) x = Ok v) /\
    draws a "Load Noise" f (fun x v => s_pload (so_tes sim) x = Ok v) /\
    draws a "TFN Noise" f (fun x v => s_ptfn (so_tes sim) = v) /\
    draws a "Total Noise" f (fun x v => s_ptot (so_tes sim) x = Ok v) /\
    draws a "Squid+Electronics Noise" f (fun x v => s_psquid (so_tes sim) x = Ok v) /\
    ((forall s, In s psd -> 0 <= s) -> forall k s x, nth_error psd (S k) = Some s -> nth_error f (S k) = Some x ->
       exists p, dIdP (so_tes sim) x = Ok p /\ 0 < Cmod p /\ height a "Raw Data" k (sqrt s / Cmod p)).
Proof.
  intros fm f psd sim qetbias path P H HI L. destruct (tp_ok (fm2 fm) f psd (so_tes sim) H (eq_tl _ _ L)) as [title E].
  exists (shown_tp f psd (so_tes sim) title). unfold plot_noise_sim. cbn [is_literal p_text p_interned String.eqb Ascii.eqb Bool.eqb andb].
  rewrite E. split; [reflexivity|]. split; [reflexivity|].
  assert (K : forall x, In x (tl f) -> exists p s a b q, dIdP (so_tes sim) x = Ok p /\ 0 < Cmod p /\ s_ptot (so_tes sim) x = Ok s /\
    s_pload (so_tes sim) x = Ok a /\ s_ptes (so_tes sim) x = Ok b /\ s_psquid (so_tes sim) x = Ok q /\ 0 <= a /\ 0 <= b /\ 0 <= q /\ 0 <= s /\ 0 <= s_ptfn (so_tes sim)).
  { intros x Hx. destruct (pos_ptot (so_tes sim) x P H (impedant_Zt _ _ HI x Hx)) as [p [s [a [b [q [ia [ib [ic K]]]]]]]].
    exists p, s, a, b, q. repeat (split; [tauto|]). tauto. }
  repeat split.
  - apply draws_abs; [cbn; auto|]. intros x Hx. destruct (K x Hx) as [p [s [a [b [q K']]]]]. exists b. tauto.
  - apply draws_abs; [cbn; auto|]. intros x Hx. destruct (K x Hx) as [p [s [a [b [q K']]]]]. exists a. tauto.
  - destruct (draws_abs (shown_tp f psd (so_tes sim) title) "TFN Noise" f (fun x => Ok (s_ptfn (so_tes sim)))) as [c D].
    { cbn; auto 10. } { intros x Hx. eexists. split; [reflexivity|]. destruct (K x Hx) as [p [s [a [b [q K']]]]]. tauto. }
    exists c. destruct D as [D1 [D2 [D3 [D4 D5]]]]. repeat (split; [assumption|]). intros k Hk.
    destruct (D5 k Hk) as [D6 [x [y [D7 [D8 [D9 D10]]]]]]. split; [exact D6|]. exists x, y. repeat (split; [assumption|]). congruence.
  - apply draws_abs; [cbn; auto|]. intros x Hx. destruct (K x Hx) as [p [s [a [b [q K']]]]]. exists s. tauto.
  - apply draws_abs; [cbn; auto 10|]. intros x Hx. destruct (K x Hx) as [p [s [a [b [q K']]]]]. exists q. tauto.
  - intros Hs k s x Es Ex. assert (Hx : In x (tl f)) by (apply nth_error_In with k; now rewrite nth_error_tl).
    destruct (K x Hx) as [p [_ [_ [_ [_ [Ep [Np _]]]]]]]. exists p. split; [exact Ep|]. split; [exact Np|].
    eexists. split; [unfold shown_tp; cbn [a_curves In]; do 5 right; left; reflexivity|]. split; [reflexivity|]. cbn [c_y].
    rewrite nth_error_map. rewrite <- nth_error_tl in Es, Ex.
    assert (Ec : nth_error (combine (tl psd) (tl f)) k = Some (s, x)).
    { clear -Es Ex. revert k Es Ex. generalize (tl f). induction (tl psd) as [|a l IH]; intros [|b l'] [|k] E1 E2; cbn in *; try discriminate.
      - congruence. - now apply IH. }
    rewrite Ec. cbn [option_map fst snd]. rewrite Ep. cbn [bind rval]. unfold msqrt.
    assert (0 <= s). { apply Hs. apply in_tl. now apply nth_error_In with k. }
    assert (W : 0 < Cmod p ^ 2) by now apply pow_lt.
    assert (0 <= s / Cmod p ^ 2) by (apply Rmult_le_pos; [assumption|left; now apply Rinv_0_lt_compat]).
    destruct (Rltb_spec (s / Cmod p ^ 2) 0); [lra|]. do 2 f_equal. rewrite sqrt_div_alt by assumption. now rewrite sqrt_pow2 by lra.
Qed.
Print Assumptions C129_power.

(** The superconducting and the normal state. *)
Theorem C129_states : forall fm f psd sim qetbias path,
  0 <= t_tload (so_tes sim) -> 0 <= t_rload (so_tes sim) -> 0 <= t_tc (so_tes sim) -> 0 <= t_r0 (so_tes sim) -> length psd = length f ->
  (exists a, o_result (plot_noise_sim fm f psd sim (mkText "sc" true) qetbias false path) = Ok (Some a) /\
    legend a = map (@Some string) ["Raw Data"; "Squid+Electronics Noise"; "Load Noise"; "Total Noise"] /\
    draws a "Squid+Electronics Noise" f (fun x v => s_isquid (so_tes sim) x = v) /\
    draws a "Load Noise" f (fun x v => s_iloadsc (so_tes sim) x = v) /\
    draws a "Total Noise" f (fun x v => s_itotsc (so_tes sim) x = v) /\
    exists c, In c (a_curves a) /\ shows_amplitude f psd (Some "Raw Data") c) /\
  (exists a, o_result (plot_noise_sim fm f psd sim (mkText "normal" true) qetbias false path) = Ok (Some a) /\
    legend a = map (@Some string) ["Raw Data"; "Squid+Electronics Noise"; "TES Johnson Noise"; "Load Noise"; "Total Noise"] /\
    draws a "Squid+Electronics Noise" f (fun x v => s_isquid (so_tes sim) x = v) /\
    draws a "TES Johnson Noise" f (fun x v => s_itesnormal (so_tes sim) x = v) /\
    draws a "Load Noise" f (fun x v => s_iloadnormal (so_tes sim) x = v) /\
    draws a "Total Noise" f (fun x v => s_itotnormal (so_tes sim) x = v) /\
    exists c, In c (a_curves a) /\ shows_amplitude f psd (Some "Raw Data") c).
Proof.
  intros fm f psd sim qetbias path H1 H2 H3 H4 L.
  assert (K : forall x, 0 <= s_isquid (so_tes sim) x /\ 0 <= s_iloadsc (so_tes sim) x /\ 0 <= s_itotsc (so_tes sim) x /\
    0 <= s_itesnormal (so_tes sim) x /\ 0 <= s_iloadnormal (so_tes sim) x /\ 0 <= s_itotnormal (so_tes sim) x).
  { intros x. destruct (C52_total_normal_sc (so_tes sim) x H1 H2 H3 H4) as [[K1 [K2 [K3 K4]]] [K5 K6]]. repeat (split; [lra|]). lra. }
  split.
  - destruct (sc_ok (fm0 fm) f psd (so_tes sim) qetbias (eq_tl _ _ L)) as [title E].
    exists (shown_sc f psd (so_tes sim) title). unfold plot_noise_sim. cbn [is_literal p_text p_interned String.eqb Ascii.eqb Bool.eqb andb].
    rewrite E. split; [reflexivity|]. split; [reflexivity|].
    split; [apply draws_root; [cbn; auto|intros x _; apply K]|]. split; [apply draws_root; [cbn; auto|intros x _; apply K]|].
    split; [apply draws_root; [cbn; auto|intros x _; apply K]|]. eexists. split; [left; reflexivity|]. now apply raw_amplitude.
  - destruct (n_ok (fm0 fm) f psd (so_tes sim) qetbias (eq_tl _ _ L)) as [title E].
    exists (shown_n f psd (so_tes sim) title). unfold plot_noise_sim. cbn [is_literal p_text p_interned String.eqb Ascii.eqb Bool.eqb andb].
    rewrite E. split; [reflexivity|]. split; [reflexivity|].
    split; [apply draws_root; [cbn; auto|intros x _; apply K]|]. split; [apply draws_root; [cbn; auto|intros x _; apply K]|].
    split; [apply draws_root; [cbn; auto|intros x _; apply K]|]. split; [apply draws_root; [cbn; auto 10|intros x _; apply K]|].
    eexists. split; [left; reflexivity|]. now apply raw_amplitude.
Qed.
Print Assumptions C129_states.

(** ** C130: the total curve is the quadratic sum of the others; power and current plots agree *)

Lemma presented_inv sim lgcsave path r a : presented (finish sim lgcsave path r) a -> r = Ok a.
Proof.
  unfold presented, finish. destruct r as [b|e]; [|cbn; intros [H|[p []]]; discriminate].
  destruct lgcsave; cbn.
  - intros [H|[p [H|[]]]]; [discriminate|]. congruence.
  - intros [H|[p []]]. congruence.
Qed.
Lemma ti_inv fmt f psd t a : biased t -> plot_ti fmt f psd t = Ok a -> length (tl psd) = length (tl f) /\ exists title, a = shown_ti f psd t title.
Proof.
  intros H E. destruct (Nat.eq_dec (length (tl psd)) (length (tl f))) as [L|L].
  - split; [exact L|]. destruct (ti_ok fmt f psd t H L) as [title E']. exists title. congruence.
  - rewrite (ti_length fmt f psd t H L) in E. discriminate.
Qed.
Lemma sc_inv fmt f psd t b a : plot_sc fmt f psd t b = Ok a -> exists title, a = shown_sc f psd t title.
Proof.
  intros E. destruct (Nat.eq_dec (length (tl psd)) (length (tl f))) as [L|L].
  - destruct (sc_ok fmt f psd t b L) as [title E']. exists title. congruence.
  - rewrite (sc_length fmt f psd t b L) in E. discriminate.
Qed.
Lemma n_inv fmt f psd t b a : plot_n fmt f psd t b = Ok a -> exists title, a = shown_n f psd t title.
Proof.
  intros E. destruct (Nat.eq_dec (length (tl psd)) (length (tl f))) as [L|L].
  - destruct (n_ok fmt f psd t b L) as [title E']. exists title. congruence.
  - rewrite (n_length fmt f psd t b L) in E. discriminate.
Qed.

(** In every figure returned or saved. *)
Theorem C130_sums : forall fm f psd sim qetbias lgcsave path a k y l q,
  plausible (so_tes sim) -> height a "Total Noise" k y -> height a "Load Noise" k l -> height a "Squid+Electronics Noise" k q ->
  (biased (so_tes sim) -> presented (plot_noise_sim fm f psd sim (mkText "current" true) qetbias lgcsave path) a ->
   forall j t, height a "TES Johnson Noise" k j -> height a "TFN Noise" k t -> y * y = j * j + l * l + t * t + q * q) /\
  (biased (so_tes sim) -> impedant (so_tes sim) f -> length psd = length f ->
   presented (plot_noise_sim fm f psd sim (mkText "power" true) qetbias lgcsave path) a ->
   forall j t, height a "TES Johnson Noise" k j -> height a "TFN Noise" k t -> y * y = j * j + l * l + t * t + q * q) /\
  (presented (plot_noise_sim fm f psd sim (mkText "sc" true) qetbias lgcsave path) a -> y * y = l * l + q * q) /\
  (presented (plot_noise_sim fm f psd sim (mkText "normal" true) qetbias lgcsave path) a ->
   forall j, height a "TES Johnson Noise" k j -> y * y = j * j + l * l + q * q).
Proof.
  intros fm f psd sim qetbias lgcsave path a k y l q P Hy Hl Hq. unfold plot_noise_sim.
  cbn [is_literal p_text p_interned String.eqb Ascii.eqb Bool.eqb andb]. split; [|split; [|split]].
  - intros H E j t Hj Ht. apply presented_inv in E. apply (ti_inv _ _ _ _ _ H) in E. destruct E as [_ [title ->]].
    exact (sum_ti f psd _ title k y j l t q P H Hy Hj Hl Ht Hq).
  - intros H HI L E j t Hj Ht. apply presented_inv in E.
    destruct (tp_ok (fm2 fm) f psd (so_tes sim) H (eq_tl _ _ L)) as [title E']. rewrite E' in E.
    assert (a = shown_tp f psd (so_tes sim) title) by congruence. subst a.
    exact (sum_tp f psd _ title k y j l t q P H (impedant_Zt _ _ HI) Hy Hj Hl Ht Hq).
  - intros E. apply presented_inv in E. apply sc_inv in E. destruct E as [title ->]. exact (sum_sc f psd _ title k y l q Hy Hl Hq).
  - intros E j Hj. apply presented_inv in E. apply n_inv in E. destruct E as [title ->]. exact (sum_n f psd _ title k y j l q Hy Hj Hl Hq).
Qed.
Print Assumptions C130_sums.

(** A curve of the power plot times |dIdP| is the curve of the current plot with the same label;
    this includes the data. *)
Theorem C130_power_current : forall fm f psd sim b1 b2 s1 s2 path1 path2 a a' label k y z x p,
  plausible (so_tes sim) -> biased (so_tes sim) -> impedant (so_tes sim) f -> length psd = length f ->
  presented (plot_noise_sim fm f psd sim (mkText "power" true) b1 s1 path1) a ->
  presented (plot_noise_sim fm f psd sim (mkText "current" true) b2 s2 path2) a' ->
  height a label k y -> height a' label k z -> nth_error f (S k) = Some x -> dIdP (so_tes sim) x = Ok p ->
  y * Cmod p = z.
Proof.
  intros fm f psd sim b1 b2 s1 s2 path1 path2 a a' label k y z x p P H HI L E E' Hy Hz Ex Ep. unfold plot_noise_sim in E, E'.
  cbn [is_literal p_text p_interned String.eqb Ascii.eqb Bool.eqb andb] in E, E'. apply presented_inv in E, E'.
  destruct (tp_ok (fm2 fm) f psd (so_tes sim) H (eq_tl _ _ L)) as [title F].
  destruct (ti_ok (fm2 fm) f psd (so_tes sim) H (eq_tl _ _ L)) as [title' F'].
  assert (a = shown_tp f psd (so_tes sim) title) by congruence. assert (a' = shown_ti f psd (so_tes sim) title') by congruence. subst a a'.
  exact (tp_vs_ti f psd (so_tes sim) title title' label k y z x p P H (impedant_Zt _ _ HI) L Hy Hz Ex Ep).
Qed.
Print Assumptions C130_power_current.

(** ** C131: a figure is returned or saved; when the call raises *)

(** With [lgcsave] the call returns None and writes exactly one file; without it, it writes none and
    returns the figure.  The figure is the same. *)
Theorem C131_saved : forall fm f psd sim istype qetbias path a,
  o_result (plot_noise_sim fm f psd sim istype qetbias false path) = Ok (Some a) ->
  o_files (plot_noise_sim fm f psd sim istype qetbias false path) = [] /\
  o_result (plot_noise_sim fm f psd sim istype qetbias true path) = Ok None /\
  exists name, o_files (plot_noise_sim fm f psd sim istype qetbias true path) = [(path ++ name ++ fm3 fm (qetbias * 1000000) ++ "muA.png", a)] /\
    p_interned istype = true /\
    ((p_text istype = "current" /\ name = "current_qetbias") \/ (p_text istype = "power" /\ name = "power_noise_qetbias") \/
     (p_text istype = "sc" /\ name = "SC_noise_qetbias") \/ (p_text istype = "normal" /\ name = "normal_noise_qetbias")).
Proof.
  intros fm f psd sim [s i] qetbias path a. unfold plot_noise_sim, is_literal. cbn [p_text p_interned].
  assert (K : forall o path name r, o_result (finish o false path r) = Ok (Some a) ->
    o_files (finish o false path r) = [] /\ o_result (finish o true name r) = Ok None /\ o_files (finish o true name r) = [(name, a)]).
  { intros o p name r. unfold finish. destruct r; cbn; [|discriminate]. intros E. split; [reflexivity|]. split; [reflexivity|]. congruence. }
  destruct i; [|rewrite !Bool.andb_false_r; cbn; discriminate]. rewrite !Bool.andb_true_r.
  destruct (String.eqb_spec s "current") as [->|_].
  { intros E. apply (K _ _ (path ++ "current_qetbias" ++ fm3 fm (qetbias * 1000000) ++ "muA.png")) in E. destruct E as [E1 [E2 E3]].
    split; [exact E1|]. split; [exact E2|]. exists "current_qetbias". tauto. }
  destruct (String.eqb_spec s "power") as [->|_].
  { intros E. apply (K _ _ (path ++ "power_noise_qetbias" ++ fm3 fm (qetbias * 1000000) ++ "muA.png")) in E. destruct E as [E1 [E2 E3]].
    split; [exact E1|]. split; [exact E2|]. exists "power_noise_qetbias". tauto. }
  destruct (String.eqb_spec s "sc") as [->|_].
  { intros E. apply (K _ _ (path ++ "SC_noise_qetbias" ++ fm3 fm (qetbias * 1000000) ++ "muA.png")) in E. destruct E as [E1 [E2 E3]].
    split; [exact E1|]. split; [exact E2|]. exists "SC_noise_qetbias". tauto. }
  destruct (String.eqb_spec s "normal") as [->|_].
  { intros E. apply (K _ _ (path ++ "normal_noise_qetbias" ++ fm3 fm (qetbias * 1000000) ++ "muA.png")) in E. destruct E as [E1 [E2 E3]].
    split; [exact E1|]. split; [exact E2|]. exists "normal_noise_qetbias". tauto. }
  cbn. discriminate.
Qed.
Print Assumptions C131_saved.

(** When the call raises: the transition plots need a transition operating point, all need arrays of
    one length. *)
Theorem C131_raises : forall fm f psd sim qetbias lgcsave path,
  (~ biased (so_tes sim) -> forall s, s = "current" \/ s = "power" ->
   o_result (plot_noise_sim fm f psd sim (mkText s true) qetbias lgcsave path) = Err ZeroDivisionError) /\
  (length (tl psd) <> length (tl f) ->
   (biased (so_tes sim) -> o_result (plot_noise_sim fm f psd sim (mkText "current" true) qetbias lgcsave path) = Err ValueError) /\
   (biased (so_tes sim) -> length psd <> 2%nat ->
    o_result (plot_noise_sim fm f psd sim (mkText "power" true) qetbias lgcsave path) = Err ValueError) /\
   o_result (plot_noise_sim fm f psd sim (mkText "sc" true) qetbias lgcsave path) = Err ValueError /\
   o_result (plot_noise_sim fm f psd sim (mkText "normal" true) qetbias lgcsave path) = Err ValueError).
Proof.
  intros fm f psd sim qetbias lgcsave path. unfold plot_noise_sim. split.
  - intros H s [-> | ->]; cbn [is_literal p_text p_interned String.eqb Ascii.eqb Bool.eqb andb].
    + now rewrite (ti_irregular _ _ _ _ H).
    + now rewrite (tp_irregular _ _ _ _ H).
  - intros L. cbn [is_literal p_text p_interned String.eqb Ascii.eqb Bool.eqb andb]. split; [|split; [|split]].
    + intros H. now rewrite (ti_length _ _ _ _ H L).
    + intros H L2. rewrite (tp_length _ _ _ _ H L); [reflexivity|]. rewrite length_tl. lia.
    + now rewrite (sc_length _ _ _ _ _ L).
    + now rewrite (n_length _ _ _ _ _ L).
Qed.
Print Assumptions C131_raises.

(** A PSD of two bins does not match the frequencies, but the power plot draws its second bin at
    every frequency instead of raising. *)
Theorem C131_lengths_refuted : forall fm f s0 s sim qetbias path x k, biased (so_tes sim) -> 0 <= s -> impedant (so_tes sim) f ->
  nth_error f (S k) = Some x ->
  exists a p, o_result (plot_noise_sim fm f [s0; s] sim (mkText "power" true) qetbias false path) = Ok (Some a) /\
    dIdP (so_tes sim) x = Ok p /\ height a "Raw Data" k (sqrt s / Cmod p).
Proof.
  intros fm f s0 s sim qetbias path x k H Hs HI Ex. destruct (tp_broadcast (fm2 fm) f s0 s (so_tes sim) H) as [a [E HIn]].
  assert (Ep : exists p, dIdP (so_tes sim) x = Ok p). { destruct H as [H1 [H2 H3]]. rewrite (dIdP_ok _ x H1 H2 H3). eauto. }
  destruct Ep as [p Ep]. exists a, p. unfold plot_noise_sim. cbn [is_literal p_text p_interned String.eqb Ascii.eqb Bool.eqb andb].
  rewrite E. split; [reflexivity|]. split; [exact Ep|]. eexists. split; [exact HIn|]. split; [reflexivity|]. cbn [c_y].
  rewrite nth_error_map, nth_error_tl, Ex. cbn [option_map]. rewrite Ep. cbn [bind rval]. unfold msqrt.
  assert (Hx : In x (tl f)) by (apply nth_error_In with k; now rewrite nth_error_tl).
  assert (N := power_times _ x p Ep (impedant_Zt _ _ HI x Hx)). assert (W : 0 < Cmod p ^ 2) by (assert (K := pow2_ge_0 (Cmod p)); lra).
  assert (0 <= s / Cmod p ^ 2) by (apply Rmult_le_pos; [assumption|left; now apply Rinv_0_lt_compat]).
  destruct (Rltb_spec (s / Cmod p ^ 2) 0); [lra|]. do 2 f_equal. rewrite sqrt_div_alt by assumption. now rewrite sqrt_pow2 by apply Cmod_ge_0.
Qed.
Print Assumptions C131_lengths_refuted.

(** ** C132: plotting and the simulation object *)

(** The sensor parameters are never changed, and the plots of the superconducting and normal state
    leave the frequencies. *)
Theorem C132_unchanged_partial : forall fm f psd sim istype qetbias lgcsave path,
  so_tes (o_sim (plot_noise_sim fm f psd sim istype qetbias lgcsave path)) = so_tes sim /\
  (p_text istype <> "current" -> p_text istype <> "power" ->
   o_sim (plot_noise_sim fm f psd sim istype qetbias lgcsave path) = sim).
Proof.
  intros fm f psd sim [s i] qetbias lgcsave path. cbn [p_text].
  assert (K : forall o path r, o_sim (finish o lgcsave path r) = o). { intros o p r. unfold finish. destruct r; [destruct lgcsave|]; reflexivity. }
  unfold plot_noise_sim, is_literal. cbn [p_text p_interned]. split.
  - repeat match goal with |- context [if ?b then _ else _] => destruct b end; rewrite ?K; reflexivity.
  - intros H1 H2. rewrite (proj2 (String.eqb_neq _ _) H1), (proj2 (String.eqb_neq _ _) H2). cbn [andb].
    repeat match goal with |- context [if ?b then _ else _] => destruct b end; rewrite ?K; reflexivity.
Qed.
Print Assumptions C132_unchanged_partial.

(** The transition plots replace the frequencies of the caller's object, also when they raise. *)
Theorem C132_unchanged_refuted : forall fm f psd sim s qetbias lgcsave path, s = "current" \/ s = "power" ->
  so_freqs (o_sim (plot_noise_sim fm f psd sim (mkText s true) qetbias lgcsave path)) = tl f.
Proof.
  intros fm f psd sim s qetbias lgcsave path [-> | ->]; unfold plot_noise_sim;
    cbn [is_literal p_text p_interned String.eqb Ascii.eqb Bool.eqb andb]; unfold finish;
    [destruct (plot_ti _ _ _ _)|destruct (plot_tp _ _ _ _)]; try destruct lgcsave; reflexivity.
Qed.
Print Assumptions C132_unchanged_refuted.

(** ** C133: the type of the plot is compared by identity *)

(** Anything else than the four interned literals gives neither figure nor file nor exception: also
    a computed string with the right text. *)
Theorem C133_identity_refuted : forall fm f psd sim istype qetbias lgcsave path,
  p_interned istype = false \/ ~ In (p_text istype) ["current"; "power"; "sc"; "normal"] ->
  plot_noise_sim fm f psd sim istype qetbias lgcsave path = mkSimout sim [] (Ok None).
Proof.
  intros fm f psd sim [s i] qetbias lgcsave path H. cbn [p_text p_interned In] in H. unfold plot_noise_sim, is_literal. cbn [p_text p_interned].
  destruct H as [-> | H]; [now rewrite !Bool.andb_false_r|].
  destruct (String.eqb_spec s "current") as [->|_]; [tauto|]. destruct (String.eqb_spec s "power") as [->|_]; [tauto|].
  destruct (String.eqb_spec s "sc") as [->|_]; [tauto|]. destruct (String.eqb_spec s "normal") as [->|_]; [tauto|]. reflexivity.
Qed.
Print Assumptions C133_identity_refuted.

(** ** C134: objects loaded from a dIdV fit *)

(** An object loaded as superconducting can be plotted as superconducting; the transition plots
    raise ZeroDivisionError. *)
Theorem C134_superconducting : forall obj G qb tc tload tbath squiddc squidpole squidn rnormal t fm f psd fs qetbias path,
  loadfromdidv obj G qb tc tload tbath squiddc squidpole squidn rnormal (mkStr NSuperconducting true) = Ok t ->
  length psd = length f ->
  (exists a, o_result (plot_noise_sim fm f psd (mkSimobj t fs) (mkText "sc" true) qetbias false path) = Ok (Some a)) /\
  (forall s lgcsave, s = "current" \/ s = "power" ->
   o_result (plot_noise_sim fm f psd (mkSimobj t fs) (mkText s true) qetbias lgcsave path) = Err ZeroDivisionError).
Proof.
  intros obj G qb tc tload tbath squiddc squidpole squidn rnormal t fm f psd fs qetbias path E L. split.
  - destruct (sc_ok (fm0 fm) f psd t qetbias (eq_tl _ _ L)) as [title E'].
    exists (shown_sc f psd t title). unfold plot_noise_sim. cbn [is_literal p_text p_interned String.eqb Ascii.eqb Bool.eqb andb so_tes].
    rewrite E'. reflexivity.
  - intros s lgcsave Hs. apply (proj1 (C131_raises fm f psd (mkSimobj t fs) qetbias lgcsave path)); [|exact Hs]. cbn [so_tes].
    intros [H1 [H2 H3]]. destruct (C82_superconducting_methods_refuted _ _ _ _ _ _ _ _ _ _ _ 1 E) as [_ [F _]].
    destruct (ok_ites t (conj H1 (conj H2 H3)) 1) as [v F']. congruence.
Qed.
Print Assumptions C134_superconducting.

(** A sensor, a frequency axis and a PSD for which all of this applies. *)
Example C129_ex : let sim := mkSimobj (mkTes 1 1 1 0 (/ 2) 1 1 2 1 1 1 1 (/ 2) 5 true 1 0 1 1) [] in
  plausible (so_tes sim) /\ biased (so_tes sim) /\ impedant (so_tes sim) [0; 1] /\ length [1; 4] = length [0; 1] /\
  (forall fm, exists a, presented (plot_noise_sim fm [0; 1] [1; 4] sim (mkText "current" true) 1 true "") a /\ height a "Raw Data" 0 2).
Proof.
  cbn [so_tes]. split; [unfold plausible; cbn; repeat split; lra|]. assert (B : biased (mkTes 1 1 1 0 (/ 2) 1 1 2 1 1 1 1 (/ 2) 5 true 1 0 1 1)) by (unfold biased; cbn; repeat split; lra).
  split; [exact B|]. split.
  { intros x [<-|[]]. rewrite dVdI_ok by (cbn; lra). eexists. split; [reflexivity|]. unfold Zt. rewrite thermal_re by (cbn; lra). unfold jomega. cbn.
    unfold Cdiv, Cinv, Cplus, Cmult, RtoC, Ci. cbn [fst snd]. intros E. apply (f_equal fst) in E. cbn [fst snd] in E. revert E.
    match goal with |- ?u = 0 -> _ => replace u with (1 + 1 + 2 / (1 + (4 * PI) ^ 2)) end.
    - intros E. assert (0 < 2 / (1 + (4 * PI) ^ 2)). { apply Rdiv_lt_0_compat; [lra|]. assert (K := pow2_ge_0 (4 * PI)). lra. } lra.
    - assert (K := pow2_ge_0 (4 * PI)). field; repeat split; nra. }
  split; [reflexivity|]. intros fm. destruct (ti_ok (fm2 fm) [0; 1] [1; 4] _ B eq_refl) as [title E].
  eexists. split.
  - right. eexists. unfold plot_noise_sim. cbn [is_literal p_text p_interned String.eqb Ascii.eqb Bool.eqb andb so_tes]. rewrite E. left. reflexivity.
  - eexists. split; [cbn; do 5 right; left; reflexivity|]. split; [reflexivity|]. cbn [tl map nth_error c_y]. unfold msqrt.
    destruct (Rltb_spec 4 0); [lra|]. do 2 f_equal. replace 4 with (2 * 2) by ring. apply sqrt_square. lra.
Qed.
Example C133_ex : ~ In "Current" ["current"; "power"; "sc"; "normal"].
Proof. cbn. intros [H|[H|[H|[H|[]]]]]; discriminate H. Qed.
Example C134_ex : exists t, loadfromdidv (ObjPriors (Some [1; 1; 1; 0]) None None) 1 1 1 1 (/ 2) 1 1 1 None (mkStr NSuperconducting true) = Ok t.
Proof.
  destruct (C53_superconducting_partial (ObjPriors (Some [1; 1; 1; 0]) None None) 1 1 1 0 1 1 1 1 (/ 2) 1 1 1 None) as [t [E _]]; [reflexivity|lra|lra|].
  exists t. exact E.
Qed.
