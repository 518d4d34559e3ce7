(** * Lemmas for the simulated noise plots *)
From Coq Require Import String.
From Verif Require Import Base ListLemmas UtilsModel DidvModel SimModel SimProofs1 PlotModel PlotSpec PlotProofs2 PlotProofs3.
From Verif Require Import SimPlotModel SimPlotSpec.
From Coquelicot Require Import Complex.
Open Scope R_scope.

(** The value of a method that returns *)
Definition rval (r : res R) : R := match r with Ok v => v | Err _ => 0 end.

Definition rooted (v : R) : option R := Some (sqrt (Rabs v)).

Lemma on_array_ok m fs : (forall x, exists v, m x = Ok v) -> on_array m fs = Ok (map (fun x => rval (m x)) fs).
Proof.
  intros H. unfold on_array. destruct (H 1) as [v ->]. cbn [bind]. apply each_ok. intros x _.
  destruct (H x) as [w ->]. reflexivity.
Qed.

Lemma loglog_abs_ok t m fs l : (forall x, exists v, m t x = Ok v) ->
  loglog_abs t m fs l = Ok (mkCurve fs (map (fun x => rooted (rval (m t x))) fs) (Some l)).
Proof.
  intros H. unfold loglog_abs. rewrite on_array_ok by assumption. cbn [bind].
  rewrite map_map. apply draw_ok. now rewrite map_length.
Qed.
Lemma loglog_abs_err t m fs l e : m t 1 = Err e -> loglog_abs t m fs l = Err e.
Proof. intros H. unfold loglog_abs, on_array. now rewrite H. Qed.
Lemma loglog_root_ok t m fs l :
  loglog_root t m fs l = Ok (mkCurve fs (map (fun x => msqrt (m t x)) fs) (Some l)).
Proof. unfold loglog_root. apply draw_ok. now rewrite map_length. Qed.

(** Which methods return *)
Definition regular (t : tes) : Prop := t_loopgain t <> 1 /\ t_loopgain t <> 0 /\ t_i0 t <> 0.

Ltac go H := intros x; destruct H as [H1 [H2 H3]];
  unfold s_ptot, s_pload, s_ptes, s_psquid, s_itot, s_iload, s_ites, s_itfn;
  rewrite ?(dIdV_ok _ x H1), ?(dIdP_ok _ x H1 H2 H3); cbn [bind]; eauto.
Lemma ok_ites t : regular t -> forall x, exists v, s_ites t x = Ok v. Proof. intros H; go H. Qed.
Lemma ok_iload t : regular t -> forall x, exists v, s_iload t x = Ok v. Proof. intros H; go H. Qed.
Lemma ok_itfn t : regular t -> forall x, exists v, s_itfn t x = Ok v. Proof. intros H; go H. Qed.
Lemma ok_itot t : regular t -> forall x, exists v, s_itot t x = Ok v. Proof. intros H; go H. Qed.
Lemma ok_ptes t : regular t -> forall x, exists v, s_ptes t x = Ok v. Proof. intros H; go H. Qed.
Lemma ok_pload t : regular t -> forall x, exists v, s_pload t x = Ok v. Proof. intros H; go H. Qed.
Lemma ok_ptot t : regular t -> forall x, exists v, s_ptot t x = Ok v. Proof. intros H; go H. Qed.
Lemma ok_psquid t : regular t -> forall x, exists v, s_psquid t x = Ok v. Proof. intros H; go H. Qed.
Lemma ok_pow t : regular t -> forall x, exists v, (do p <- dIdP t x; Ok (Cmod p ^ 2)) = Ok v. Proof. intros H; go H. Qed.

Lemma irregular_dec t : regular t \/ ~ regular t.
Proof.
  unfold regular. destruct (Req_dec (t_loopgain t) 1); [right; tauto|]. destruct (Req_dec (t_loopgain t) 0); [right; tauto|].
  destruct (Req_dec (t_i0 t) 0); [right; tauto|]. left; auto.
Qed.
(** Otherwise the first curve raises. *)
Lemma ites_err t x : ~ regular t -> s_ites t x = Err ZeroDivisionError.
Proof.
  intros H. unfold s_ites. destruct (Req_dec (t_loopgain t) 1) as [E|E].
  - unfold dIdV, dVdI. rewrite E. unfold fdiv at 1. destruct (Reqb_spec (1 - 1) 0); [reflexivity|lra].
  - rewrite (dIdV_ok _ _ E). cbn [bind]. destruct (Req_dec (t_loopgain t) 0) as [E0|E0].
    { now rewrite dIdP_zero_gain. }
    destruct (Req_dec (t_i0 t) 0) as [E1|E1]; [|exfalso; apply H; repeat split; assumption].
    unfold dIdP. rewrite E1, fdiv_zero. reflexivity.
Qed.

(** The axes of the four plots *)
Definition shown_ti (f psd : list R) (t : tes) (title : string) : axes :=
  let m l g := mkCurve (tl f) (map (fun x => rooted (rval (g t x))) (tl f)) (Some l) in
  mkAxes (Some title) false
    [m "TES Johnson Noise"%string s_ites; m "Load Noise"%string s_iload; m "TFN Noise"%string s_itfn;
     m "Total Noise"%string s_itot; m "Squid+Electronics Noise"%string (fun t x => Ok (s_isquid t x));
     mkCurve (tl f) (map msqrt (tl psd)) (Some "Raw Data"%string)].
Definition shown_tp (f psd : list R) (t : tes) (title : string) : axes :=
  let m l g := mkCurve (tl f) (map (fun x => rooted (rval (g t x))) (tl f)) (Some l) in
  mkAxes (Some title) false
    [m "TES Johnson Noise"%string s_ptes; m "Load Noise"%string s_pload; m "TFN Noise"%string (fun t _ => Ok (s_ptfn t));
     m "Total Noise"%string s_ptot; m "Squid+Electronics Noise"%string s_psquid;
     mkCurve (tl f) (map (fun q => msqrt (fst q / rval (do p <- dIdP t (snd q); Ok (Cmod p ^ 2)))) (combine (tl psd) (tl f))) (Some "Raw Data"%string)].
Definition shown_sc (f psd : list R) (t : tes) (title : string) : axes :=
  let m l g := mkCurve (tl f) (map (fun x => msqrt (g t x)) (tl f)) (Some l) in
  mkAxes (Some title) false
    [mkCurve (tl f) (map msqrt (tl psd)) (Some "Raw Data"%string); m "Squid+Electronics Noise"%string s_isquid;
     m "Load Noise"%string s_iloadsc; m "Total Noise"%string s_itotsc].
Definition shown_n (f psd : list R) (t : tes) (title : string) : axes :=
  let m l g := mkCurve (tl f) (map (fun x => msqrt (g t x)) (tl f)) (Some l) in
  mkAxes (Some title) false
    [mkCurve (tl f) (map msqrt (tl psd)) (Some "Raw Data"%string); m "Squid+Electronics Noise"%string s_isquid;
     m "TES Johnson Noise"%string s_itesnormal; m "Load Noise"%string s_iloadnormal; m "Total Noise"%string s_itotnormal].

Lemma ti_ok fmt f psd t : regular t -> length (tl psd) = length (tl f) -> exists title, plot_ti fmt f psd t = Ok (shown_ti f psd t title).
Proof.
  intros H L. unfold plot_ti.
  rewrite (loglog_abs_ok _ _ _ _ (ok_ites t H)). cbn [bind]. rewrite (loglog_abs_ok _ _ _ _ (ok_iload t H)). cbn [bind].
  rewrite (loglog_abs_ok _ _ _ _ (ok_itfn t H)). cbn [bind]. rewrite (loglog_abs_ok _ _ _ _ (ok_itot t H)). cbn [bind].
  rewrite loglog_abs_ok by eauto. cbn [bind]. rewrite draw_ok by now rewrite map_length. cbn [bind]. eexists. reflexivity.
Qed.

Lemma combine_map_r {A B C} (g : B -> C) (l : list A) (l' : list B) :
  combine l (map g l') = map (fun q => (fst q, g (snd q))) (combine l l').
Proof. revert l'. induction l as [|a l IH]; intros [|b l']; cbn; [reflexivity..|]. now rewrite IH. Qed.

Lemma over_dIdP_ok t psd fs : regular t -> length psd = length fs ->
  over_dIdP t psd fs = Ok (map (fun q => fst q / rval (do p <- dIdP t (snd q); Ok (Cmod p ^ 2))) (combine psd fs)).
Proof.
  intros H L. unfold over_dIdP. rewrite (on_array_ok _ _ (ok_pow t H)). cbn [bind].
  assert (E : (match psd with [s] => repeat s (length fs) | _ => psd end) = psd).
  { destruct psd as [|s [|s' psd]]; [reflexivity| |reflexivity]. rewrite <- L. reflexivity. }
  rewrite E, map_length. rewrite (proj2 (Nat.eqb_eq _ _) L). rewrite combine_map_r, map_map. reflexivity.
Qed.

Lemma tp_ok fmt f psd t : regular t -> length (tl psd) = length (tl f) -> exists title, plot_tp fmt f psd t = Ok (shown_tp f psd t title).
Proof.
  intros H L. unfold plot_tp.
  rewrite (loglog_abs_ok _ _ _ _ (ok_ptes t H)). cbn [bind]. rewrite (loglog_abs_ok _ _ _ _ (ok_pload t H)). cbn [bind].
  rewrite loglog_abs_ok by eauto. cbn [bind]. rewrite (loglog_abs_ok _ _ _ _ (ok_ptot t H)). cbn [bind].
  rewrite (loglog_abs_ok _ _ _ _ (ok_psquid t H)). cbn [bind]. rewrite (over_dIdP_ok t _ _ H L). cbn [bind].
  rewrite draw_ok by (rewrite !map_length, combine_length, L; lia). cbn [bind]. eexists. unfold shown_tp.
  rewrite map_map. reflexivity.
Qed.
Lemma sc_ok fmt f psd t b : length (tl psd) = length (tl f) -> exists title, plot_sc fmt f psd t b = Ok (shown_sc f psd t title).
Proof.
  intros L. unfold plot_sc. rewrite draw_ok by now rewrite map_length. cbn [bind].
  rewrite !loglog_root_ok. cbn [bind]. eexists. reflexivity.
Qed.
Lemma n_ok fmt f psd t b : length (tl psd) = length (tl f) -> exists title, plot_n fmt f psd t b = Ok (shown_n f psd t title).
Proof.
  intros L. unfold plot_n. rewrite draw_ok by now rewrite map_length. cbn [bind].
  rewrite !loglog_root_ok. cbn [bind]. eexists. reflexivity.
Qed.

(** Failures *)
Lemma draw_err x y l : length x <> length y -> draw x y l = Err ValueError.
Proof. intros H. unfold draw. now rewrite (proj2 (Nat.eqb_neq _ _) H). Qed.
Lemma ti_irregular fmt f psd t : ~ regular t -> plot_ti fmt f psd t = Err ZeroDivisionError.
Proof. intros H. unfold plot_ti. now rewrite (loglog_abs_err _ _ _ _ _ (ites_err t 1 H)). Qed.
Lemma tp_irregular fmt f psd t : ~ regular t -> plot_tp fmt f psd t = Err ZeroDivisionError.
Proof.
  intros H. unfold plot_tp. rewrite (loglog_abs_err t s_ptes _ _ ZeroDivisionError); [reflexivity|].
  unfold s_ptes. now rewrite ites_err.
Qed.
Lemma ti_length fmt f psd t : regular t -> length (tl psd) <> length (tl f) -> plot_ti fmt f psd t = Err ValueError.
Proof.
  intros H L. unfold plot_ti.
  rewrite (loglog_abs_ok _ _ _ _ (ok_ites t H)). cbn [bind]. rewrite (loglog_abs_ok _ _ _ _ (ok_iload t H)). cbn [bind].
  rewrite (loglog_abs_ok _ _ _ _ (ok_itfn t H)). cbn [bind]. rewrite (loglog_abs_ok _ _ _ _ (ok_itot t H)). cbn [bind].
  rewrite loglog_abs_ok by eauto. cbn [bind]. rewrite draw_err; [reflexivity|]. rewrite map_length. auto.
Qed.
Lemma sc_length fmt f psd t b : length (tl psd) <> length (tl f) -> plot_sc fmt f psd t b = Err ValueError.
Proof. intros L. unfold plot_sc. rewrite draw_err; [reflexivity|]. rewrite map_length. auto. Qed.
Lemma n_length fmt f psd t b : length (tl psd) <> length (tl f) -> plot_n fmt f psd t b = Err ValueError.
Proof. intros L. unfold plot_n. rewrite draw_err; [reflexivity|]. rewrite map_length. auto. Qed.
Lemma tp_length fmt f psd t : regular t -> length (tl psd) <> length (tl f) -> length (tl psd) <> 1%nat ->
  plot_tp fmt f psd t = Err ValueError.
Proof.
  intros H L L1. unfold plot_tp.
  rewrite (loglog_abs_ok _ _ _ _ (ok_ptes t H)). cbn [bind]. rewrite (loglog_abs_ok _ _ _ _ (ok_pload t H)). cbn [bind].
  rewrite loglog_abs_ok by eauto. cbn [bind]. rewrite (loglog_abs_ok _ _ _ _ (ok_ptot t H)). cbn [bind].
  rewrite (loglog_abs_ok _ _ _ _ (ok_psquid t H)). cbn [bind].
  unfold over_dIdP. rewrite (on_array_ok _ _ (ok_pow t H)). cbn [bind].
  assert (E : (match tl psd with [s] => repeat s (length (tl f)) | _ => tl psd end) = tl psd).
  { destruct (tl psd) as [|s [|s' p]]; [reflexivity| |reflexivity]. exfalso. now apply L1. }
  rewrite E, map_length. rewrite (proj2 (Nat.eqb_neq _ _) L). reflexivity.
Qed.
(** A PSD of two entries: its second entry is drawn at every frequency. *)
Lemma tp_broadcast fmt f s0 s t : regular t -> exists a, plot_tp fmt f [s0; s] t = Ok a /\
  In (mkCurve (tl f) (map (fun x => msqrt (s / rval (do p <- dIdP t x; Ok (Cmod p ^ 2)))) (tl f)) (Some "Raw Data"%string)) (a_curves a).
Proof.
  intros H. unfold plot_tp.
  rewrite (loglog_abs_ok _ _ _ _ (ok_ptes t H)). cbn [bind]. rewrite (loglog_abs_ok _ _ _ _ (ok_pload t H)). cbn [bind].
  rewrite loglog_abs_ok by eauto. cbn [bind]. rewrite (loglog_abs_ok _ _ _ _ (ok_ptot t H)). cbn [bind].
  rewrite (loglog_abs_ok _ _ _ _ (ok_psquid t H)). cbn [bind tl].
  unfold over_dIdP. rewrite (on_array_ok _ _ (ok_pow t H)). cbn [bind].
  rewrite map_length, repeat_length, Nat.eqb_refl. cbn [bind].
  rewrite draw_ok by (rewrite !map_length, combine_length, repeat_length, map_length; lia). cbn [bind].
  eexists. split; [reflexivity|]. cbn [a_curves]. do 5 right. left. f_equal.
  induction (tl f) as [|x l IH]; [reflexivity|]. cbn [length repeat map combine]. now rewrite <- IH.
Qed.
