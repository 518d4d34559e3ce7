(** * A fitter: weighted least squares, and witnesses *)
From Verif Require Import Base ListLemmas UtilsModel OFFreeModel IvModel IvSpec IvProofs1 IvProofs2 IvProofs3 IvProofs4 IvProofs5.
From Coquelicot Require Import Coquelicot.
Local Open Scope R_scope.

(** Weighted sum over points *)
Definition wsum (pts : list (R * R * R)) (f : R -> R -> R) : R :=
  lsum (map (fun p => let '(x, y, s) := p in (/ s) ^ 2 * f x y) pts).

Lemma wsum_ext pts f g : (forall x y, f x y = g x y) -> wsum pts f = wsum pts g.
Proof. intros H. unfold wsum. f_equal. apply map_ext. intros [[x y] s]. now rewrite H. Qed.

Lemma wsum_lin pts a b f g : wsum pts (fun x y => a * f x y + b * g x y) = a * wsum pts f + b * wsum pts g.
Proof.
  unfold wsum, lsum. induction pts as [|[[x y] s] l IH]; cbn [map fold_right]; [ring|]. rewrite IH. ring.
Qed.

Lemma wsum_nonneg pts f : (forall x y, 0 <= f x y) -> 0 <= wsum pts f.
Proof.
  intros H. unfold wsum, lsum. induction pts as [|[[x y] s] l IH]; cbn [map fold_right]; [lra|].
  assert (0 <= (/ s) ^ 2 * f x y) by (apply Rmult_le_pos; [apply pow2_ge_0|apply H]). lra.
Qed.

Lemma wsum_zero pts f : (forall x y, 0 <= f x y) -> wsum pts f = 0 ->
  forall x y s, In (x, y, s) pts -> (/ s) ^ 2 * f x y = 0.
Proof.
  intros H Z x y s Hi. unfold wsum in Z.
  eapply (lsum_nonneg_zero _ _ (Req_le _ _ Z)). apply in_map_iff. exists (x, y, s). split; [reflexivity|exact Hi].
  Unshelve. intros v Hv. apply in_map_iff in Hv. destruct Hv as [[[a b] c] [<- _]].
  apply Rmult_le_pos; [apply pow2_ge_0|apply H].
Qed.

Lemma line_chi2_wsum pts b m : line_chi2 pts b m = wsum pts (fun x y => (m * x + b - y) ^ 2).
Proof. unfold line_chi2, wsum. f_equal. apply map_ext. intros [[x y] s]. unfold Rdiv. ring. Qed.

(** chi2 as a quadratic form in the two parameters *)
Lemma line_chi2_expand pts b m :
  line_chi2 pts b m = m ^ 2 * wsum pts (fun x _ => x ^ 2) + b ^ 2 * wsum pts (fun _ _ => 1) + wsum pts (fun _ y => y ^ 2)
    + 2 * m * b * wsum pts (fun x _ => x) - 2 * m * wsum pts (fun x y => x * y) - 2 * b * wsum pts (fun _ y => y).
Proof.
  rewrite line_chi2_wsum. unfold wsum, lsum. induction pts as [|[[x y] s] l IH]; cbn [map fold_right]; [ring|]. rewrite IH. ring.
Qed.

Definition wls (pts : list (R * R * R)) : linfit :=
  let S := wsum pts (fun _ _ => 1) in let Sx := wsum pts (fun x _ => x) in let Sy := wsum pts (fun _ y => y) in
  let Sxx := wsum pts (fun x _ => x ^ 2) in let Sxy := wsum pts (fun x y => x * y) in
  let D := S * Sxx - Sx ^ 2 in
  let cov := fun i j => match i, j with
    | O, O => Sxx / D | 1%nat, 1%nat => S / D | _, _ => - Sx / D end in
  if Reqb D 0 then mkFit (Sy / S) 0 cov
  else mkFit ((Sxx * Sy - Sx * Sxy) / D) ((S * Sxy - Sx * Sy) / D) cov.

Lemma wls_best pts : best_line pts (fb (wls pts)) (fm (wls pts)).
Proof.
  intros b' m'. unfold wls.
  set (S := wsum pts (fun _ _ => 1)). set (Sx := wsum pts (fun x _ => x)). set (Sy := wsum pts (fun _ y => y)).
  set (Sxx := wsum pts (fun x _ => x ^ 2)). set (Sxy := wsum pts (fun x y => x * y)).
  assert (HS : 0 <= S) by (apply wsum_nonneg; intros; lra).
  destruct (Reqb_spec (S * Sxx - Sx ^ 2) 0) as [Z|N]; cbn [fb fm].
  - destruct (Req_dec S 0) as [S0|S0].
    + (* no weight at all *)
      assert (W : forall f, wsum pts f = 0).
      { intros f. assert (A : forall x y s, In (x, y, s) pts -> (/ s) ^ 2 * 1 = 0) by (apply (wsum_zero pts (fun _ _ => 1)); [intros; lra|exact S0]).
        unfold wsum, lsum. clear -A. induction pts as [|[[x y] s] l IH]; cbn [map fold_right]; [reflexivity|].
        rewrite IH by (intros; eapply A; right; eassumption).
        assert (B := A x y s (or_introl eq_refl)). rewrite Rmult_1_r in B. rewrite B. ring. }
      rewrite !line_chi2_wsum, !W. lra.
    + set (xm := Sx / S).
      assert (V : wsum pts (fun x _ => (x - xm) ^ 2) = 0).
      { assert (Q : wsum pts (fun x _ => (x - xm) ^ 2) = Sxx - 2 * xm * Sx + xm ^ 2 * S).
        { unfold Sxx, Sx, S, wsum, lsum. generalize xm. intros u. clear.
          induction pts as [|[[x y] s] l IH]; cbn [map fold_right]; [ring|]. rewrite IH. ring. }
        rewrite Q. unfold xm. replace (Sxx - 2 * (Sx / S) * Sx + (Sx / S) ^ 2 * S) with ((S * Sxx - Sx ^ 2) / S) by (field; exact S0).
        rewrite Z. unfold Rdiv. ring. }
      assert (A := wsum_zero pts (fun x _ => (x - xm) ^ 2) ltac:(intros; apply pow2_ge_0) V). cbv beta in A.
      assert (C : forall b m, line_chi2 pts b m = wsum pts (fun _ y => (m * xm + b - y) ^ 2)).
      { intros b m. rewrite line_chi2_wsum. unfold wsum, lsum. clearbody xm. clear -A.
        induction pts as [|[[x y] s] l IH]; cbn [map fold_right]; [reflexivity|].
        rewrite IH by (intros; eapply A; right; eassumption). f_equal.
        assert (B := A x y s (or_introl eq_refl)). apply Rmult_integral in B. destruct B as [->|B]; [ring|].
        assert (x = xm). { destruct (Req_dec (x - xm) 0) as [E|E]; [lra|]. exfalso. apply (pow_nonzero _ 2 E). exact B. }
        now subst x. }
      rewrite !C.
      assert (Q : forall u, wsum pts (fun _ y => (u - y) ^ 2) = u ^ 2 * S - 2 * u * Sy + wsum pts (fun _ y => y ^ 2)).
      { intros u. unfold Sy, S, wsum, lsum. clear. induction pts as [|[[x y] s] l IH]; cbn [map fold_right]; [ring|]. rewrite IH. ring. }
      rewrite !Q. set (u := m' * xm + b').
      assert (P : 0 <= S * (u - Sy / S) ^ 2) by (apply Rmult_le_pos; [exact HS|apply pow2_ge_0]).
      replace (S * (u - Sy / S) ^ 2) with (u ^ 2 * S - 2 * u * Sy + Sy ^ 2 / S) in P by (field; exact S0).
      replace ((0 * xm + Sy / S) ^ 2 * S - 2 * (0 * xm + Sy / S) * Sy) with (- (Sy ^ 2 / S)) by (field; exact S0). lra.
  - rewrite !line_chi2_expand. fold S Sx Sy Sxx Sxy.
    set (D := S * Sxx - Sx ^ 2) in *. set (b := (Sxx * Sy - Sx * Sxy) / D). set (m := (S * Sxy - Sx * Sy) / D).
    assert (P : 0 <= wsum pts (fun x _ => ((m' - m) * x + (b' - b)) ^ 2)) by (apply wsum_nonneg; intros; apply pow2_ge_0).
    assert (Q : wsum pts (fun x _ => ((m' - m) * x + (b' - b)) ^ 2) = (m' - m) ^ 2 * Sxx + 2 * (m' - m) * (b' - b) * Sx + (b' - b) ^ 2 * S).
    { unfold Sxx, Sx, S, wsum, lsum. generalize (m' - m) (b' - b). intros u v. clear.
      induction pts as [|[[x y] s] l IH]; cbn [map fold_right]; [ring|]. rewrite IH. ring. }
    rewrite Q in P.
    assert (N1 : m * Sxx + b * Sx = Sxy). { unfold m, b, D in *. field. exact N. }
    assert (N2 : m * Sx + b * S = Sy). { unfold m, b, D in *. field. exact N. }
    rewrite <- N1, <- N2 at 1. rewrite <- N1, <- N2.
    match goal with |- ?l <= ?r => replace r with (l + ((m' - m) ^ 2 * Sxx + 2 * (m' - m) * (b' - b) * Sx + (b' - b) ^ 2 * S)) by ring end.
    lra.
Qed.

(** It always answers, with a best line. *)
Definition wls_fitter : fitter := fun pts => Ok (wls pts).

Lemma wls_fitter_total : total_fitter wls_fitter.
Proof. intros pts _. eexists. reflexivity. Qed.

Lemma wls_fitter_best pts p : wls_fitter pts = Ok p -> best_line pts (fb p) (fm p).
Proof. intros E. injection E as <-. apply wls_best. Qed.

(** ** Example arrays *)

Definition array (s : list nat) (l : list R) : nd := mkNd s (fun k => nth k l 0) (fun _ => false).

Lemma entry_array nc ni s l t c i : entry nc ni (array s l) t c i = nth ((t * nc + c) * ni + i)%nat l 0.
Proof. reflexivity. Qed.

Lemma nan_array nc ni s l t c i : entry_nan nc ni (array s l) t c i = false.
Proof. reflexivity. Qed.

(** A fitter with a prescribed answer *)
Definition const_fitter (b m : R) (cov : nat -> nat -> R) : fitter := fun _ => Ok (mkFit b m cov).
Lemma const_total b m cov : total_fitter (const_fitter b m cov).
Proof. intros pts _. eexists. reflexivity. Qed.

(** A fitter that gives one answer for points containing abscissa 0, another one otherwise *)
Definition two_fitter (f g : linfit) : fitter :=
  fun pts => match pts with (x, _, _) :: _ => Ok (if Reqb x 0 then f else g) | [] => Ok g end.
Lemma two_total f g : total_fitter (two_fitter f g).
Proof. intros [|[[x y] s] l] H; eexists; reflexivity. Qed.
