(** * Proofs about the N-template plot *)
From Coq Require Import String Reals ZArith List Lia Lra Bool.
From Coquelicot Require Import Coquelicot.
From Verif Require Import Base ListLemmas Dft FilterModel FilterProofs2 NsmbModel NsmbSpec NsmbProofs1 NsmbProofs2
  NsmbPlotModel NsmbPlotSpec.
Import ListNotations.
Local Open Scope R_scope.

Lemma pyindex_mk {A} n (f : nat -> A) i : (i < n)%nat -> pyindex (mk n f) (Z.of_nat i) = Ok (f i).
Proof.
  intros H. unfold pyindex. destruct (Z.ltb_spec (Z.of_nat i) 0); [lia|].
  destruct (Z.ltb_spec (Z.of_nat i) 0); [lia|]. rewrite Nat2Z.id. unfold mk.
  rewrite nth_error_map. rewrite nth_error_nth' with (d := O) by now rewrite seq_length.
  rewrite seq_nth by exact H. reflexivity.
Qed.
Lemma pyindex_mk_neg {A} n (f : nat -> A) p : (0 < p <= n)%nat -> pyindex (mk n f) (- Z.of_nat p) = Ok (f (n - p)%nat).
Proof.
  intros H. rewrite <- (pyindex_mk n f (n - p)) by lia. unfold pyindex.
  destruct (Z.ltb_spec (- Z.of_nat p) 0); [|lia]. destruct (Z.ltb_spec (Z.of_nat (n - p)) 0); [lia|].
  rewrite mk_length.
  replace (- Z.of_nat p + Z.of_nat n)%Z with (Z.of_nat (n - p)) by lia. reflexivity.
Qed.
Lemma loop_ok {A} (f : nat -> res A) (g : nat -> A) l : (forall i, In i l -> f i = Ok (g i)) -> loop f l = Ok (map g l).
Proof.
  induction l as [|i l IH]; intros H; [reflexivity|]. cbn [loop map]. rewrite H by now left. cbn [bind].
  rewrite IH by (intros j Hj; apply H; now right). reflexivity.
Qed.
Lemma loop_mk {A} (f : nat -> res A) (g : nat -> A) n : (forall i, (i < n)%nat -> f i = Ok (g i)) -> loop f (seq 0 n) = Ok (mk n g).
Proof. intros H. apply loop_ok. intros i Hi. apply in_seq in Hi. apply H. lia. Qed.

Section Plot.
Variables (pinv : nat -> (nat -> nat -> R) -> nat -> nat -> R) (nt : nat) (s : nat -> R) (bs : list (nat -> R)) (psd : nat -> R) (fs : R).
Hypothesis Hnt : (2 <= nt)%nat.
Hypothesis Hfs : 0 < fs.
Hypothesis Hpsd : forall f, (1 <= f < nt)%nat -> 0 < psd f.
Let st := the_setup pinv nt s bs psd fs.

Lemma whole_bins (e : Z) : exists ind, tdel_of nt fs ind = IZR e / fs /\ (ind mod Z.of_nat nt = e mod Z.of_nat nt)%Z.
Proof.
  destruct (Z.ltb_spec (Z.of_nat nt) (2 * e)).
  - exists (e + Z.of_nat nt)%Z. split.
    + unfold tdel_of. destruct (Z.ltb_spec (Z.of_nat nt) (2 * (e + Z.of_nat nt))); [|lia].
      replace (e + Z.of_nat nt - Z.of_nat nt)%Z with e by lia. unfold Rdiv. now rewrite Rmult_1_l.
    + replace (e + Z.of_nat nt)%Z with (e + 1 * Z.of_nat nt)%Z by lia. apply Z.mod_add. lia.
  - exists e. split; [|reflexivity]. unfold tdel_of. destruct (Z.ltb_spec (Z.of_nat nt) (2 * e)); [lia|].
    rewrite Z.sub_0_r. unfold Rdiv. now rewrite Rmult_1_l.
Qed.
Lemma sb_model_mod a d e t : (d mod Z.of_nat nt = e mod Z.of_nat nt)%Z -> sb_model nt s bs a d t = sb_model nt s bs a e t.
Proof.
  intros H. unfold sb_model. do 4 f_equal. rewrite Zminus_mod, H, <- Zminus_mod. reflexivity.
Qed.

Lemma fit_trace_whole a e t : (t < nt)%nat -> fit_trace st fs a (IZR e / fs) t = sb_model nt s bs a e t.
Proof.
  intros Ht. destruct (whole_bins e) as [ind [<- H]]. unfold st. rewrite fit_trace_model by assumption.
  now apply sb_model_mod.
Qed.
Lemma fittott_model a e : fittott ns (length bs) nt fs (IZR e / fs) a (s_tf st) = mk nt (sb_model nt s bs a e).
Proof.
  unfold fittott, real_ifft. apply mk_ext. intros t Ht. rewrite <- fit_trace_whole by exact Ht. reflexivity.
Qed.
Lemma row_model a e k : (k < ns + length bs)%nat ->
  real_ifft nt (fit_row ns nt fs (IZR e / fs) a (s_tf st) k) =
  mk nt (match k with O => signal_part nt s a e | S k => bkg_part bs a k end).
Proof.
  intros Hk. unfold real_ifft. apply mk_ext. intros t Ht.
  set (a' := fun j => if (j =? k)%nat then a k else 0).
  transitivity (fit_trace st fs a' (IZR e / fs) t).
  - unfold fit_trace. cbn [s_nt s_nb s_tf st the_setup]. do 2 f_equal. apply idft_ext. intros f Hf.
    unfold nsb, st, the_setup. cbn [s_nt s_nb s_tf].
    rewrite (csum_single _ _ k).
    + unfold fit_row, a'. rewrite Nat.eqb_refl. reflexivity.
    + exact Hk.
    + intros j Hj Hn. unfold a'. destruct (Nat.eqb_spec j k); [contradiction|].
      change (RtoC 0 * stf nt s bs j f * (if (j <? ns)%nat then cis (- (omega nt fs f * (IZR e / fs))) else RtoC 1) = RtoC 0)%C. ring.
  - rewrite fit_trace_whole by exact Ht. unfold sb_model, a'. destruct k as [|k].
    + rewrite (rsum_ext _ _ (fun _ => 0)).
      * rewrite rsum_zero. cbn. unfold signal_part. ring.
      * intros k Hk2. cbn. ring.
    + rewrite (rsum_single _ _ k).
      * rewrite Nat.eqb_refl. cbn [Nat.eqb]. unfold bkg_part. ring.
      * unfold ns in Hk. lia.
      * intros j Hj Hn. destruct (Nat.eqb_spec (S j) (S k)); [lia|]. ring.
Qed.
Lemma fitt_model a e : fitt ns (length bs) nt fs (IZR e / fs) a (s_tf st) =
  mk (ns + length bs) (fun k => mk nt (match k with O => signal_part nt s a e | S k => bkg_part bs a k end)).
Proof. unfold fitt. apply mk_ext. intros k Hk. now apply row_model. Qed.

Hypothesis Hb : (2 <= length bs)%nat.
Lemma with_slope_dc_model a e k : (k < ns + length bs)%nat ->
  with_slope_dc nt (fitt ns (length bs) nt fs (IZR e / fs) a (s_tf st)) (Z.of_nat k) =
  Ok (mk nt (fun t => match k with O => signal_part nt s a e t | S k => bkg_part bs a k t end + last_two bs a t)).
Proof.
  intros Hk. rewrite fitt_model. unfold with_slope_dc. rewrite pyindex_mk by exact Hk. cbn [bind].
  change (-1)%Z with (- Z.of_nat 1)%Z. rewrite pyindex_mk_neg by (unfold ns; lia). cbn [bind].
  change (-2)%Z with (- Z.of_nat 2)%Z. rewrite pyindex_mk_neg by (unfold ns; lia). cbn [bind].
  f_equal. apply mk_ext. intros t Ht. rewrite !mk_nth by exact Ht. unfold last_two, ns.
  replace (1 + length bs - 1)%nat with (S (length bs - 1)) by lia.
  replace (1 + length bs - 2)%nat with (S (length bs - 2)) by lia. destruct k; ring.
Qed.

Lemma label_chi2 pulse a e :
  let r := fftn nt (fun t => pulse t - nth t (fittott ns (length bs) nt fs (IZR e / fs) a (s_tf st)) 0) in
  fst (csum nt (fun f => Cconj (r f) / RtoC (s_psddnu st f) * r f)%C)
  = trace_chi2 nt nt (bin_noise nt psd fs) (trace_minus pulse (sb_model nt s bs a e)).
Proof.
  intros r. unfold r. rewrite fittott_model. change (fst (csum nt _)) with (chi2f st nt (fftn nt (fun t => pulse t - nth t (mk nt (sb_model nt s bs a e)) 0))).
  unfold st. rewrite chi2f_trace by (try assumption; lia). apply trace_chi2_ext; try assumption.
  intros t Ht. unfold trace_minus. now rewrite mk_nth.
Qed.

(** What is drawn of the data *)
Definition data_shown (pulse : nat -> R) (lp : option R) (data : list ncurve) : Prop :=
  match lp with
  | None => data = [mkNc (mk nt pulse) (Some (NText "Data"))]
  | Some fc => exists y, lowpassfilter [mk nt pulse] fc fs = Ok [y] /\
      data = [mkNc y (Some (NText "Data (LP filtered)")); mkNc (mk nt pulse) (Some (NText "Data"))]
  end.

Lemma plot_shape pulse e a lp save xlim prefix shifts path data :
  data_shown pulse lp data -> (forall sh, shifts = Some sh -> (length bs <= length sh)%nat) ->
  plotnsmb pulse fs (IZR e / fs) a (s_tf st) ns (length bs) nt (s_psddnu st) lp save xlim prefix shifts path =
  Ok (mkNf (data ++ [mkNc (mk nt (sb_model nt s bs a e))
                      (Some (NChi2 (trace_chi2 nt nt (bin_noise nt psd fs) (trace_minus pulse (sb_model nt s bs a e)))))]
            ++ mk (length bs - 2) (fun k => mkNc (mk nt (fun t => bkg_part bs a k t + last_two bs a t))
                                              (if (k =? 0)%nat then Some (NText "Background Fit") else None))
            ++ (if Rltb (1 / 10 ^ 20) (Rabs (a O))
                then [mkNc (mk nt (fun t => signal_part nt s a e t + last_two bs a t)) (Some (NText "Signal Fit"))] else []))%list
         (match shifts with
          | None => []
          | Some sh => mk (length bs) (fun k => (nth k sh None, if (k =? 0)%nat then Some "Bckg. Start Times"%string else None)) end)
         xlim,
      if truthy save then Some (path ++ prefix ++ flag_str save ++ ".png")%string else None).
Proof.
  intros HD HS. unfold plotnsmb. rewrite Reqb_false by lra. destruct (Nat.eqb_spec nt 0) as [?|_]; [lia|].
  assert (L : loop (fun i => do y <- with_slope_dc nt (fitt ns (length bs) nt fs (IZR e / fs) a (s_tf st)) (Z.of_nat (ns + i));
                      Ok (mkNc y (first_label i (NText "Background Fit")))) (seq 0 (length bs - 2)) =
     Ok (mk (length bs - 2) (fun k => mkNc (mk nt (fun t => bkg_part bs a k t + last_two bs a t))
                                              (if (k =? 0)%nat then Some (NText "Background Fit") else None)))).
  { apply loop_mk. intros i Hi. rewrite with_slope_dc_model by (unfold ns; lia). reflexivity. }
  assert (V : match shifts with None => Ok [] | Some sh => loop (fun i => do x <- pyindex sh (Z.of_nat i);
                 Ok (x, first_label i "Bckg. Start Times"%string)) (seq 0 (length bs)) end
     = Ok (match shifts with
          | None => []
          | Some sh => mk (length bs) (fun k => (nth k sh None, if (k =? 0)%nat then Some "Bckg. Start Times"%string else None)) end)).
  { destruct shifts as [sh|]; [|reflexivity]. specialize (HS sh eq_refl). apply loop_mk. intros i Hi.
    unfold pyindex. destruct (Z.ltb_spec (Z.of_nat i) 0); [lia|]. destruct (Z.ltb_spec (Z.of_nat i) 0); [lia|].
    rewrite Nat2Z.id. rewrite nth_error_nth' with (d := None) by lia. reflexivity. }
  assert (S : (if Rltb (1 / 10 ^ 20) (Rabs (a O))
                   then do y <- with_slope_dc nt (fitt ns (length bs) nt fs (IZR e / fs) a (s_tf st)) 0; Ok [mkNc y (Some (NText "Signal Fit"))]
                   else Ok []) = Ok (if Rltb (1 / 10 ^ 20) (Rabs (a O))
                then [mkNc (mk nt (fun t => signal_part nt s a e t + last_two bs a t)) (Some (NText "Signal Fit"))] else [])).
  { destruct (Rltb _ _); [|reflexivity]. change 0%Z with (Z.of_nat 0). rewrite with_slope_dc_model by (unfold ns; lia). reflexivity. }
  destruct lp as [fc|].
  - destruct HD as (y & E & ->). rewrite E. cbn [bind nth]. rewrite L. cbn [bind].
    destruct (Nat.eqb_spec (ns + length bs) 0); [lia|]. rewrite S. cbn [bind]. rewrite V. cbn [bind].
    rewrite label_chi2, fittott_model. reflexivity.
  - cbn in HD. subst data. cbn [bind]. rewrite L. cbn [bind].
    destruct (Nat.eqb_spec (ns + length bs) 0); [lia|]. rewrite S. cbn [bind]. rewrite V. cbn [bind].
    rewrite label_chi2, fittott_model. reflexivity.
Qed.
End Plot.
