(** * Proofs about the low-pass filter *)
From Verif Require Import Base ListLemmas Dft FilterModel FilterSpec.
From Coq Require Import Rtrigo1 Reals Lra List.
From Coquelicot Require Import Complex.
Local Open Scope R_scope.

(** ** Coefficients *)

Lemma butter1_facts wn g p : butter1 wn = Ok (g, p) ->
  0 < wn < 1 /\ exists t, t = tan (PI * wn / 2) /\ 0 < t /\ g = t / (1 + t) /\ p = (1 - t) / (1 + t).
Proof.
  unfold butter1. destruct (Rltb_spec 0 wn) as [H0|H0]; [|discriminate].
  destruct (Rltb_spec wn 1) as [H1|H1]; [|discriminate]. cbn [andb]. intros [= <- <-].
  split; [lra|]. exists (tan (PI * wn / 2)). split; [reflexivity|]. split; [|split; reflexivity].
  assert (HP := PI_RGT_0). apply tan_gt_0; nra.
Qed.

Lemma butter1_errors wn : (exists gp, butter1 wn = Ok gp) <-> 0 < wn < 1.
Proof.
  unfold butter1. split.
  - intros [gp H]. destruct (Rltb_spec 0 wn); [|discriminate].
    destruct (Rltb_spec wn 1); [|discriminate]. lra.
  - intros [H0 H1]. rewrite !Rltb_true by assumption. cbn [andb]. eauto.
Qed.

(** What the filter needs of its coefficients. *)
Definition unity (g p : R) : Prop := 0 < g < 1 /\ -1 < p < 1 /\ lfilter_zi g p = 1 - g /\ g + p = 1 - g.

Lemma butter1_unity wn g p : butter1 wn = Ok (g, p) -> unity g p.
Proof.
  intros H. destruct (butter1_facts wn g p H) as (_ & t & _ & Ht & -> & ->).
  assert (Hi : 0 < / (1 + t)) by (apply Rinv_0_lt_compat; lra).
  assert (E : t / (1 + t) = 1 - / (1 + t)) by (field; lra).
  assert (E2 : (1 - t) / (1 + t) = 2 * / (1 + t) - 1) by (field; lra).
  assert (Hlt : / (1 + t) < 1) by (rewrite <- Rinv_1; apply Rinv_lt_contravar; lra).
  unfold unity. rewrite E, E2. repeat split; try lra.
  unfold lfilter_zi. set (q := / (1 + t)) in *. field. lra.
Qed.

(** ** One pass *)

Lemma lfilter_length g p z x : length (lfilter g p z x) = length x.
Proof. revert z. induction x as [|v x IH]; intros z; cbn [lfilter length]; [reflexivity|]. now rewrite IH. Qed.

Lemma lfilter_within g p lo hi : unity g p -> 0 <= p -> forall x z,
  all_between lo hi x -> (1 - g) * lo <= z <= (1 - g) * hi -> all_between lo hi (lfilter g p z x).
Proof.
  intros (Hg & Hp & _ & Hs) Hp0. induction x as [|v x IH]; intros z Hx Hz; cbn [lfilter]; [intros w []|].
  assert (Hv : lo <= v <= hi) by (apply Hx; now left).
  assert (Hy : lo <= g * v + z <= hi) by nra.
  intros w [<-|Hw]; [exact Hy|]. revert w Hw. apply IH.
  - intros w Hw. apply Hx. now right.
  - rewrite <- Hs. nra.
Qed.

(** The filter commutes with an affine combination of two signals. *)
Lemma lfilter_affine g p a b c : unity g p ->
  let h := fun q : R * R => a * fst q + b * snd q + c in
  forall L z1 z2, exists M,
    length M = length L /\
    lfilter g p z1 (map fst L) = map fst M /\ lfilter g p z2 (map snd L) = map snd M /\
    lfilter g p (a * z1 + b * z2 + c * lfilter_zi g p) (map h L) = map h M.
Proof.
  intros (_ & _ & Hzi & Hs) h. rewrite Hzi. induction L as [|[u v] L IH]; intros z1 z2.
  - exists []. repeat split.
  - cbn [map lfilter fst snd].
    destruct (IH (g * u + p * (g * u + z1)) (g * v + p * (g * v + z2))) as (M & HL & E1 & E2 & E3).
    exists ((g * u + z1, g * v + z2) :: M). cbn [map length fst snd]. rewrite HL, E1, E2.
    split; [reflexivity|]. split; [reflexivity|]. split; [reflexivity|].
    assert (Ey : g * h (u, v) + (a * z1 + b * z2 + c * (1 - g)) = h (g * u + z1, g * v + z2)).
    { unfold h. cbn [fst snd]. ring. }
    rewrite Ey. f_equal. rewrite <- E3. f_equal. unfold h. cbn [fst snd].
    replace (c * (1 - g)) with (c * (g + p)) by (rewrite Hs; ring). ring.
Qed.

(** ** Both passes *)

Lemma even_ext_map {A} (f : A -> R) e (l : list A) :
  even_ext e (map f l) = map f (rev (firstn e (skipn 1 l)) ++ l ++ firstn e (skipn 1 (rev l))).
Proof.
  unfold even_ext. rewrite !map_app, map_rev, <- !firstn_map, <- !skipn_map, map_rev. reflexivity.
Qed.

Lemma even_ext_length e x : (e < length x)%nat -> length (even_ext e x) = (e + (length x + e))%nat.
Proof.
  intros H. unfold even_ext.
  rewrite !app_length, rev_length, !firstn_length, !skipn_length, rev_length. lia.
Qed.

Lemma even_ext_In e x v : In v (even_ext e x) -> In v x.
Proof.
  assert (Hf : forall (l : list R) k, In v (firstn k l) -> In v l).
  { intros l k Hk. rewrite <- (firstn_skipn k l). apply in_or_app. now left. }
  assert (Hs : forall (l : list R) k, In v (skipn k l) -> In v l).
  { intros l k Hk. rewrite <- (firstn_skipn k l). apply in_or_app. now right. }
  unfold even_ext. rewrite !in_app_iff. intros [H|[H|H]]; [|exact H|].
  - apply in_rev in H. now apply Hf, Hs in H.
  - apply Hf, Hs in H. now apply in_rev.
Qed.

Lemma last_map {A B} (f : A -> B) l d e : l <> [] -> last (map f l) e = f (last l d).
Proof.
  induction l as [|a l IH]; intros H; [congruence|]. destruct l as [|b l]; [reflexivity|].
  change (last (map f (a :: b :: l)) e) with (last (map f (b :: l)) e). now rewrite IH.
Qed.

Lemma Ok_eq {A} (a b : A) : Ok a = Ok b -> b = a.
Proof. intros H. congruence. Qed.

Lemma filtfilt_length g p x y : filtfilt g p x = Ok y -> length y = length x.
Proof.
  unfold filtfilt. destruct (Nat.leb_spec (length x) 6) as [H|H]; [discriminate|].
  intros E. apply Ok_eq in E. rewrite E, firstn_length, skipn_length, rev_length, lfilter_length, rev_length,
    lfilter_length, even_ext_length by exact H. lia.
Qed.

Lemma filtfilt_ok g p x : (6 < length x)%nat -> exists y, filtfilt g p x = Ok y.
Proof. intros H. unfold filtfilt. destruct (Nat.leb_spec (length x) 6) as [H'|_]; [lia|]. eauto. Qed.

Lemma filtfilt_short g p x : (length x <= 6)%nat -> filtfilt g p x = Err ValueError.
Proof. intros H. unfold filtfilt. destruct (Nat.leb_spec (length x) 6) as [_|H']; [reflexivity|lia]. Qed.

Lemma filtfilt_affine g p a b c L : unity g p -> (6 < length L)%nat ->
  let h := fun q : R * R => a * fst q + b * snd q + c in
  exists M, length M = length L /\ filtfilt g p (map fst L) = Ok (map fst M) /\
    filtfilt g p (map snd L) = Ok (map snd M) /\ filtfilt g p (map h L) = Ok (map h M).
Proof.
  intros Hu HL h. unfold filtfilt. rewrite !map_length.
  destruct (Nat.leb_spec (length L) 6) as [H|_]; [lia|].
  rewrite !even_ext_map.
  set (E := rev (firstn 6 (skipn 1 L)) ++ L ++ firstn 6 (skipn 1 (rev L))).
  assert (HE : E <> []).
  { unfold E. destruct L as [|q L]; [simpl in HL; lia|]. intros F. apply app_eq_nil in F.
    destruct F as [_ F]. discriminate. }
  destruct E as [|e0 E'] eqn:EE; [congruence|]. rewrite <- EE in *. clear HE.
  assert (Hhd : forall f : R * R -> R, hd 0 (map f E) = f e0) by (intros f; now rewrite EE).
  rewrite !Hhd. set (zi := lfilter_zi g p).
  destruct (lfilter_affine g p a b c Hu E (zi * fst e0) (zi * snd e0)) as (M1 & L1 & A1 & A2 & A3).
  assert (Ez : a * (zi * fst e0) + b * (zi * snd e0) + c * lfilter_zi g p = zi * h e0).
  { unfold h, zi. ring. }
  rewrite Ez in A3. rewrite A1, A2. fold h in A3. rewrite A3.
  assert (HM1 : M1 <> []).
  { intros ->. rewrite EE in L1. discriminate. }
  rewrite !(last_map _ M1 (0, 0)) by exact HM1. rewrite <- !map_rev.
  destruct (lfilter_affine g p a b c Hu (rev M1) (zi * fst (last M1 (0, 0))) (zi * snd (last M1 (0, 0))))
    as (M2 & L2 & B1 & B2 & B3).
  assert (Ez2 : a * (zi * fst (last M1 (0, 0))) + b * (zi * snd (last M1 (0, 0))) + c * lfilter_zi g p
                = zi * h (last M1 (0, 0))).
  { unfold h, zi. ring. }
  rewrite Ez2 in B3. rewrite B1, B2. fold h in B3. rewrite B3.
  exists (firstn (length L) (skipn 6 (rev M2))). rewrite <- !map_rev, !skipn_map, !firstn_map.
  split; [|repeat split].
  rewrite firstn_length, skipn_length, rev_length, L2, rev_length, L1. clear - HL.
  assert (length E = length L + 12)%nat as ->; [|lia].
  unfold E. rewrite !app_length, rev_length, !firstn_length, !skipn_length, rev_length. lia.
Qed.

Theorem filtfilt_combination g p a b c x y : unity g p -> length x = length y -> (6 < length x)%nat ->
  exists x' y', filtfilt g p x = Ok x' /\ filtfilt g p y = Ok y' /\
    filtfilt g p (combination a b c x y) = Ok (combination a b c x' y').
Proof.
  intros Hu HL H6.
  assert (Hc : length (combine x y) = length x) by (rewrite combine_length; lia).
  destruct (filtfilt_affine g p a b c (combine x y) Hu ltac:(lia)) as (M & HM & E1 & E2 & E3).
  assert (Hf : map fst (combine x y) = x).
  { clear - HL. revert y HL. induction x as [|u x IH]; intros [|v y] HL; try discriminate; [reflexivity|].
    cbn. f_equal. apply IH. now injection HL. }
  assert (Hs : map snd (combine x y) = y).
  { clear - HL. revert y HL. induction x as [|u x IH]; intros [|v y] HL; try discriminate; [reflexivity|].
    cbn. f_equal. apply IH. now injection HL. }
  rewrite Hf in E1. rewrite Hs in E2. exists (map fst M), (map snd M).
  split; [exact E1|]. split; [exact E2|]. unfold combination. rewrite E3. do 2 f_equal.
  clear. induction M as [|[u v] M IH]; [reflexivity|]. cbn. now rewrite <- IH.
Qed.

Theorem filtfilt_within g p lo hi x y : unity g p -> 0 <= p -> all_between lo hi x ->
  filtfilt g p x = Ok y -> all_between lo hi y.
Proof.
  intros Hu Hp Hx. unfold filtfilt. destruct (Nat.leb_spec (length x) 6) as [H|H]; [discriminate|].
  intros Ey. apply Ok_eq in Ey. subst y. assert (Hzi : lfilter_zi g p = 1 - g) by apply Hu. rewrite Hzi.
  assert (Hg : 0 < 1 - g) by (destruct Hu as (? & _); lra).
  set (E := even_ext 6 x).
  assert (HE : all_between lo hi E).
  { intros v Hv. apply Hx. now apply even_ext_In in Hv. }
  assert (LE : (0 < length E)%nat) by (unfold E; rewrite even_ext_length by exact H; lia).
  assert (H1 : all_between lo hi (lfilter g p ((1 - g) * hd 0 E) E)).
  { apply lfilter_within; auto. assert (lo <= hd 0 E <= hi).
    { apply HE. destruct E; [simpl in LE; lia|now left]. } nra. }
  set (Y := lfilter g p ((1 - g) * hd 0 E) E) in *.
  assert (LY : (0 < length Y)%nat) by (unfold Y; now rewrite lfilter_length).
  assert (H2 : all_between lo hi (lfilter g p ((1 - g) * last Y 0) (rev Y))).
  { apply lfilter_within; auto.
    - intros v Hv. apply H1. now apply in_rev.
    - assert (lo <= last Y 0 <= hi).
      { apply H1. destruct (@exists_last _ Y) as (l & e & ->).
        - intros ->. simpl in LY. lia.
        - rewrite last_last. apply in_or_app. right. now left. }
      nra. }
  intros v Hv. apply H2. apply in_rev.
  assert (Hf : forall (l : list R) k, In v (firstn k l) -> In v l).
  { intros l k Hk. rewrite <- (firstn_skipn k l). apply in_or_app. now left. }
  assert (Hs : forall (l : list R) k, In v (skipn k l) -> In v l).
  { intros l k Hk. rewrite <- (firstn_skipn k l). apply in_or_app. now right. }
  now apply Hf, Hs in Hv.
Qed.

(** ** lowpassfilter *)

Lemma lowpass_one x fc fs :
  lowpassfilter [x] fc fs =
  do ba <- butter1 (fc / (/ 2 * fs)); do y <- filtfilt (fst ba) (snd ba) x; Ok [y].
Proof. unfold lowpassfilter. destruct (butter1 _) as [ba|e]; reflexivity. Qed.

Lemma nyq_range fc fs : 0 < fs -> (0 < fc / (/ 2 * fs) < 1 <-> 0 < fc < fs / 2).
Proof.
  intros Hf. assert (Hi : 0 < / (/ 2 * fs)) by (apply Rinv_0_lt_compat; lra).
  assert (E : fc / (/ 2 * fs) * (fs / 2) = fc) by (field; lra). split; intros [H1 H2].
  - split; [nra|]. rewrite <- E. rewrite <- (Rmult_1_l (fs / 2)) at 2. apply Rmult_lt_compat_r; lra.
  - split.
    + apply Rmult_lt_0_compat; lra.
    + apply Rmult_lt_reg_r with (fs / 2); lra.
Qed.

Theorem lowpass_rows traces fc fs : 0 < fs -> 0 < fc < fs / 2 ->
  (forall tr, In tr traces -> (6 < length tr)%nat) ->
  exists out, lowpassfilter traces fc fs = Ok out /\ length out = length traces /\
    forall k, (k < length traces)%nat ->
      lowpassfilter [nth k traces []] fc fs = Ok [nth k out []] /\
      length (nth k out []) = length (nth k traces []).
Proof.
  intros Hf Hc Hl. apply nyq_range in Hc; [|exact Hf]. apply butter1_errors in Hc. destruct Hc as [[g p] Hb].
  assert (G : forall l, (forall tr, In tr l -> (6 < length tr)%nat) ->
     exists out, all_ok (map (filtfilt g p) l) = Ok out /\ length out = length l /\
     forall k, (k < length l)%nat -> filtfilt g p (nth k l []) = Ok (nth k out [])).
  { induction l as [|tr l IH]; intros H.
    - exists []. repeat split; auto. intros k Hk. simpl in Hk. lia.
    - destruct (filtfilt_ok g p tr) as [y Hy]; [apply H; now left|].
      destruct IH as (out & E & L & Hout); [intros; apply H; now right|].
      exists (y :: out). cbn [map all_ok]. rewrite Hy. cbn [bind]. rewrite E. cbn [bind length].
      split; [reflexivity|]. split; [now rewrite L|]. intros [|k] Hk; [exact Hy|]. cbn [nth]. apply Hout.
      simpl in Hk. lia. }
  destruct (G traces Hl) as (out & E & L & Hout). exists out.
  unfold lowpassfilter at 1. rewrite Hb. cbn [bind fst snd]. rewrite E. split; [reflexivity|]. split; [exact L|].
  intros k Hk. rewrite lowpass_one, Hb. cbn [bind fst snd]. rewrite Hout by exact Hk. cbn [bind].
  split; [reflexivity|]. apply filtfilt_length with g p. now apply Hout.
Qed.

Theorem lowpass_errors x fc fs : 0 < fs -> ~ (0 < fc < fs / 2) \/ (length x <= 6)%nat ->
  lowpassfilter [x] fc fs = Err ValueError.
Proof.
  intros Hf H. rewrite lowpass_one. destruct (butter1 (fc / (/ 2 * fs))) as [[g p]|e] eqn:E.
  - cbn [bind fst snd]. destruct H as [H|H].
    + exfalso. apply H. apply (nyq_range fc fs Hf). apply butter1_errors. eauto.
    + now rewrite filtfilt_short.
  - cbn [bind]. unfold butter1 in E. destruct (_ && _)%bool; congruence.
Qed.

Theorem lowpass_combination a b c x y fc fs :
  0 < fs -> 0 < fc < fs / 2 -> length x = length y -> (6 < length x)%nat ->
  exists x' y', lowpassfilter [x] fc fs = Ok [x'] /\ lowpassfilter [y] fc fs = Ok [y'] /\
    lowpassfilter [combination a b c x y] fc fs = Ok [combination a b c x' y'].
Proof.
  intros Hf Hc HL H6. apply nyq_range in Hc; [|exact Hf]. apply butter1_errors in Hc. destruct Hc as [[g p] Hb].
  destruct (filtfilt_combination g p a b c x y (butter1_unity _ _ _ Hb) HL H6) as (x' & y' & E1 & E2 & E3).
  exists x', y'. rewrite !lowpass_one, Hb. cbn [bind fst snd]. rewrite E1, E2, E3. repeat split.
Qed.

Theorem lowpass_constant c n fc fs : 0 < fs -> 0 < fc < fs / 2 -> (6 < n)%nat ->
  lowpassfilter [repeat c n] fc fs = Ok [repeat c n].
Proof.
  intros Hf Hc Hn.
  destruct (lowpass_combination 0 0 c (repeat 0 n) (repeat 0 n) fc fs Hf Hc eq_refl) as (x' & y' & E1 & E2 & E3).
  { now rewrite repeat_length. }
  assert (G : forall (u v : list R), length u = n -> length v = n -> combination 0 0 c u v = repeat c n).
  { clear. unfold combination. induction n as [|n IH]; intros [|a u] [|b v] Hu Hv; try discriminate; [reflexivity|].
    cbn [combine map repeat fst snd]. f_equal; [ring|]. apply IH; [now injection Hu|now injection Hv]. }
  rewrite G in E3 by apply repeat_length. rewrite E3. do 2 f_equal. apply G.
  - rewrite lowpass_one in E1. destruct (butter1 _) as [[g p]|]; [|discriminate]. cbn [bind fst snd] in E1.
    destruct (filtfilt g p (repeat 0 n)) as [z|] eqn:Ez; [|discriminate]. injection E1 as <-.
    rewrite (filtfilt_length _ _ _ _ Ez). apply repeat_length.
  - rewrite lowpass_one in E2. destruct (butter1 _) as [[g p]|]; [|discriminate]. cbn [bind fst snd] in E2.
    destruct (filtfilt g p (repeat 0 n)) as [z|] eqn:Ez; [|discriminate]. injection E2 as <-.
    rewrite (filtfilt_length _ _ _ _ Ez). apply repeat_length.
Qed.

Theorem lowpass_within lo hi x y fc fs : 0 < fs -> 0 < fc <= fs / 4 -> all_between lo hi x ->
  lowpassfilter [x] fc fs = Ok [y] -> all_between lo hi y.
Proof.
  intros Hf Hc Hx. rewrite lowpass_one. destruct (butter1 (fc / (/ 2 * fs))) as [[g p]|] eqn:Hb; [|discriminate].
  cbn [bind fst snd]. destruct (filtfilt g p x) as [z|] eqn:Ez; [|discriminate]. intros [= <-].
  refine (filtfilt_within g p lo hi x z (butter1_unity _ _ _ Hb) _ Hx Ez).
  destruct (butter1_facts _ _ _ Hb) as (Hw & t & Et & Ht & _ & ->).
  assert (t <= 1).
  { rewrite Et, <- tan_PI4. assert (HP := PI_RGT_0).
    assert (Hle : fc / (/ 2 * fs) <= / 2).
    { apply Rmult_le_reg_r with (fs / 2); [lra|]. replace (fc / (/ 2 * fs) * (fs / 2)) with fc by (field; lra). lra. }
    destruct Hle as [Hle|Hle].
    - left. apply tan_increasing; nra.
    - right. f_equal. rewrite Hle. field. }
  apply Rmult_le_pos; [lra|]. left. apply Rinv_0_lt_compat. lra.
Qed.

(** ** Frequency response *)

Lemma gain_eq g p w : Rabs p < 1 ->
  let e : C := (cos w, (- sin w)%R) in (gain g p w * (RtoC 1 - RtoC p * e) = RtoC g * (RtoC 1 + e))%C.
Proof.
  intros Hp e. unfold gain. fold e. field. intros H.
  apply (f_equal fst) in H as H1. apply (f_equal snd) in H as H2. unfold e in *. cbn in H1, H2.
  assert (Hc : p * cos w = 1) by lra.
  assert (Hle : Rabs (p * cos w) < 1).
  { rewrite Rabs_mult. assert (Rabs (cos w) <= 1) by (apply Rabs_le; apply COS_bound).
    assert (Hp0 := Rabs_pos p). assert (Hp3 := Rabs_pos (cos w)). nra. }
  rewrite Hc, Rabs_R1 in Hle. lra.
Qed.

Theorem lfilter_sinusoid g p w phi n : Rabs p < 1 ->
  let G := gain g p w in
  exists z, lfilter g p z (mk n (fun k => cos (phi + w * INR k)))
    = mk n (fun k => fst G * cos (phi + w * INR k) - snd G * sin (phi + w * INR k)).
Proof.
  intros Hp G. set (Z0 := fun th => (fst G - g) * cos th - snd G * sin th).
  assert (HG := gain_eq g p w Hp). cbv zeta in HG. fold G in HG.
  assert (H1 := f_equal fst HG). assert (H2 := f_equal snd HG). clear HG.
  destruct G as [Gr Gi]. cbn [fst snd] in *. unfold RtoC, Cmult, Cminus, Cplus, Copp in H1, H2. cbn [fst snd] in H1, H2.
  exists (Z0 phi). revert phi. induction n as [|n IH]; intros phi; [reflexivity|].
  assert (Hmk : forall f : nat -> R, mk (S n) f = f 0%nat :: mk n (fun k => f (S k))).
  { intros f. unfold mk. cbn [seq map]. f_equal. rewrite <- seq_shift, map_map. reflexivity. }
  rewrite !Hmk. cbn [lfilter]. replace (phi + w * INR 0) with phi by (simpl; ring).
  assert (Hy : g * cos phi + Z0 phi = Gr * cos phi - Gi * sin phi) by (unfold Z0; ring).
  rewrite Hy. f_equal.
  assert (Hz : g * cos phi + p * (Gr * cos phi - Gi * sin phi) = Z0 (phi + w)).
  { unfold Z0. rewrite cos_plus, sin_plus.
    assert (Hcs : cos w * cos w + sin w * sin w = 1) by (rewrite <- (sin2_cos2 w); unfold Rsqr; ring).
    (* multiply the defining equation by exp(i w) *)
    assert (B1 : Gr - g = p * (Gr * cos w + Gi * sin w) + g * cos w) by lra.
    assert (B2 : Gi = p * (Gi * cos w - Gr * sin w) - g * sin w) by lra.
    assert (K1 : g + p * Gr = (Gr - g) * cos w - Gi * sin w).
    { transitivity ((p * (Gr * cos w + Gi * sin w) + g * cos w) * cos w
                    - (p * (Gi * cos w - Gr * sin w) - g * sin w) * sin w); [|now rewrite <- B1, <- B2].
      transitivity ((g + p * Gr) * (cos w * cos w + sin w * sin w)); [rewrite Hcs; ring|ring]. }
    assert (K2 : p * Gi = (Gr - g) * sin w + Gi * cos w).
    { transitivity ((p * (Gr * cos w + Gi * sin w) + g * cos w) * sin w
                    + (p * (Gi * cos w - Gr * sin w) - g * sin w) * cos w); [|now rewrite <- B1, <- B2].
      transitivity (p * Gi * (cos w * cos w + sin w * sin w)); [rewrite Hcs; ring|ring]. }
    replace (g * cos phi + p * (Gr * cos phi - Gi * sin phi)) with ((g + p * Gr) * cos phi - (p * Gi) * sin phi) by ring.
    rewrite K1, K2. ring. }
  rewrite Hz.
  rewrite (mk_ext n _ (fun k => cos (phi + w + w * INR k))) by (intros k _; rewrite S_INR; f_equal; ring).
  rewrite IH. apply mk_ext. intros k _. rewrite S_INR. replace (phi + w + w * INR k) with (phi + w * (INR k + 1)) by ring.
  reflexivity.
Qed.

(** At the cut-off one pass halves the power... *)
Theorem gain_cutoff wn g p : butter1 wn = Ok (g, p) -> Cmod (gain g p (PI * wn)) ^ 2 = / 2.
Proof.
  intros Hb. destruct (butter1_facts wn g p Hb) as (Hw & t & Et & Ht & Eg & Ep).
  assert (HP := PI_RGT_0). set (x := PI * wn / 2) in *.
  assert (Ew : PI * wn = 2 * x) by (unfold x; field). rewrite Ew.
  assert (Hc : 0 < cos x) by (apply cos_gt_0; unfold x; nra).
  assert (Hs : sin x = t * cos x) by (rewrite Et; unfold tan; field; lra).
  assert (Hcs : cos x * cos x + sin x * sin x = 1) by (rewrite <- (sin2_cos2 x); unfold Rsqr; ring).
  assert (Hc2 : cos x * cos x = / (1 + t * t)).
  { rewrite Hs in Hcs. assert (0 < 1 + t * t) by nra. apply Rmult_eq_reg_r with (1 + t * t); [|lra].
    rewrite Rinv_l by lra. lra. }
  assert (C2 : cos (2 * x) = (1 - t * t) / (1 + t * t)).
  { rewrite cos_2a, Hs. replace (cos x * cos x - t * cos x * (t * cos x)) with ((1 - t * t) * (cos x * cos x)) by ring.
    rewrite Hc2. reflexivity. }
  assert (S2 : sin (2 * x) = 2 * t / (1 + t * t)).
  { rewrite sin_2a, Hs. replace (2 * (t * cos x) * cos x) with (2 * t * (cos x * cos x)) by ring. rewrite Hc2. reflexivity. }
  assert (Hq : 0 < 1 + t * t) by nra.
  assert (Hpa : Rabs p < 1).
  { assert (Hu := butter1_unity wn g p Hb). apply Rabs_def1; apply Hu. }
  assert (HG := gain_eq g p (2 * x) Hpa). cbv zeta in HG. rewrite C2, S2 in HG.
  set (G := gain g p (2 * x)) in *. clearbody G. rewrite <- cn2_Cmod.
  assert (H1 := f_equal fst HG). assert (H2 := f_equal snd HG). clear HG.
  destruct G as [Gr Gi]. cbn [fst snd] in *. unfold RtoC, Cmult, Cminus, Cplus, Copp in H1, H2. cbn [fst snd] in H1, H2.
  set (c := (1 - t * t) / (1 + t * t)) in *. set (s := 2 * t / (1 + t * t)) in *.
  assert (Hprod : (Gr ^ 2 + Gi ^ 2) * ((1 - p * c) ^ 2 + (p * s) ^ 2) = g ^ 2 * ((1 + c) ^ 2 + s ^ 2)).
  { transitivity ((Gr * (1 - p * c) - Gi * (p * s)) ^ 2 + (Gr * (p * s) + Gi * (1 - p * c)) ^ 2); [ring|].
    replace (Gr * (1 - p * c) - Gi * (p * s)) with (g * (1 + c)) by lra.
    replace (Gr * (p * s) + Gi * (1 - p * c)) with (- (g * s)) by lra. ring. }
  assert (HD : (1 - p * c) ^ 2 + (p * s) ^ 2 = 8 * t ^ 2 / ((1 + t) ^ 2 * (1 + t * t))).
  { rewrite Ep. unfold c, s. field. lra. }
  assert (HN : g ^ 2 * ((1 + c) ^ 2 + s ^ 2) = 4 * t ^ 2 / ((1 + t) ^ 2 * (1 + t * t))).
  { rewrite Eg. unfold c, s. field. lra. }
  rewrite HD, HN in Hprod.
  assert (Hk : 0 < t ^ 2 / ((1 + t) ^ 2 * (1 + t * t))).
  { apply Rmult_lt_0_compat; [nra|]. apply Rinv_0_lt_compat. nra. }
  set (k := t ^ 2 / ((1 + t) ^ 2 * (1 + t * t))) in *.
  replace (8 * t ^ 2 / ((1 + t) ^ 2 * (1 + t * t))) with (8 * k) in Hprod by (unfold k; field; lra).
  replace (4 * t ^ 2 / ((1 + t) ^ 2 * (1 + t * t))) with (4 * k) in Hprod by (unfold k; field; lra).
  unfold cn2. cbn [fst snd]. apply Rmult_eq_reg_r with (8 * k); [|lra].
  replace (Gr * Gr + Gi * Gi) with (Gr ^ 2 + Gi ^ 2) by ring. rewrite Hprod. field.
Qed.

Lemma butter1_quarter : butter1 (1 / (/ 2 * 4)) = Ok (/ 2, 0).
Proof.
  unfold butter1. rewrite !Rltb_true by lra. cbn [andb].
  replace (PI * (1 / (/ 2 * 4)) / 2) with (PI / 4) by field. rewrite tan_PI4. do 2 f_equal; field.
Qed.

(** ... so that the two passes of filtfilt halve the amplitude. *)
Theorem lowpass_quarter :
  lowpassfilter [ [1; 0; -1; 0; 1; 0; -1; 0; 1] ] 1 4 = Ok [ [/2; 0; -/2; 0; /2; 0; -/2; 0; /2] ].
Proof.
  rewrite lowpass_one.
  rewrite butter1_quarter. cbn [bind fst snd]. unfold filtfilt. cbn [length Nat.leb].
  cbn [even_ext firstn skipn rev app hd lfilter last].
  cbn [bind]. do 2 f_equal. unfold lfilter_zi.
  repeat (apply f_equal2; [lra|]). reflexivity.
Qed.

Lemma cos_quarter k : cos (PI / 2 * INR (k + 4)) = cos (PI / 2 * INR k).
Proof.
  rewrite plus_INR. replace (PI / 2 * (INR k + INR 4)) with (PI / 2 * INR k + 2 * INR 1 * PI) by (simpl; field).
  apply (cos_period _ 1).
Qed.

Theorem three_db_refuted : exists x y fc fs,
  0 < fc < fs / 2 /\ (6 < length x)%nat /\
  (forall k, (k < length x)%nat -> nth k x 0 = cos (2 * PI * fc / fs * INR k)) /\
  lowpassfilter [x] fc fs = Ok [y] /\
  forall k, (k < length x)%nat -> nth k y 0 = / 2 * nth k x 0.
Proof.
  exists [1; 0; -1; 0; 1; 0; -1; 0; 1], [/2; 0; -/2; 0; /2; 0; -/2; 0; /2], 1, 4.
  split; [lra|]. split; [simpl; lia|].
  replace (2 * PI * 1 / 4) with (PI / 2) by field.
  assert (C0 : cos (PI / 2 * INR 0) = 1) by (replace (PI / 2 * INR 0) with 0 by (simpl; ring); apply cos_0).
  assert (C1 : cos (PI / 2 * INR 1) = 0) by (replace (PI / 2 * INR 1) with (PI / 2) by (simpl; ring); apply cos_PI2).
  assert (C2 : cos (PI / 2 * INR 2) = -1) by (replace (PI / 2 * INR 2) with PI by (simpl; field); apply cos_PI).
  assert (C3 : cos (PI / 2 * INR 3) = 0) by (replace (PI / 2 * INR 3) with (3 * (PI / 2)) by (simpl; field); apply cos_3PI2).
  split; [|split; [exact lowpass_quarter|]].
  - intros k Hk. cbn [length] in Hk.
    destruct k as [|[|[|[|[|[|[|[|[|k]]]]]]]]]; try (exfalso; lia); cbn [nth]; symmetry; try assumption.
    + exact (eq_trans (cos_quarter 0) C0).
    + exact (eq_trans (cos_quarter 1) C1).
    + exact (eq_trans (cos_quarter 2) C2).
    + exact (eq_trans (cos_quarter 3) C3).
    + exact (eq_trans (cos_quarter 4) (eq_trans (cos_quarter 0) C0)).
  - intros k Hk. cbn [length] in Hk.
    destruct k as [|[|[|[|[|[|[|[|[|k]]]]]]]]]; try (exfalso; lia); cbn [nth]; lra.
Qed.
