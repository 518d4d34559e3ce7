(** * Model of qetpy/core/_of_nsmb.py

    Arrays over time or frequency are functions of the bin with the length as argument, matrices are
    functions of row and column.  [np.linalg.pinv] and [np.polyfit] are arguments.  Plots and the
    unused results are left out. *)
From Coq Require Import Reals ZArith List Bool Lia.
From Verif Require Import Base Dft UtilsModel WindowModel OFFreeModel.
From Coquelicot Require Import Coquelicot.
Import ListNotations.
Local Open Scope R_scope.

(** [A @ v], [sum(a*b)]; qetpy/core/_of_nsmb.py:434, 615, 623, 840, 956. *)
Definition mv (k : nat) (A : nat -> nat -> R) (v : nat -> R) : nat -> R := fun i => rsum k (fun j => A i j * v j).
Definition vdot (k : nat) (a b : nat -> R) : R := rsum k (fun i => a i * b i).

(** Number of signal templates: [np.expand_dims(stemplatet,1)] makes one column of a trace;
    qetpy/core/_of_nsmb.py:237-242. *)
Definition ns : nat := 1.

(** What [of_nsmb_setup] returns and the caller passes on (as the tests do, transposed where
    needed); qetpy/core/_of_nsmb.py:294. *)
Record setup := mkSetup {
  s_nt : nat;                        (* time bins *)
  s_psddnu : nat -> R;
  s_phi : nat -> nat -> C;           (* template, frequency *)
  s_Pfs : nat -> nat -> R;
  s_P : nat -> nat -> nat -> R;      (* template, template, delay *)
  s_tf : nat -> nat -> C;            (* template, frequency *)
  s_tt : nat -> nat -> R;            (* template, time *)
  s_iB : nat -> nat -> R;
  s_B : nat -> nat -> R;
  s_nb : nat;
  s_bitcomb : list (list bool);
  s_lfindex : nat
}.
Definition nsb (st : setup) : nat := (ns + s_nb st)%nat.

(** qetpy/core/_of_nsmb.py:11-46: template 0 is the signal. *)
Definition sb_time (s : nat -> R) (bs : list (nat -> R)) (k : nat) : nat -> R :=
  match k with O => s | S k => nth k bs (fun _ => 0) end.
Definition fftn (nt : nat) (x : nat -> R) (f : nat) : C :=
  (dft nt (fun t => RtoC (x t)) (Z.of_nat f) / RtoC (INR nt))%C.

(** qetpy/core/_of_nsmb.py:48-99. *)
Definition get_phi (tf : nat -> nat -> C) (psddnu : nat -> R) (r f : nat) : C := (Cconj (tf r f) / RtoC (psddnu f))%C.
Definition get_Pf (tf : nat -> nat -> C) (psddnu : nat -> R) (r c f : nat) : C := (get_phi tf psddnu r f * tf c f)%C.
Definition get_Pfs (nt : nat) (tf : nat -> nat -> C) (psddnu : nat -> R) (r c : nat) : R :=
  fst (csum nt (get_Pf tf psddnu r c)).

(** qetpy/core/_of_nsmb.py:260-284: the inverse transform, constant corners, symmetry. *)
Definition P_ifft (nt : nat) (Pf : nat -> nat -> nat -> C) (r c d : nat) : R :=
  fst (idft nt (Pf r c) (Z.of_nat d) * RtoC (INR nt))%C.
Definition P_corners (P : nat -> nat -> nat -> R) (r c d : nat) : R :=
  if Bool.eqb (r <? ns)%nat (c <? ns)%nat then P r c O else P r c d.
Definition P_sym (P : nat -> nat -> nat -> R) (r c d : nat) : R := if (c <? r)%nat then P c r d else P r c d.

(** [itertools.product([0,1],repeat=n)]; qetpy/core/_of_nsmb.py:290. *)
Fixpoint bitcombs (n : nat) : list (list bool) :=
  match n with O => [] :: nil | S n => map (cons false) (bitcombs n) ++ map (cons true) (bitcombs n) end.

(** [dnu]; qetpy/core/_of_nsmb.py:244-245. *)
Definition dnu (nt : nat) (fs : R) : R := 1 / (INR nt * (1 / fs)).

(** qetpy/core/_of_nsmb.py:179-294.  [bs] is the list of background templates.  One background:
    [np.squeeze(B)] is 0-dimensional, which [pinv] rejects. *)
Definition of_nsmb_setup (pinv : nat -> (nat -> nat -> R) -> nat -> nat -> R) (nt : nat) (s : nat -> R)
    (bs : list (nat -> R)) (psd : nat -> R) (fs : R) : res setup :=
  let nb := length bs in
  if Reqb fs 0 then Err ZeroDivisionError
  else if (nt =? 0)%nat then Err ZeroDivisionError
  else if (nt =? 1)%nat then Err IndexError
  else
    let psddnu := fun f => psd (if (f =? 0)%nat then 1%nat else f) * dnu nt fs in
    let tt := sb_time s bs in
    let tf := fun k => fftn nt (tt k) in
    let P := P_sym (P_corners (P_ifft nt (get_Pf tf psddnu))) in
    let B := fun i j => P_ifft nt (get_Pf tf psddnu) (ns + i)%nat (ns + j)%nat O in
    if (nb =? 1)%nat then Err LinAlgError
    else Ok (mkSetup nt psddnu (get_phi tf psddnu) (get_Pfs nt tf psddnu) P tf tt (pinv nb B) B nb
                     (bitcombs (ns + nb)) 500).

(** qetpy/core/_of_nsmb.py:297-329. *)
Definition of_nsmb_getiP (pinv : nat -> (nat -> nat -> R) -> nat -> nat -> R) (st : setup) (r c d : nat) : R :=
  pinv (nsb st) (fun i j => s_P st i j d) r c.

(** [pulsef], [qf], [qt]; qetpy/core/_of_nsmb.py:588-608, 799-822 and (background rows) 421-431. *)
Definition qf (st : setup) (pulse : nat -> R) (k f : nat) : C := (s_phi st k f * fftn (s_nt st) pulse f)%C.
Definition qt (st : setup) (pulse : nat -> R) (d k : nat) : R :=
  if (k <? ns)%nat then fst (idft (s_nt st) (qf st pulse k) (Z.of_nat d)) * INR (s_nt st)
  else fst (csum (s_nt st) (qf st pulse k)).

(** [np.real(np.sum(np.conj(x)/psddnu*x))] over the first [m] bins; qetpy/core/_of_nsmb.py:472-473,
    620, 658-659, 826, 1034-1035. *)
Definition chi2f (st : setup) (m : nat) (x : nat -> C) : R :=
  fst (csum m (fun f => Cconj (x f) / RtoC (s_psddnu st f) * x f)%C).
Definition lowbins (st : setup) (lfindex : nat) : nat := Nat.min lfindex (s_nt st).

(** [omega]; qetpy/core/_of_nsmb.py:579-584, 784-789. *)
Definition omega (nt : nat) (fs : R) (f : nat) : R :=
  let nu := INR f * dnu nt fs in
  2 * PI * (if Rltb (INR nt * dnu nt fs / 2) nu then nu - INR nt * dnu nt fs else nu).

(** The best fit in the time domain; qetpy/core/_of_nsmb.py:647-653, 1021-1028. *)
Definition fit_trace (st : setup) (fs : R) (a : nat -> R) (tdel : R) (t : nat) : R :=
  let phase := fun k f => if (k <? ns)%nat then cis (- (omega (s_nt st) fs f * tdel)) else RtoC 1 in
  fst (idft (s_nt st) (fun f => csum (nsb st) (fun k => RtoC (a k) * s_tf st k f * phase k f)) (Z.of_nat t)
       * RtoC (INR (s_nt st)))%C.

(** [(ind - nt*(ind>nt/2))*dt]; qetpy/core/_of_nsmb.py:644, 971. *)
Definition tdel_of (nt : nat) (fs : R) (ind : Z) : R :=
  IZR (ind - (if (Z.of_nat nt <? 2 * ind)%Z then Z.of_nat nt else 0)) * (1 / fs).

(** qetpy/core/_of_nsmb.py:627-634: the window array is changed in place. *)
Definition wrap_window (nt : nat) (w : list Z) : list Z :=
  map (fun i => let i := if (i <? 0)%Z then (Z.of_nat nt + i)%Z else i in
                if (Z.of_nat nt <=? i)%Z then (i mod Z.of_nat nt)%Z else i) w.

(** Column [ind] of an array over time bins with Python's negative indices (used after the index was
    checked); qetpy/core/_of_nsmb.py:643, 967, 1041-1043. *)
Definition col (nt : nat) (ind : Z) : nat := Z.to_nat (if (ind <? 0)%Z then ind + Z.of_nat nt else ind).

(** [np.amin(chi[w])], [w[:,np.argmin(chi[w])]]; qetpy/core/_of_nsmb.py:638-640, 962-964. *)
Definition window_min (chi : list R) (w : list Z) : res (R * Z) :=
  do vals <- take chi w;
  do b <- argmin vals;
  do i <- pyindex w (Z.of_nat b);
  Ok (nth b vals 0, i).

Record nsmb_out := mkOut {
  o_amp : nat -> R; o_tdel : R; o_chi2 : R; o_lf : R; o_resid : nat -> R;
  o_window : list Z (* the caller's window after the call *)
}.

(** qetpy/core/_of_nsmb.py:490-668.  Without background [np.squeeze] drops the template axis: the
    array of amplitudes is one-dimensional and cannot be indexed. *)
Definition of_nsmb (st : setup) (iP : nat -> nat -> nat -> R) (pulse : nat -> R) (fs : R) (window : list Z)
    (lfindex : nat) : res nsmb_out :=
  let nt := s_nt st in
  let K := nsb st in
  if Reqb fs 0 then Err ZeroDivisionError
  else
    let q := qt st pulse in
    let a := fun d => mv K (fun i j => iP i j d) (q d) in
    let chi := mk nt (fun d => chi2f st nt (fftn nt pulse) - vdot K (a d) (q d)) in
    let w := wrap_window nt window in
    if (s_nb st =? 0)%nat then (match w with [] => Err ValueError | _ => Err IndexError end)
    else
      do m <- window_min chi w;
      let amin := a (col nt (snd m)) in
      let tdel := tdel_of nt fs (snd m) in
      let resid := fun t => pulse t - fit_trace st fs amin tdel t in
      Ok (mkOut amin tdel (fst m) (chi2f st (lowbins st lfindex) (fftn nt resid)) resid w).

(** [_index_disallowed] for one entry; qetpy/core/_of_nsmb.py:1130-1166. *)
Definition disallowed (a c : R) : bool :=
  (Rltb a 0 && Reqb c 1) || (Rltb 0 a && Reqb c (-1)) || Reqb a 0.

(** The constraints as an array of length [k]: default zeros, arrays of other lengths are not
    broadcast (one entry is); qetpy/core/_of_nsmb.py:417-418, 791-797, 1155-1164. *)
Definition con_of (k : nat) (con : list R) : res (nat -> R) :=
  if (length con =? k)%nat then Ok (fun i => nth i con 0)
  else if (length con =? 1)%nat then Ok (fun _ => nth 0 con 0)
  else Err ValueError.

(** [np.squeeze(np.nonzero(mask))]; qetpy/core/_of_nsmb.py:152, 452, 878. *)
Definition indices (k : nat) (mask : nat -> bool) : list nat := filter mask (seq 0 k).

(** [a = np.zeros; a[np.ix_(idx)] = v]; qetpy/core/_of_nsmb.py:462-463, 885-887. *)
Fixpoint scatter (idx : list nat) (v : nat -> R) (i : nat) : R :=
  match idx with
  | [] => 0
  | j :: idx => if (i =? j)%nat then v O else scatter idx (fun x => v (S x)) i
  end.

Record mb_out := mkMb { b_amp : nat -> R; b_chi2 : R; b_lf : R }.

(** qetpy/core/_of_nsmb.py:332-487.  [np.ix_] of a 0-dimensional array (exactly one background left)
    raises ValueError. *)
Definition of_mb (pinv : nat -> (nat -> nat -> R) -> nat -> nat -> R) (st : setup) (pulse : nat -> R)
    (lfindex : nat) (bkgcon : option (list R)) : res mb_out :=
  let nt := s_nt st in
  let nb := s_nb st in
  let bsum := fun i => fst (csum nt (qf st pulse (ns + i))) in
  let a := mv nb (s_iB st) bsum in
  do con <- con_of nb (match bkgcon with Some c => c | None => repeat 0 nb end);
  let idx := indices nb (fun i => negb (disallowed (a i) (con i))) in
  let k := length idx in
  if (k =? 1)%nat then Err ValueError
  else
    let at_ := fun i => nth i idx O in
    let v := mv k (pinv k (fun i j => s_B st (at_ i) (at_ j))) (fun i => bsum (at_ i)) in
    let amp := scatter idx v in
    let resid := fun t => pulse t - rsum nb (fun i => s_tt st (ns + i)%nat t * amp i) in
    Ok (mkMb amp (chi2f st nt (fftn nt resid)) (chi2f st (lowbins st lfindex) (fftn nt resid))).

(** qetpy/core/_of_nsmb.py:101-177.  With exactly one index left, [indexbitmask] is 0-dimensional and
    indexing it raises IndexError (again in the handler). *)
Definition of_nsmb_getPt (pinv : nat -> (nat -> nat -> R) -> nat -> nat -> R) (st : setup) (d : nat)
    (mask : nat -> bool) : res (list nat * (nat -> nat -> R) * (nat -> nat -> R)) :=
  let n0 := if mask O then 1%nat else O in
  let idx := indices (nsb st) mask in
  let k := length idx in
  if (k =? 1)%nat then Err IndexError
  else
    let at_ := fun i => nth i idx O in
    let Pt := fun i j =>
      if Bool.eqb (i <? n0)%nat (j <? n0)%nat then s_Pfs st (at_ i) (at_ j)
      else if (i <? n0)%nat then s_P st (at_ i) (at_ j) d
      else s_P st (at_ j) (at_ i) d in
    Ok (idx, Pt, pinv k Pt).

(** [bitcomb[combind]]; qetpy/core/_of_nsmb.py:138-139. *)
Definition bitmask (st : setup) (combind : Z) : res (nat -> bool) :=
  do l <- pyindex (s_bitcomb st) combind; Ok (fun i => nth i l false).

(** Fit in the collapsed space; qetpy/core/_of_nsmb.py:874-887, 913-925, 939-950, and the sum at 956.
    Returns the expanded amplitudes and [sum(a*q)]. *)
Definition refit (pinv : nat -> (nat -> nat -> R) -> nat -> nat -> R) (st : setup) (d : nat) (q : nat -> R)
    (mask : nat -> bool) : res ((nat -> R) * R) :=
  do r <- of_nsmb_getPt pinv st d mask;
  let '(idx, Pt, iPt) := r in
  let k := length idx in
  let qm := fun i => q (nth i idx O) in
  let v := mv k iPt qm in
  Ok (scatter idx v, vdot k v qm).

(** Negative gradient at the point [b]; qetpy/core/_of_nsmb.py:855-862, 900-904, 1047-1053. *)
Definition neggrad (k : nat) (Pt : nat -> nat -> R) (b a : nat -> R) : nat -> R :=
  fun i => - mv k Pt (fun j => b j - a j) i.

(** 1 for the amplitudes that may float: not (in or on the border of the disallowed region with the
    gradient, at the closest allowed point, pointing into it); qetpy/core/_of_nsmb.py:842-870, 894-907. *)
Definition float_mask (k : nat) (Pt : nat -> nat -> R) (a cur con : nat -> R) (i : nat) : bool :=
  let b := fun j => if disallowed (cur j) (con j) then 0 else cur j in
  negb (disallowed (cur i) (con i) && disallowed (neggrad k Pt b a i) (con i)).

(** [np.array_equal]; qetpy/core/_of_nsmb.py:909, 935. *)
Definition mask_eq (k : nat) (m1 m2 : nat -> bool) : bool :=
  forallb (fun i => Bool.eqb (m1 i) (m2 i)) (seq 0 k).

(** One time bin of the polarity-constrained fit; qetpy/core/_of_nsmb.py:832-957. *)
Definition con_bin (pinv : nat -> (nat -> nat -> R) -> nat -> nat -> R) (st : setup) (q : nat -> nat -> R)
    (chi2base : R) (con : nat -> R) (d : nat) : res ((nat -> R) * R) :=
  let K := nsb st in
  do all <- bitmask st (2 ^ Z.of_nat K - 1);
  do r <- of_nsmb_getPt pinv st d all;
  let '(idx, Pt, iPt) := r in
  let a := mv K iPt (q d) in
  let m1 := float_mask K Pt a a con in
  do f1 <- refit pinv st d (q d) m1;
  let m2 := float_mask K Pt a (fst f1) con in
  do f2 <- (if mask_eq K m1 m2 then Ok f1 else refit pinv st d (q d) m2);
  let m3 := fun i => negb (disallowed (fst f2 i) (con i)) in
  do f3 <- (if mask_eq K m2 m3 then Ok f2 else refit pinv st d (q d) m3);
  Ok (fst f3, chi2base - snd f3).

(** [_interpchi2]; qetpy/core/_of_nsmb.py:1084-1128.  [polyfit] returns the coefficients of the
    parabola, highest power first; it raises TypeError for empty arrays.  [None]: division by a zero
    leading coefficient (nan). *)
Definition interpchi2 (polyfit : list R -> list R -> R * R * R) (ind : Z) (chi2 amp time : list R)
    : res (option (R * R * R)) :=
  let sl := fun l : list R => pyslice l (ind - 1) (ind + 2) in
  match sl time with
  | [] => Err TypeError
  | ts =>
      let '(z0, z1, z2) := polyfit ts (sl chi2) in
      let '(y0, y1, y2) := polyfit ts (sl amp) in
      if Reqb z0 0 then Ok None
      else let t := - z1 / (2 * z0) in
           Ok (Some (t, z0 * t ^ 2 + z1 * t + z2, y0 * t ^ 2 + y1 * t + y2))
  end.

(** [np.roll]; qetpy/core/_of_nsmb.py:993-994. *)
Definition rolled (nt : nat) (f : nat -> R) (i : nat) : R :=
  f (Z.to_nat ((Z.of_nat i - Z.of_nat nt / 2) mod Z.of_nat nt)).

(** Amplitude, chi2 and time of one extra window, plain and interpolated ([None]: nan);
    qetpy/core/_of_nsmb.py:997-1016.  A window of one bin is squeezed to a 0-dimensional array, which
    cannot be indexed. *)
Definition cwindow (polyfit : list R -> list R -> R * R * R) (nt : nat) (fs : R) (chi sig : nat -> R) (w : list Z)
    : res ((R * R * R) * option (R * R * R)) :=
  let chir := mk nt (rolled nt chi) in
  let sigr := mk nt (rolled nt sig) in
  match w with
  | i :: nil => do _ <- pyindex chir i; Err IndexError
  | _ =>
      do vals <- take chir w;
      do b <- argmin vals;
      do i <- pyindex w (Z.of_nat b);
      do a <- pyindex sigr i;
      let r := (a, nth b vals 0, IZR i * (1 / fs)) in
      if ((b =? 0)%nat || (b =? length w - 1)%nat) then Ok (r, Some r)
      else
        do av <- take sigr w;
        do z <- interpchi2 polyfit (Z.of_nat b) vals av (map (fun j => IZR j * (1 / fs)) w);
        Ok (r, match z with Some (t, c, a) => Some (a, c, t) | None => None end)
  end.

(** [sigpolarityconstraint]: None, an int (the documented type; [np.concatenate] rejects it) or an
    array; qetpy/core/_of_nsmb.py:791-797. *)
Inductive sigcon := SigNone | SigInt (z : Z) | SigArr (l : list R).

Record con_out := mkCon {
  c_amp : nat -> R; c_tdel : R; c_chi2 : R; c_lf : R; c_resid : nat -> R;
  c_windows : list ((R * R * R) * option (R * R * R));
  c_interp : option (R * R * R);  (* time, chi2, amplitude *)
  c_warning : bool                (* "bad boundary points" is printed *)
}.

(** qetpy/core/_of_nsmb.py:670-1082. *)
Definition of_nsmb_con (pinv : nat -> (nat -> nat -> R) -> nat -> nat -> R)
    (polyfit : list R -> list R -> R * R * R) (st : setup) (pulse : nat -> R) (fs : R) (windows : list (list Z))
    (lfindex : nat) (bkgcon : option (list R)) (sig : sigcon) : res con_out :=
  let nt := s_nt st in
  let K := nsb st in
  if Reqb fs 0 then Err ZeroDivisionError
  else
    do sc <- (match sig with SigNone => Ok (repeat 0 ns) | SigInt _ => Err ValueError | SigArr l => Ok l end);
    let bc := match bkgcon with Some c => c | None => repeat 0 (s_nb st) end in
    let q := qt st pulse in
    let chi2base := chi2f st nt (fftn nt pulse) in
    do con <- con_of K (sc ++ bc);
    do bins <- sequence (map (con_bin pinv st q chi2base con) (seq 0 nt));
    let amps := fun d => fst (nth d bins (fun _ => 0, 0)) in
    let chi := fun d => snd (nth d bins (fun _ => 0, 0)) in
    do w <- pyindex windows 0;
    do m <- window_min (mk nt chi) w;
    let ind := snd m in
    let amin := amps (col nt ind) in
    let tdel := tdel_of nt fs ind in
    do z <- interpchi2 polyfit ind (mk nt chi) (mk nt (fun d => amps d O)) (mk nt (fun d => INR d * (1 / fs)));
    let interp := match z with
                  | Some (t, c, a) =>
                      let l := INR nt * (1 / fs) in Some (t - (if Rltb (l / 2) t then l else 0), c, a)
                  | None => None end in
    do cw <- sequence (map (cwindow polyfit nt fs chi (fun d => amps d O)) (tl windows));
    let resid := fun t => pulse t - fit_trace st fs amin tdel t in
    do all <- bitmask st (2 ^ Z.of_nat K - 1);
    do r <- of_nsmb_getPt pinv st (col nt ind) all;
    let '(_, Pt, iPt) := r in
    let a := mv K iPt (q (col nt ind)) in
    let g := neggrad K Pt amin a in
    let bad := indices K (fun i => disallowed (amin i) (con i)) in
    let good := indices K (fun i => disallowed (amin i) (con i) && disallowed (g i) (con i)) in
    Ok (mkCon amin tdel (chi2f st nt (fftn nt resid)) (chi2f st (lowbins st lfindex) (fftn nt resid)) resid
              cw interp (negb (length bad =? length good)%nat)).
