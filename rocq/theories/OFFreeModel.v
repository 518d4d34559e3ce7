(** * Model of the free optimum-filter functions of qetpy/core/_fitting.py:1010-1582

    Same simplifications as OFModel.v; the psd additionally carries its length, because
    these functions check it. *)
From Verif Require Import Base UtilsModel Dft WindowModel OFModel.
Local Open Scope R_scope.

(** Outcomes of a list of calls; qetpy/core/_fitting.py:93,99. *)
Fixpoint sequence {A} (l : list (res A)) : res (list A) :=
  match l with
  | [] => Ok []
  | m :: l => do a <- m; do r <- sequence l; Ok (a :: r)
  end.

(** [_argmin_chi2] for a two-dimensional [chi2] without mask and with the default window
    centre, as called at qetpy/core/_fitting.py:1132-1135; body 64-108.  [None] is the
    single nan that is returned for an empty window. *)
Definition argmin_rows (n : nat) (chis : list (list R)) (nconstrain : option Z) (outside : bool)
  : res (option (list Z)) :=
  let nbins := Z.of_nat n in
  if negb ((- (nbins / 2) <=? 0)%Z && (0 <=? nbins / 2 - (nbins + 1) mod 2)%Z)
  then Err ValueError
  else
    match nconstrain with
    | Some nc =>
        do nc <- (if (nc >? nbins)%Z then Ok nbins
                  else if (nc <=? 0)%Z then Err ValueError else Ok nc);
        let inds := window_inds nbins nc 0 outside in
        match inds with
        | [] => Ok None
        | _ =>
            do bs <- sequence (map (fun row =>
              do vals <- take row inds;
              do b <- argmin vals;
              pyindex inds (Z.of_nat b)) chis);
            Ok (Some bs)
        end
    | None =>
        do bs <- sequence (map (fun row => do b <- argmin row; Ok (Z.of_nat b)) chis);
        Ok (Some bs)
    end.

(** [np.diag(x[:, bestind])]; qetpy/core/_fitting.py:1137-1138. *)
Definition diag_take (rows : list (list R)) (bs : list Z) : res (list R) :=
  do m <- sequence (map (fun row => take row bs) rows);
  sequence (map (fun i => match nth_error m i with
                          | Some row => pyindex row (Z.of_nat i)
                          | None => Err IndexError
                          end) (seq 0 (length m))).

(** [zip(amp, t0, chi2)]: the three returned arrays, entry by entry;
    qetpy/core/_fitting.py:1154-1162. *)
Fixpoint zip3 (a t c : list R) : list (R * R * R) :=
  match a, t, c with
  | x :: a, y :: t, z :: c => (x, y, z) :: zip3 a t c
  | _, _, _ => []
  end.

(** The filter quantities [s], [phi], [norm] common to the free functions;
    qetpy/core/_fitting.py:1089-1109 (also 1260-1278 and 1389-1406). *)
Definition free_s (n : nat) (template : nat -> R) (fs : R) (inorm : bool) : nat -> C :=
  template_ft n (fs / INR n) template inorm.
(** [phi]; qetpy/core/_fitting.py:1107. *)
Definition free_phi (n : nat) (template p : nat -> R) (fs : R) (ac inorm : bool) (k : nat) : C :=
  cdivp (Cconj (free_s n template fs inorm k)) (coupled_psd ac p k).
(** [norm]; qetpy/core/_fitting.py:1108. *)
Definition free_norm (n : nat) (template p : nat -> R) (fs : R) (ac inorm : bool) : R :=
  fst (cdot n (free_phi n template p fs ac inorm) (free_s n template fs inorm)) * (fs / INR n).
(** [signalfilt]; qetpy/core/_fitting.py:1109. *)
Definition free_filt (n : nat) (signal template p : nat -> R) (fs : R) (ac inorm : bool) (k : nat) : C :=
  (free_phi n template p fs ac inorm k * fftnorm n (fs / INR n) signal k
   / RtoC (free_norm n template p fs ac inorm))%C.
(** [np.einsum('ij,ij->i', v.conjugate() / psd, v)], one row; qetpy/core/_fitting.py:1121,1147. *)
Definition free_vv (n : nat) (signal p : nat -> R) (fs : R) (ac : bool) : C :=
  let v := fftnorm n (fs / INR n) signal in
  cdot n (fun k => cdivp (Cconj (v k)) (coupled_psd ac p k)) v.

(** [ofamp]; qetpy/core/_fitting.py:1079-1162.  One entry of the result per signal. *)
Definition ofamp (n : nat) (signals : list (nat -> R)) (template p : nat -> R) (psdlen : nat) (fs : R)
  (withdelay ac inorm : bool) (nc : option Z) (out : bool) : res (list (R * R * R)) :=
  let df := fs / INR n in
  if negb (psdlen =? n)%nat then Err ValueError
  else
    let norm := free_norm n template p fs ac inorm in
    let h := (Z.of_nat n / 2)%Z in
    if withdelay then
      let amps := map (fun sg => ifft_td n df (free_filt n sg template p fs ac inorm)) signals in
      let chi0 := map (fun sg => fst (free_vv n sg p fs ac * RtoC df)%C) signals in
      let chi := map (fun x => fun j => fst x - (snd x j) ^ 2 * norm) (combine chi0 amps) in
      let ampr := map (fun a => mk n (roll n h a)) amps in
      let chir := map (fun c => mk n (roll n h c)) chi in
      do b <- argmin_rows n chir nc out;
      match b with
      | None => Err IndexError
      | Some bs =>
          do amp <- diag_take ampr bs;
          do chi2 <- diag_take chir bs;
          Ok (zip3 amp (map (fun b => IZR (b - h) / fs) bs) chi2)
      end
    else
      Ok (map (fun sg =>
        let amp := fst (csum n (free_filt n sg template p fs ac inorm)) * df in
        let chi0 := fst (free_vv n sg p fs ac * RtoC df)%C in
        (amp, 0, chi0 - amp ^ 2 * norm)) signals).

(** The [sigma] returned with [lgcsigma=True]; qetpy/core/_fitting.py:1112-1113. *)
Definition ofamp_sigma (n : nat) (template p : nat -> R) (fs : R) (ac inorm : bool) : R :=
  1 / sqrt (fst (cdot n (free_phi n template p fs ac inorm) (free_s n template fs inorm)) * (fs / INR n)).

(** [times[b]] of [np.arange(-(n//2), n//2 + n%2) / fs]; qetpy/core/_fitting.py:1285, 1323. *)
Definition free_time (n : nat) (fs : R) (b : Z) : R :=
  IZR (- (Z.of_nat n / 2) + Z.of_nat (Z.to_nat b)) / fs.

(** [ofamp_pileup]; qetpy/core/_fitting.py:1241-1325. *)
Definition ofamp_pileup (n : nat) (signal template p : nat -> R) (psdlen : nat) (fs : R)
  (a1t1 : option R * option R) (ac : bool) (nc1 nc2 : option Z) (out : bool)
  : res (R * R * R * R * R) :=
  let df := fs / INR n in
  do at1 <- match a1t1 with
            | (Some a1, Some t1) => Ok (a1, t1)
            | _ =>
                do r <- ofamp n [signal] template p psdlen fs true ac false nc1 false;
                match r with
                | [(a1, t1, _)] => Ok (a1, t1)
                | _ => Err ValueError
                end
            end;
  let '(a1, t1) := at1 in
  if negb (psdlen =? n)%nat then Err ValueError
  else
    let norm := free_norm n template p fs ac false in
    let sf := ifft_td n df (free_filt n signal template p fs ac false) in
    let ttd := template_td n df (free_phi n template p fs ac false) (free_s n template fs false)
                 (fftfreq n fs) t1 in
    let a2s := fun j => sf j - a1 * ttd j / norm in
    let chi0 := fst (free_vv n signal p fs ac) * df in
    let chit := fun j => (a1 ^ 2 + a2s j ^ 2) * norm + 2 * a1 * a2s j * ttd j in
    do sf1 <- pyindex (mk n sf) (t1_index n fs t1);
    let chil := fun j => 2 * a1 * sf1 * norm + 2 * a2s j * sf j * norm in
    let chi := fun j => chi0 + chit j - chil j in
    let h := (Z.of_nat n / 2)%Z in
    let a2r := mk n (roll n h a2s) in
    let chir := mk n (roll n h chi) in
    do b <- argmin_chi2 chir nc2 out None 0;
    match b with
    | None => Err IndexError
    | Some b =>
        do a2 <- pyindex a2r b;
        do c <- pyindex chir b;
        Ok (a1, t1, a2, free_time n fs b, c)
    end.

(** The amplitudes of the free stationary fit, where [sf] is already multiplied by
    [norm]; qetpy/core/_fitting.py:1412-1428. *)
Definition free_stationary_amps (norm : R) (sf ttd : nat -> R) (j : nat) : R * R :=
  if (j =? 0)%nat then (sf 0%nat / (2 * norm ^ 2), sf 0%nat / (2 * norm ^ 2))
  else
    let denom := norm ^ 2 - ttd j ^ 2 in
    ((sf 0%nat * norm - sf j * ttd j) / denom, (sf j * norm - sf 0%nat * ttd j) / denom).

(** The chi-square per delay; qetpy/core/_fitting.py:1431-1440. *)
Definition free_stationary_chi (norm c0 : R) (sf ttd : nat -> R) (j : nat) : R :=
  let '(a1, a2) := free_stationary_amps norm sf ttd j in
  c0 + ((a1 ^ 2 + a2 ^ 2) * norm + 2 * a1 * a2 * ttd j)
     - (2 * a1 * sf 0%nat + 2 * a2 * sf j).

(** [ofamp_pileup_stationary]; qetpy/core/_fitting.py:1382-1458. *)
Definition free_pileup_stationary (n : nat) (signal template p : nat -> R) (psdlen : nat) (fs : R)
  (ac : bool) (nc : option Z) (out : bool) : res (R * R * R * R) :=
  let df := fs / INR n in
  if negb (psdlen =? n)%nat then Err ValueError
  else
    let norm := free_norm n template p fs ac false in
    let sf := fun j => ifft_td n df (free_filt n signal template p fs ac false) j * norm in
    let ttd := ifft_td n df (fun k => free_phi n template p fs ac false k * free_s n template fs false k)%C in
    let chi0 := fst (free_vv n signal p fs ac) * df in
    let h := (Z.of_nat n / 2)%Z in
    let amp := free_stationary_amps norm sf ttd in
    let a1r := mk n (roll n h (fun j => fst (amp j))) in
    let a2r := mk n (roll n h (fun j => snd (amp j))) in
    let chir := mk n (roll n h (free_stationary_chi norm chi0 sf ttd)) in
    do b <- argmin_chi2 chir nc out None 0;
    match b with
    | None => Err IndexError
    | Some b =>
        do a1 <- pyindex a1r b;
        do a2 <- pyindex a2r b;
        do c <- pyindex chir b;
        Ok (a1, a2, free_time n fs b, c)
    end.

(** [chi2lowfreq], for a batch of (signal, amp, t0); qetpy/core/_fitting.py:1504-1538. *)
Definition free_chi2lowfreq (n : nat) (sats : list ((nat -> R) * R * R)) (template p : nat -> R) (fs : R)
  (fcutoff : R) (ac : bool) : list R :=
  map (fun x => let '(sg, amp, t0) := x in
    lowfreq_sum n (fs / INR n) (fftnorm n (fs / INR n) sg) (fftnorm n (fs / INR n) template)
      (coupled_psd ac p) (fftfreq n fs) amp t0 fcutoff) sats.

(** [chi2_nopulse], for a batch; qetpy/core/_fitting.py:1568-1582. *)
Definition free_chi2_nopulse (n : nat) (signals : list (nat -> R)) (p : nat -> R) (fs : R) (ac : bool) : list R :=
  map (fun sg => fs / INR n *
    rsum n (fun k => rdivp (cn2 (fftnorm n (fs / INR n) sg k)) (coupled_psd ac p k))) signals.
