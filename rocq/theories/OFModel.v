(** * Model of the optimum filters of qetpy/core/_fitting.py (class OptimumFilter and
    the free functions)

    Simplifications: the arrays [signal], [template] and [psd] all have the length
    [nbins], and are modelled by functions of the bin number together with that length;
    arithmetic is exact ([fft]/[ifft] are the sums of Dft.v); an infinite entry of the
    psd is [None] and dividing a finite number by it gives 0. *)
From Verif Require Import Base UtilsModel Dft WindowModel.
Local Open Scope R_scope.

(** An entry of the psd, [None] being [np.inf]; qetpy/core/_fitting.py:238-242. *)
Definition psdval := option R.

(** Complex number divided by a psd entry; qetpy/core/_fitting.py:252, 404. *)
Definition cdivp (z : C) (p : psdval) : C :=
  match p with None => RtoC 0 | Some r => (z / RtoC r)%C end.

(** Real number divided by a psd entry; qetpy/core/_fitting.py:383, 436. *)
Definition rdivp (x : R) (p : psdval) : R :=
  match p with None => 0 | Some r => x / r end.

(** [fft(x) / nbins / df] for real [x]; qetpy/core/_fitting.py:247,255,338. *)
Definition fftnorm (n : nat) (df : R) (x : nat -> R) (k : nat) : C :=
  (dft n (fun j => RtoC (x j)) (Z.of_nat k) / RtoC (INR n) / RtoC df)%C.

(** [np.dot(a, b)] of complex vectors; qetpy/core/_fitting.py:253,404. *)
Definition cdot (n : nat) (a b : nat -> C) : C := csum n (fun k => a k * b k)%C.

(** The attributes of an OptimumFilter object, qetpy/core/_fitting.py:238-266
    ([templatefilt_td] is never used).  [None] is Python's None. *)
Record of_obj : Type := mkOF {
  psd : nat -> psdval; psd0 : R; nbins : nat; fs : R; df : R;
  s : nat -> C; phi : nat -> C; norm : R;
  v : nat -> C; signalfilt : nat -> C;
  chi0 : option R;
  chit_withdelay : option (nat -> R);
  amps_withdelay : option (nat -> R);
  chi_withdelay : option (nat -> R);
  signalfilt_td : option (nat -> R);
  times : option (nat -> R);
  freqs : option (nat -> R) }.

(** The psd with the coupling applied; qetpy/core/_fitting.py:238-242. *)
Definition coupled_psd (ac : bool) (p : nat -> R) (k : nat) : psdval :=
  if (ac && (k =? 0)%nat)%bool then None else Some (p k).

(** The transformed template; qetpy/core/_fitting.py:247-250. *)
Definition template_ft (n : nat) (df : R) (template : nat -> R) (integralnorm : bool) (k : nat) : C :=
  let s := fftnorm n df template in
  if integralnorm then (s k / s 0%nat)%C else s k.

(** [OptimumFilter.__init__]; qetpy/core/_fitting.py:238-266. *)
Definition of_init (n : nat) (signal template p : nat -> R) (fs : R) (ac integralnorm : bool) : of_obj :=
  let psd := coupled_psd ac p in
  let df := fs / INR n in
  let s := template_ft n df template integralnorm in
  let phi := fun k => cdivp (Cconj (s k)) (psd k) in
  let norm := fst (cdot n phi s) * df in
  let v := fftnorm n df signal in
  let signalfilt := fun k => (phi k * v k / RtoC norm)%C in
  mkOF psd (p 0%nat) n fs df s phi norm v signalfilt None None None None None None None.

(** [OptimumFilter.update_signal]; qetpy/core/_fitting.py:336-344. *)
Definition update_signal (signal : nat -> R) (o : of_obj) : of_obj :=
  let v' := fftnorm (nbins o) (df o) signal in
  mkOF (psd o) (psd0 o) (nbins o) (fs o) (df o) (s o) (phi o) (norm o)
    v' (fun k => phi o k * v' k / RtoC (norm o))%C
    None None None None None (times o) (freqs o).

(** A method: from the object to the changed object and the outcome;
    qetpy/core/_fitting.py:346-1008. *)
Definition M (A : Type) := of_obj -> of_obj * res A.
(** A value as a method result; qetpy/core/_fitting.py:407. *)
Definition ret {A} (a : A) : M A := fun o => (o, Ok a).
(** Sequencing; an exception keeps the attributes assigned so far;
    qetpy/core/_fitting.py:548-600. *)
Definition bindM {A B} (m : M A) (f : A -> M B) : M B :=
  fun o => match m o with (o', Ok a) => f a o' | (o', Err e) => (o', Err e) end.
(** A call that does not touch the object; qetpy/core/_fitting.py:573-584. *)
Definition lift {A} (r : res A) : M A := fun o => (o, r).
Notation "'get' x <- m ; f" := (bindM m (fun x => f))
  (at level 200, x name, m at level 100, f at level 200).

(** Assignments to the cached attributes; qetpy/core/_fitting.py:284, 403, 548-571, 677. *)
Definition set_chi0 (x : R) (o : of_obj) : of_obj :=
  mkOF (psd o) (psd0 o) (nbins o) (fs o) (df o) (s o) (phi o) (norm o) (v o) (signalfilt o)
    (Some x) (chit_withdelay o) (amps_withdelay o) (chi_withdelay o) (signalfilt_td o) (times o) (freqs o).
(** [self.chit_withdelay = ...]; qetpy/core/_fitting.py:561. *)
Definition set_chit (x : nat -> R) (o : of_obj) : of_obj :=
  mkOF (psd o) (psd0 o) (nbins o) (fs o) (df o) (s o) (phi o) (norm o) (v o) (signalfilt o)
    (chi0 o) (Some x) (amps_withdelay o) (chi_withdelay o) (signalfilt_td o) (times o) (freqs o).
(** [self.amps_withdelay = ...]; qetpy/core/_fitting.py:569-571. *)
Definition set_amps (x : nat -> R) (o : of_obj) : of_obj :=
  mkOF (psd o) (psd0 o) (nbins o) (fs o) (df o) (s o) (phi o) (norm o) (v o) (signalfilt o)
    (chi0 o) (chit_withdelay o) (Some x) (chi_withdelay o) (signalfilt_td o) (times o) (freqs o).
(** [self.chi_withdelay = ...]; qetpy/core/_fitting.py:566. *)
Definition set_chi (x : nat -> R) (o : of_obj) : of_obj :=
  mkOF (psd o) (psd0 o) (nbins o) (fs o) (df o) (s o) (phi o) (norm o) (v o) (signalfilt o)
    (chi0 o) (chit_withdelay o) (amps_withdelay o) (Some x) (signalfilt_td o) (times o) (freqs o).
(** [self.signalfilt_td = ...]; qetpy/core/_fitting.py:549. *)
Definition set_sftd (x : nat -> R) (o : of_obj) : of_obj :=
  mkOF (psd o) (psd0 o) (nbins o) (fs o) (df o) (s o) (phi o) (norm o) (v o) (signalfilt o)
    (chi0 o) (chit_withdelay o) (amps_withdelay o) (chi_withdelay o) (Some x) (times o) (freqs o).
(** [self.times = ...]; qetpy/core/_fitting.py:678. *)
Definition set_times (x : nat -> R) (o : of_obj) : of_obj :=
  mkOF (psd o) (psd0 o) (nbins o) (fs o) (df o) (s o) (phi o) (norm o) (v o) (signalfilt o)
    (chi0 o) (chit_withdelay o) (amps_withdelay o) (chi_withdelay o) (signalfilt_td o) (Some x) (freqs o).
(** [self.freqs = ...]; qetpy/core/_fitting.py:284. *)
Definition set_freqs (x : nat -> R) (o : of_obj) : of_obj :=
  mkOF (psd o) (psd0 o) (nbins o) (fs o) (df o) (s o) (phi o) (norm o) (v o) (signalfilt o)
    (chi0 o) (chit_withdelay o) (amps_withdelay o) (chi_withdelay o) (signalfilt_td o) (times o) (Some x).

(** [if self.x is None: self.x = ...]; qetpy/core/_fitting.py:283-284, 402-405. *)
Definition cached {A} (field : of_obj -> option A) (set : A -> of_obj -> of_obj)
  (compute : of_obj -> A) : M A :=
  fun o => match field o with
           | Some x => (o, Ok x)
           | None => let x := compute o in (set x o, Ok x)
           end.

(** [_check_freqs]; qetpy/core/_fitting.py:283-284. *)
Definition check_freqs : M (nat -> R) :=
  cached freqs set_freqs (fun o => fftfreq (nbins o) (fs o)).

(** [np.real(np.dot(v.conjugate() / psd, v) * df)]; qetpy/core/_fitting.py:402-405,
    480-483, 554-557. *)
Definition get_chi0 : M R :=
  cached chi0 set_chi0 (fun o =>
    fst (cdot (nbins o) (fun k => cdivp (Cconj (v o k)) (psd o k)) (v o) * RtoC (df o))%C).

(** [np.real(np.dot(v.conjugate() / psd, v)) * df]; qetpy/core/_fitting.py:683-686, 835-838. *)
Definition get_chi0' : M R :=
  cached chi0 set_chi0 (fun o =>
    fst (cdot (nbins o) (fun k => cdivp (Cconj (v o k)) (psd o k)) (v o)) * df o).

(** [np.real(ifft(x * nbins)) * df]; qetpy/core/_fitting.py:549-551, 669-675, 799-801. *)
Definition ifft_td (n : nat) (df : R) (x : nat -> C) (j : nat) : R :=
  fst (idft n (fun k => x k * RtoC (INR n))%C (Z.of_nat j)) * df.

(** [self.signalfilt_td]; qetpy/core/_fitting.py:548-551, 664-667, 794-797. *)
Definition get_sftd : M (nat -> R) :=
  cached signalfilt_td set_sftd (fun o => ifft_td (nbins o) (df o) (signalfilt o)).

(** [self.times]; qetpy/core/_fitting.py:677-680, 803-806: entry [j] of
    [np.arange(-(n//2), n//2 + n%2) / fs]. *)
Definition get_times : M (nat -> R) :=
  cached times set_times (fun o =>
    fun j => IZR (- (Z.of_nat (nbins o) / 2) + Z.of_nat j) / fs o).

(** [_interpolate_parabola]; qetpy/core/_fitting.py:294-305.  [vals[bestind + 1]] uses
    Python's index rules. *)
Definition interpolate_parabola (vals : list R) (bestind : Z) (delta : R) (t_interp : option R)
  : res (R * R) :=
  let sf := 1 / (2 * delta ^ 2) in
  do vp <- pyindex vals (bestind + 1);
  do v0 <- pyindex vals bestind;
  do vm <- pyindex vals (bestind - 1);
  let a := sf * (vp - 2 * v0 + vm) in
  let b := sf * delta * (vp - vm) in
  let c := sf * 2 * delta ^ 2 * v0 in
  let t := match t_interp with None => - b / (2 * a) | Some t => t end in
  Ok (t, a * t ^ 2 + b * t + c).

(** [_interpolate_of]; qetpy/core/_fitting.py:314-322. *)
Definition interpolate_of (amps chi2 : list R) (bestind : Z) (delta : R) : res (R * R * R) :=
  do r1 <- interpolate_parabola chi2 bestind delta None;
  do r2 <- interpolate_parabola amps bestind delta (Some (fst r1));
  Ok (snd r2, fst r1, snd r1).

(** [energy_resolution]; qetpy/core/_fitting.py:357. *)
Definition energy_resolution (o : of_obj) : R := 1 / sqrt (norm o).

(** [time_resolution]; qetpy/core/_fitting.py:379-387. *)
Definition time_resolution (amp : R) : M R :=
  get f <- check_freqs;
  fun o => (o, Ok (1 / sqrt (amp ^ 2 *
    rsum (nbins o) (fun k => rdivp ((2 * PI * f k) ^ 2 * cn2 (s o k)) (psd o k)) * df o))).

(** [chi2_nopulse]; qetpy/core/_fitting.py:402-407. *)
Definition m_chi2_nopulse : M R := get c <- get_chi0; ret c.

(** Partial chi-square [sum(chi2tot[|freqs| <= fcutoff])]; qetpy/core/_fitting.py:434-440. *)
Definition lowfreq_sum (n : nat) (df : R) (v s : nat -> C) (psd : nat -> psdval)
  (f : nat -> R) (amp t0 fcutoff : R) : R :=
  rsum n (fun k => if Rleb (Rabs (f k)) fcutoff
    then rdivp (df * cn2 (v k - RtoC amp * cis (-2 * PI * t0 * f k) * s k)%C) (psd k)
    else 0).

(** [chi2_lowfreq]; qetpy/core/_fitting.py:432-442. *)
Definition m_chi2_lowfreq (amp t0 fcutoff : R) : M R :=
  get f <- check_freqs;
  fun o => (o, Ok (lowfreq_sum (nbins o) (df o) (v o) (s o) (psd o) f amp t0 fcutoff)).

(** [ofamp_nodelay]; qetpy/core/_fitting.py:467-494. *)
Definition ofamp_nodelay (windowcenter : Z) : M (R * R) :=
  get amp <-
    (if negb (windowcenter =? 0)%Z then
       get f <- check_freqs;
       fun o => let t0 := IZR windowcenter / fs o in
         (o, Ok (fst (csum (nbins o) (fun k => signalfilt o k * cis (2 * PI * t0 * f k))%C) * df o))
     else fun o => (o, Ok (fst (csum (nbins o) (signalfilt o)) * df o)));
  get c0 <- get_chi0;
  fun o => (o, Ok (amp, c0 - amp ^ 2 * norm o)).

(** The final selection of a fit, qetpy/core/_fitting.py:586-600 (also 730-746 and
    993-1008): nan gives the given no-pulse chi-square; otherwise the values of the bin,
    interpolated or not. *)
Definition select_best (amps chi : list R) (bestind : option Z) (fs : R) (time : Z -> R)
  (chi_none : R) (interp : bool) : res (R * R * R) :=
  match bestind with
  | None => Ok (0, 0, chi_none)
  | Some b =>
      if interp then
        do r <- interpolate_of amps chi b (1 / fs);
        let '(amp, dt, chi2) := r in Ok (amp, time b + dt, chi2)
      else
        do a <- pyindex amps b;
        do c <- pyindex chi b;
        Ok (a, time b, c)
  end.

(** Arguments shared by the constrained fits; qetpy/core/_fitting.py:496-498. *)
Record fitargs : Type := mkArgs {
  nconstrain : option Z; outside : bool; direction : Z; wcenter : Z; interp_t0 : bool }.

(** [ofamp_withdelay]; qetpy/core/_fitting.py:548-600. *)
Definition ofamp_withdelay (a : fitargs) : M (R * R * R) :=
  get sf <- get_sftd;
  get c0 <- get_chi0;
  get chit <- cached chit_withdelay set_chit (fun o => fun j => sf j ^ 2 * norm o);
  get chi <- cached chi_withdelay set_chi (fun o =>
    roll (nbins o) (Z.of_nat (nbins o) / 2) (fun j => c0 - chit j));
  get amps <- cached amps_withdelay set_amps (fun o =>
    roll (nbins o) (Z.of_nat (nbins o) / 2) sf);
  fun o =>
    let n := nbins o in
    (o, do mask <- direction_mask (mk n amps) (direction a);
        do b <- argmin_chi2 (mk n chi) (nconstrain a) (outside a) mask (wcenter a);
        select_best (mk n amps) (mk n chi) b (fs o)
          (fun b => IZR (b - Z.of_nat n / 2) / fs o) c0 (interp_t0 a)).

(** [int(x)] of a float: truncation toward zero; qetpy/core/_fitting.py:690-693. *)
Definition int_trunc (x : R) : Z :=
  if Rltb x 0 then (- Int_part (- x))%Z else Int_part x.

(** [t1ind]; qetpy/core/_fitting.py:690-693, 1291-1294. *)
Definition t1_index (n : nat) (fs t1 : R) : Z :=
  if Rltb t1 0 then int_trunc (t1 * fs + INR n) else int_trunc (t1 * fs).

(** The filtered, shifted template; qetpy/core/_fitting.py:669-675. *)
Definition template_td (n : nat) (df : R) (phi s : nat -> C) (f : nat -> R) (t1 : R) : nat -> R :=
  ifft_td n df (fun k => cis (-2 * PI * f k * t1) * phi k * s k)%C.

(** [ofamp_pileup_iterative]; qetpy/core/_fitting.py:662-746. *)
Definition pileup_iterative (a1 t1 : R) (a : fitargs) : M (R * R * R) :=
  get f <- check_freqs;
  get sf <- get_sftd;
  get tm <- get_times;
  get c0 <- get_chi0';
  fun o =>
    let n := nbins o in
    let ttd := template_td n (df o) (phi o) (s o) f t1 in
    let a2s := fun j => sf j - a1 * ttd j / norm o in
    (o, do sf1 <- pyindex (mk n sf) (t1_index n (fs o) t1);
        let chit := a1 ^ 2 * norm o - 2 * a1 * sf1 * norm o in
        let chil := fun j => a2s j ^ 2 * norm o + 2 * a1 * a2s j * ttd j - 2 * a2s j * sf j * norm o in
        let chi := fun j => c0 + chit + chil j in
        let h := (Z.of_nat n / 2)%Z in
        let a2r := mk n (roll n h a2s) in
        let chir := mk n (roll n h chi) in
        do mask <- direction_mask a2r (direction a);
        do b <- argmin_chi2 chir (nconstrain a) (outside a) mask (wcenter a);
        select_best a2r chir b (fs o) (fun b => tm (Z.to_nat b)) (c0 + chit) (interp_t0 a)).

(** The amplitudes [a1s] and [a2s] per delay; qetpy/core/_fitting.py:808-832. *)
Definition stationary_amps (norm : R) (sf ttd : nat -> R) (j : nat) : R * R :=
  if (j =? 0)%nat then (sf 0%nat / (2 * norm), sf 0%nat / (2 * norm))
  else
    let denom := norm ^ 2 - ttd j ^ 2 in
    ((sf 0%nat * norm ^ 2 - sf j * norm * ttd j) / denom,
     (sf j * norm ^ 2 - sf 0%nat * norm * ttd j) / denom).

(** The chi-square per delay; qetpy/core/_fitting.py:840-850. *)
Definition stationary_chi (norm c0 : R) (sf ttd : nat -> R) (j : nat) : R :=
  let '(a1, a2) := stationary_amps norm sf ttd j in
  c0 + ((a1 ^ 2 + a2 ^ 2) * norm + 2 * a1 * a2 * ttd j)
     - (2 * a1 * sf 0%nat * norm + 2 * a2 * sf j * norm).

(** [ofamp_pileup_stationary]; qetpy/core/_fitting.py:794-870.  A nan index raises
    IndexError. *)
Definition pileup_stationary (nc : option Z) (outsidew : bool) (wc : Z) : M (R * R * R * R) :=
  get sf <- get_sftd;
  get tm <- get_times;
  get c0 <- get_chi0';
  fun o =>
    let n := nbins o in
    let ttd := ifft_td n (df o) (fun k => phi o k * s o k)%C in
    let h := (Z.of_nat n / 2)%Z in
    let amp := stationary_amps (norm o) sf ttd in
    let a1r := mk n (roll n h (fun j => fst (amp j))) in
    let a2r := mk n (roll n h (fun j => snd (amp j))) in
    let chir := mk n (roll n h (stationary_chi (norm o) c0 sf ttd)) in
    (o, do b <- argmin_chi2 chir nc outsidew None wc;
        match b with
        | None => Err IndexError
        | Some b =>
            do a1 <- pyindex a1r b;
            do a2 <- pyindex a2r b;
            do c <- pyindex chir b;
            Ok (a1, a2, tm (Z.to_nat b), c)
        end).

(** The quantities of the baseline fit that do not depend on the delay, and [b1];
    qetpy/core/_fitting.py:927-944. *)
Record basefit : Type := mkBF { bf_norm : R; bf_b1 : nat -> R; bf_b2 : R; bf_c1 : R; bf_c2 : R; bf_chi0 : R }.

(** [ofamp_baseline], first part; qetpy/core/_fitting.py:927-944 and 949-952. *)
Definition baseline_setup (o : of_obj) : basefit :=
  let n := nbins o in
  let d := 1 / df o in
  let phi' := match psd o 0%nat with
              | None => fun k => if (k =? 0)%nat then (s o 0%nat / RtoC (psd0 o))%C else phi o k
              | Some _ => phi o
              end in
  let norm' := match psd o 0%nat with
               | None => fst (cdot n phi' (s o)) * df o
               | Some _ => norm o
               end in
  let chi := rsum n (fun k => rdivp (cn2 (v o k)) (psd o k)) * df o in
  mkBF norm'
    (fun j => fst (idft n (fun k => phi' k * v o k)%C (Z.of_nat j)) * INR n * df o)
    (fst (phi' 0%nat * RtoC d)%C * df o)
    (fst (v o 0%nat * RtoC d / RtoC (psd0 o))%C * df o)
    (d ^ 2 / psd0 o * df o)
    (match psd o 0%nat with
     | None => chi + cn2 (v o 0%nat) / psd0 o * df o
     | Some _ => chi
     end).

(** [amps]; qetpy/core/_fitting.py:945. *)
Definition bf_amp (b : basefit) (j : nat) : R :=
  (bf_b1 b j * bf_c2 b - bf_b2 b * bf_c1 b) / (bf_norm b * bf_c2 b - bf_b2 b ^ 2).
(** [baselines]; qetpy/core/_fitting.py:947. *)
Definition bf_base (b : basefit) (j : nat) : R := (bf_c1 b - bf_amp b j * bf_b2 b) / bf_c2 b.
(** [chi2] of the joint fit; qetpy/core/_fitting.py:949-957. *)
Definition bf_chi2 (b : basefit) (j : nat) : R :=
  bf_chi0 b + -2 * (bf_amp b j * bf_b1 b j + bf_base b j * bf_c1 b) + bf_amp b j ^ 2 * bf_norm b
  + 2 * bf_amp b j * bf_base b j * bf_b2 b + bf_base b j ^ 2 * bf_c2 b.
(** [amps_out]; qetpy/core/_fitting.py:963. *)
Definition bf_amp_out (b : basefit) (bs : R) (j : nat) : R := (bf_b1 b j - bs * bf_b2 b) / bf_norm b.
(** [chi0] with the baseline; qetpy/core/_fitting.py:966-971. *)
Definition bf_chi0_out (b : basefit) (bs : R) : R := bf_chi0 b - 2 * bs * bf_c1 b + bs ^ 2 * bf_c2 b.
(** [chi2] with the fixed baseline; qetpy/core/_fitting.py:973-975. *)
Definition bf_chi2_out (b : basefit) (bs : R) (j : nat) : R :=
  bf_chi0_out b bs - 2 * bf_amp_out b bs j * bf_b1 b j + bf_amp_out b bs j ^ 2 * bf_norm b
  + 2 * bf_amp_out b bs j * bs * bf_b2 b.

(** [ofamp_baseline]; qetpy/core/_fitting.py:927-1008. *)
Definition ofamp_baseline (a : fitargs) : M (R * R * R) :=
  fun o =>
    let n := nbins o in
    let bf := baseline_setup o in
    (o, do bi <- argmin (mk n (bf_chi2 bf));
        let bs := bf_base bf bi in
        let h := (Z.of_nat n / 2)%Z in
        let amps := mk n (roll n h (bf_amp_out bf bs)) in
        let chi := mk n (roll n h (bf_chi2_out bf bs)) in
        do mask <- direction_mask amps (direction a);
        do b <- argmin_chi2 chi (nconstrain a) (outside a) mask (wcenter a);
        select_best amps chi b (fs o) (fun b => IZR (b - Z.of_nat n / 2) / fs o)
          (bf_chi0_out bf bs) (interp_t0 a)).

(** ** Sequences of public method calls (class OptimumFilter, qetpy/core/_fitting.py:148-1008) *)

(** A call of a public method with its arguments; qetpy/core/_fitting.py:324-872. *)
Inductive op : Type :=
| OpUpdate (signal : nat -> R)
| OpEnergyRes
| OpTimeRes (amp : R)
| OpNoPulse
| OpLowfreq (amp t0 fcutoff : R)
| OpNoDelay (wc : Z)
| OpWithDelay (a : fitargs)
| OpIterative (a1 t1 : R) (a : fitargs)
| OpStationary (nc : option Z) (outsidew : bool) (wc : Z)
| OpBaseline (a : fitargs).

(** The returned tuples as lists, so that all calls have one result type;
    qetpy/core/_fitting.py:357-1008. *)
Definition out1 (m : M R) : M (list R) := get x <- m; ret [x].
(** A returned pair; qetpy/core/_fitting.py:494. *)
Definition out2 (m : M (R * R)) : M (list R) := get x <- m; ret [fst x; snd x].
(** A returned triple; qetpy/core/_fitting.py:600, 746, 1008. *)
Definition out3 (m : M (R * R * R)) : M (list R) :=
  get x <- m; ret [fst (fst x); snd (fst x); snd x].
(** A returned quadruple; qetpy/core/_fitting.py:870. *)
Definition out4 (m : M (R * R * R * R)) : M (list R) :=
  get x <- m; ret [fst (fst (fst x)); snd (fst (fst x)); snd (fst x); snd x].

(** One call; qetpy/core/_fitting.py:324-1008. *)
Definition run (c : op) : M (list R) :=
  match c with
  | OpUpdate sg => fun o => (update_signal sg o, Ok [])
  | OpEnergyRes => fun o => (o, Ok [energy_resolution o])
  | OpTimeRes amp => out1 (time_resolution amp)
  | OpNoPulse => out1 m_chi2_nopulse
  | OpLowfreq amp t0 fc => out1 (m_chi2_lowfreq amp t0 fc)
  | OpNoDelay wc => out2 (ofamp_nodelay wc)
  | OpWithDelay a => out3 (ofamp_withdelay a)
  | OpIterative a1 t1 a => out3 (pileup_iterative a1 t1 a)
  | OpStationary nc out wc => out4 (pileup_stationary nc out wc)
  | OpBaseline a => out3 (ofamp_baseline a)
  end.

(** The object after a sequence of calls (exceptions caught by the caller);
    qetpy/core/_fitting.py:324-1008. *)
Definition run_all (cs : list op) (o : of_obj) : of_obj :=
  fold_left (fun o c => fst (run c o)) cs o.
