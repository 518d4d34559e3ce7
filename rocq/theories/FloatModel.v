(** * Binary64 arithmetic where a result depends on rounding

    IEEE binary64 as specified by the standard library (SpecFloat, 53 bits, emax 1024);
    used only for the few places where the code turns a float quotient into an integer. *)
From Coq Require Import ZArith List.
From Coq Require Export SpecFloat.
Import ListNotations.
Local Open Scope Z_scope.

(** The binary64 value nearest to an integer; conversions of Python ints at
    qetpy/core/_fitting.py:598, 691. *)
Definition fl (z : Z) : spec_float := binary_normalize 53 1024 z 0 false.
(** [x / y]; qetpy/core/_fitting.py:598. *)
Definition fdiv : spec_float -> spec_float -> spec_float := SFdiv 53 1024.
(** [x * y]; qetpy/core/_fitting.py:691. *)
Definition fmul : spec_float -> spec_float -> spec_float := SFmul 53 1024.
(** [x + y]; qetpy/core/_fitting.py:691. *)
Definition fadd : spec_float -> spec_float -> spec_float := SFadd 53 1024.

(** [int(x)]: truncation toward zero ([None]: nan or infinite, an exception);
    qetpy/core/_fitting.py:691-693. *)
Definition ftrunc (x : spec_float) : option Z :=
  match x with
  | S754_zero _ => Some 0
  | S754_finite sgn m e =>
      let a := if 0 <=? e then Z.pos m * 2 ^ e else Z.pos m / 2 ^ (- e) in
      Some (if sgn then - a else a)
  | _ => None
  end.

(** [np.ceil(x)] as an integer, the length rule of [np.arange];
    qetpy/core/_of_nsmb.py:1195. *)
Definition fceil (x : spec_float) : option Z :=
  match x with
  | S754_zero _ => Some 0
  | S754_finite sgn m e =>
      Some (if 0 <=? e then (if sgn then - (Z.pos m * 2 ^ e) else Z.pos m * 2 ^ e)
            else if sgn then - (Z.pos m / 2 ^ (- e)) else - ((- Z.pos m) / 2 ^ (- e)))
  | _ => None
  end.

(** [t1ind] for the first-pulse time [t1 = k / fs]; qetpy/core/_fitting.py:690-693,
    1291-1294 ([t1] as returned at 598). *)
Definition t1ind_float (nbins fs k : Z) : option Z :=
  let t1 := fdiv (fl k) (fl fs) in
  if SFltb t1 (fl 0) then ftrunc (fadd (fmul t1 (fl fs)) (fl nbins))
  else ftrunc (fmul t1 (fl fs)).

(** [np.floor(nbinsraw*dt/period)] for positive integer [fs], [sgfreq] (for a non-negative number
    the floor is the truncation); qetpy/core/didv/_base_didv.py:945, 960-961. *)
Definition nperiods_float (nbins fs sgfreq : Z) : option Z :=
  let dt := fdiv (fl 1) (fl fs) in
  let period := fdiv (fl 1) (fl sgfreq) in
  ftrunc (fdiv (fmul (fl nbins) dt) period).

(** [int(nperiods*fs/sgfreq)]; qetpy/core/didv/_base_didv.py:965. *)
Definition indmax_float (nbins fs sgfreq : Z) : option Z :=
  match nperiods_float nbins fs sgfreq with
  | Some np => ftrunc (fdiv (fmul (fl np) (fl fs)) (fl sgfreq))
  | None => None
  end.

(** Length of the index range of the flat part of period [i] (the offset [int(dt0*fs)] cancels);
    0.48 is the float nearest to 48/100; qetpy/core/didv/_base_didv.py:977, 985-992. *)
Definition flat_length_float (fs sgfreq i : Z) : option Z :=
  let p := fdiv (fl fs) (fl sgfreq) in
  let edge num := ftrunc (fmul (fadd (fl i) (fdiv (fl num) (fl 100))) p) in
  match edge 25, edge 48 with
  | Some lo, Some hi => Some (Z.max 0 (hi - lo))
  | _, _ => None
  end.
