(** * Model of the background-template helpers of qetpy/core/_of_nsmb.py

    Numbers deciding lengths, counts and shifts are binary64 ([spec_float]); template values are
    reals.  [OverflowError] of [int(inf)] is reported as [ValueError]. *)
From Coq Require Import Reals ZArith List Bool Lia.
From Verif Require Import Base WindowModel FloatModel.
Import ListNotations.
Local Open Scope R_scope.

(** Length of [np.arange(0,1,1/nbin)]: ceil(1/(1/nbin)) in binary64;
    qetpy/core/_of_nsmb.py:1195, 1293. *)
Definition arange01_len (nbin : Z) : option Z := fceil (fdiv (fl 1) (fdiv (fl 1) (fl nbin))).

(** [column[:] = x] for a column of [nbin] entries: one entry is broadcast, any other length than
    [nbin] does not fit; qetpy/core/_of_nsmb.py:1195, 1281-1284, 1293. *)
Definition assign_column (nbin : nat) (x : list R) : res (list R) :=
  if (length x =? nbin)%nat then Ok x
  else match x with [v] => Ok (repeat v nbin) | _ => Err ValueError end.

(** [np.arange(0,1,1/nbin)] assigned to a column; qetpy/core/_of_nsmb.py:1195, 1293. *)
Definition slope_column (nbin : Z) : res (list R) :=
  if (nbin =? 0)%Z then Err ZeroDivisionError
  else match arange01_len nbin with
       | Some l => assign_column (Z.to_nat nbin)
                     (map (fun t => INR t * (1 / IZR nbin)) (seq 0 (Z.to_nat l)))
       | None => Err ValueError
       end.

(** qetpy/core/_of_nsmb.py:1168-1200: the columns slope and dc, their shifts ([None]: nan). *)
Definition get_slope_dc_template_nsmb (nbin : Z) : res (list (list R) * list (option R)) :=
  if (nbin <? 0)%Z then Err ValueError
  else do sl <- slope_column nbin; Ok ([sl; repeat 1 (Z.to_nat nbin)], [None; None]).

(** [np.rint(x)] as an integer, half to even; qetpy/core/_of_nsmb.py:1279. *)
Definition frint (x : spec_float) : option Z :=
  match x with
  | S754_zero _ => Some 0%Z
  | S754_finite sgn m e =>
      let a := (if 0 <=? e then Z.pos m * 2 ^ e
                else let d := 2 ^ (- e) in
                     let q := Z.pos m / d in
                     let r := Z.pos m mod d in
                     if 2 * r <? d then q else if d <? 2 * r then q + 1
                     else if Z.even q then q else q + 1)%Z in
      Some (if sgn then (- a)%Z else a)
  | _ => None
  end.

(** Bins between triggers, number of triggers, roll of the first template, shift of template [ii];
    qetpy/core/_of_nsmb.py:1249-1266, 1279. *)
Definition ttl_between (fs rate : spec_float) : spec_float := fmul (fdiv (fl 1) rate) fs.
Definition ttl_count (nbin : Z) (fs rate : spec_float) : option Z :=
  ftrunc (fdiv (fdiv (fl nbin) fs) (fdiv (fl 1) rate)).
Definition ttl_roll (n : Z) (fs rate : spec_float) : option Z :=
  ftrunc (fmul (fdiv (fl (- n)) (fl 2)) (ttl_between fs rate)).
Definition ttl_shift (fs rate : spec_float) (ii : nat) : option Z :=
  frint (fmul (ttl_between fs rate) (fl (Z.of_nat ii))).

(** [np.roll(template, k)]; qetpy/core/_of_nsmb.py:1267. *)
Definition np_roll (x : list R) (k : Z) : list R :=
  let n := Z.of_nat (length x) in
  map (fun t => nth (Z.to_nat ((Z.of_nat t - k) mod n)) x 0) (seq 0 (length x)).

(** [x[:-k]] for an integer [k >= 0]; qetpy/core/_of_nsmb.py:1284. *)
Definition drop_last (x : list R) (k : nat) : list R :=
  if (k =? 0)%nat then [] else firstn (length x - k) x.

(** [np.pad(first,(sh,0),mode='constant')[:-sh]] assigned to a column; a negative width is rejected
    by [np.pad]; qetpy/core/_of_nsmb.py:1284. *)
Definition pad_shift (first : list R) (sh : Z) : res (list R) :=
  if (sh <? 0)%Z then Err ValueError
  else assign_column (length first) (drop_last (repeat 0 (Z.to_nat sh) ++ first) (Z.to_nat sh)).

(** [np.delete(np.arange(nbin), idx)]; qetpy/core/_of_nsmb.py:1303-1321. *)
Definition np_delete (nbin : Z) (idx : list Z) : res (list Z) :=
  if forallb (fun i => (- nbin <=? i) && (i <? nbin))%Z idx then
    let pos := map (fun i => if (i <? 0)%Z then (i + nbin)%Z else i) idx in
    Ok (filter (fun j => negb (existsb (Z.eqb j) pos)) (arangeZ 0 nbin))
  else Err IndexError.

(** The indices removed from the window; qetpy/core/_of_nsmb.py:1306-1318. *)
Definition restrict_ind (nbin notch : Z) (shifts : list Z) : list Z :=
  map (fun i => if (i <? 0)%Z then (nbin + i)%Z else i)
      (flat_map (fun sh => arangeZ (sh - notch) (sh + notch + 1)) shifts).

Record ttl_out := mkTtl {
  t_templates : list (list R);  (* columns *)
  t_shifts : list R;
  t_polarity : list R;
  t_window : list Z
}.

Fixpoint option_list {A} (l : list (option A)) : option (list A) :=
  match l with
  | [] => Some []
  | Some a :: l => match option_list l with Some r => Some (a :: r) | None => None end
  | None :: _ => None
  end.

(** Columns of the triggers; qetpy/core/_of_nsmb.py:1278-1284. *)
Fixpoint ttl_columns (first : list R) (ii : nat) (shifts : list Z) : res (list (list R)) :=
  match shifts with
  | [] => Ok []
  | sh :: shifts =>
      do c <- (if (ii =? 0)%nat then Ok first else pad_shift first sh);
      do r <- ttl_columns first (S ii) shifts;
      Ok (c :: r)
  end.

(** Sign constraint of the triggers; qetpy/core/_of_nsmb.py:1286-1290. *)
Definition ttl_polarity (constrain positive : bool) : R :=
  if constrain then (if positive then 1 else -1) else 0.

(** qetpy/core/_of_nsmb.py:1203-1327.  A count of triggers below zero makes [np.ones] fail (below
    -2) or leaves fewer than two columns. *)
Definition maketemplate_ttlfit_nsmb (template : list R) (fs rate : spec_float)
    (constrain positive : bool) (notch : Z) : res ttl_out :=
  let n := Z.of_nat (length template) in
  if SFeqb rate (fl 0) then Err ZeroDivisionError
  else if SFeqb fs (fl 0) then Err ZeroDivisionError
  else match ttl_count n fs rate with
  | None => Err ValueError
  | Some nttl =>
    match ttl_roll nttl fs rate with
    | None => Err ValueError
    | Some k =>
      if (nttl <? -2)%Z then Err ValueError
      else if (nttl <? 0)%Z then Err IndexError
      else
        match option_list (map (ttl_shift fs rate) (seq 0 (Z.to_nat nttl))) with
        | None => Err ValueError
        | Some shifts =>
            do cols <- ttl_columns (np_roll template k) 0 shifts;
            do sl <- slope_column n;
            do w <- np_delete n (restrict_ind n notch shifts);
            Ok (mkTtl (cols ++ [sl; repeat 1 (length template)]) (map IZR shifts ++ [0; 0])
                      (map (fun _ => ttl_polarity constrain positive) shifts ++ [0; 0]) w)
        end
    end
  end.
