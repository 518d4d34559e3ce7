(** * Model of qetpy/core/_iv.py and qetpy/core/_ibis.py

    Reals stand for doubles. NaN padding of the data is a Boolean mask beside the values; the
    value at a masked place is never looked at by the property theorems. Zero uncertainties
    (division by zero inside the fitter) and arrays with an empty axis are not modelled.
    For the plotting methods see IvPlotModel. *)
From Verif Require Import Base UtilsModel OFFreeModel.
Local Open Scope R_scope.

(** ** numpy arrays *)

(** An ndarray in C order: shape, values, NaN mask. *)
Record nd := mkNd { shape : list nat; flat : nat -> R; nanat : nat -> bool }.

Definition size (a : nd) : nat := fold_right Nat.mul 1%nat (shape a).

(** A 3-d array read by its three indices *)
Definition arr3 := nat -> nat -> nat -> R.

(** [a[t, c, i]] of an array of shape [(_, nc, ni)] *)
Definition at3 (nc ni : nat) (a : nd) : arr3 := fun t c i => flat a ((t * nc + c) * ni + i)%nat.
Definition nan3 (nc ni : nat) (a : nd) (t c i : nat) : bool := nanat a ((t * nc + c) * ni + i)%nat.

(** The array of shape [(nt, nc, ni)] with the given entries *)
Definition of3 (nt nc ni : nat) (f : arr3) : nd :=
  mkNd [nt; nc; ni] (fun k => f (k / ni / nc)%nat ((k / ni) mod nc)%nat (k mod ni)%nat) (fun _ => false).

(** [np.reshape(a, (nt, nc, ni))] *)
Definition reshape3 (a : nd) (nt nc ni : nat) : res nd :=
  if (size a =? nt * nc * ni)%nat then Ok (mkNd [nt; nc; ni] (flat a) (nanat a)) else Err ValueError.

(** [np.ones_like(a) * r] *)
Definition full_like (a : nd) (r : R) : nd := mkNd (shape a) (fun _ => r) (fun _ => false).

(** [np.tile(a, (n, 1))] of a 1-d array: [n] equal rows *)
Definition tile_rows (f : nat -> R) : nat -> nat -> R := fun _ c => f c.
(** [m.transpose()] *)
Definition transpose (f : nat -> nat -> R) : nat -> nat -> R := fun i j => f j i.
(** [np.tile(m, (n, 1, 1))] of a 2-d array: [n] equal layers *)
Definition tile_layers (f : nat -> nat -> R) : arr3 := fun _ i j => f i j.
(** [np.swapaxes(a, 0, -1)] of a 3-d array *)
Definition swap_first_last (f : arr3) : arr3 := fun i j k => f k j i.

(** Broadcasting of an attribute against an array of shape [(nt, nc, ni)]. Only exact trailing
    shapes are accepted here: the others do not occur. *)
Definition bcast3 (a : nd) (nt nc ni : nat) : res arr3 :=
  match shape a with
  | [n] => if (n =? ni)%nat then Ok (fun _ _ i => flat a i) else Err ValueError
  | [m; n] => if ((m =? nc) && (n =? ni))%nat%bool then Ok (fun _ c i => flat a (c * ni + i)%nat) else Err ValueError
  | [l; m; n] => if ((l =? nt) && (m =? nc) && (n =? ni))%nat%bool then Ok (at3 nc ni a) else Err ValueError
  | _ => Err ValueError
  end.

(** A resistance argument: a Python number or an ndarray *)
Inductive rarg := RScalar (r : R) | RArr (a : nd).

(** _iv.py:183-197, _ibis.py:181-201. The three sizes. *)
Definition dims (dites : nd) : res (nat * nat * nat) :=
  match shape dites with
  | [nt; nc; ni] => Ok (nt, nc, ni)
  | [nc; ni] => Ok (1%nat, nc, ni)
  | [ni] => Ok (1%nat, 1%nat, ni)
  | _ => Err ValueError
  end.

Definition shape_eqb (s s' : list nat) : bool := if list_eq_dec Nat.eq_dec s s' then true else false.

(** _iv.py:207-220, _ibis.py:208-231. The stored value of a resistance argument; [None]: the
    attribute is not assigned. *)
Definition store_r (dites : nd) (nt nc ni : nat) (r : rarg) : res (option nd) :=
  match r with
  | RScalar v => Ok (Some (full_like dites v))
  | RArr a =>
      if shape_eqb (shape a) [nc] then
        Ok (Some (of3 nt nc ni (tile_layers (transpose (tile_rows (flat a))))))
      else if shape_eqb (shape a) [nt; nc] then
        let m := fun t c => flat a (t * nc + c)%nat in
        Ok (Some (of3 nt nc ni (swap_first_last (tile_layers (transpose m)))))
      else if negb (shape_eqb (shape a) [nt; nc; ni]) then Err ValueError
      else Ok None
  end.

(** The corresponding error, which is assigned in the same branch as the value (chosen by the form
    of the value). Documented to have the form of the value; a different form is not modelled. *)
Definition store_err (dites : nd) (nt nc ni : nat) (r e : rarg) : res (option nd) :=
  match r, e with
  | RScalar _, RScalar v => Ok (Some (full_like dites v))
  | RArr a, RArr b =>
      if shape_eqb (shape a) (shape b) then store_r dites nt nc ni (RArr b) else Err ValueError
  | _, _ => Err ValueError
  end.

(** ** Straight-line fits *)

(** [scipy.optimize.curve_fit] of [_fitfunc] with [absolute_sigma]: from the points (x, y, sigma)
    to intercept, slope and their covariance matrix. An oracle. *)
Record linfit := mkFit { fb : R; fm : R; fcov : nat -> nat -> R }.
Definition fitter := list (R * R * R) -> res linfit.

(** _iv.py:16-36, _ibis.py:259-280 *)
Definition fitfunc (x b m : R) : R := m * x + b.

(** The fit of the points at [inds] of one row. Out-of-range indices raise in the fancy indexing,
    NaN entries in [curve_fit] ([check_finite]), less than two points in [leastsq]. *)
Definition fit_row (cf : fitter) (n : nat) (x y s : nat -> R) (bad : nat -> bool) (inds : list nat) : res linfit :=
  if negb (forallb (fun i => (i <? n)%nat) inds) then Err IndexError
  else if (length inds =? 0)%nat then Err ValueError
  else if existsb bad inds then Err ValueError
  else if (length inds <? 2)%nat then Err TypeError
  else cf (map (fun i => (x i, y i, s i)) inds).

(** ** _iv.py *)

(** _iv.py:38-74. The loop; [e] is [end_ind]. *)
Fixpoint fni_loop (fuel : nat) (cf : fitter) (n : nat) (x y s : nat -> R) (nanx bad : nat -> bool) (tol : R)
    (e : nat) : res nat :=
  match fuel with
  | O => Ok e
  | S fuel =>
      if ((e <? n)%nat && negb (nanx e))%bool then
        let e := S e in
        do p <- fit_row cf n x y s bad (seq 0 e);
        let red_chi2 := lsum (map (fun i => ((fitfunc (x i) (fb p) (fm p) - y i) / s i) ^ 2) (seq 0 e))
                        / (INR e - 2) in
        if Rltb tol red_chi2 then Ok e
        else fni_loop fuel cf n x y s nanx bad tol e
      else Ok e
  end.

(** _iv.py:38-74. At most [n] rounds are made, so the fuel does not run out. *)
Definition findnormalinds (cf : fitter) (n : nat) (x y s : nat -> R) (nanx bad : nat -> bool) (tol : R)
    : res (list nat) :=
  do e <- fni_loop n cf n x y s nanx bad tol 2;
  Ok (seq 0 (e - 1)).

(** The attributes set by [IV.__init__] that [calc_iv] reads *)
Record iv := mkIv {
  nt : nat; nc : nat; ni : nat;
  dites : nd; dites_err : nd; vb : nd; vb_err : nd;
  rload : option nd; rload_err : option nd;
  normalinds : option (list nat) }.

(** _iv.py:133-238 *)
Definition iv_init (dites0 dites_err0 vb0 vb_err0 : nd) (rload0 rload_err0 : rarg) (nnames : nat)
    (normalinds0 : option (list nat)) : res iv :=
  do d <- dims dites0;
  let '(nt, nc, ni) := d in
  if negb (nnames =? nc)%nat then Err ValueError
  else
    do a <- reshape3 dites0 nt nc ni;
    do b <- reshape3 dites_err0 nt nc ni;
    do c <- reshape3 vb0 nt nc ni;
    do e <- reshape3 vb_err0 nt nc ni;
    do r <- store_r dites0 nt nc ni rload0;
    do re <- store_err dites0 nt nc ni rload0 rload_err0;
    Ok (mkIv nt nc ni a b c e r re normalinds0).

(** Reading an attribute that was never assigned *)
Definition getattr {A} (o : option A) : res A := match o with Some a => Ok a | None => Err AttributeError end.

(** For every temperature and channel, in loop order *)
Definition per_channel {A} (nt nc : nat) (f : nat -> nat -> res A) : res (list (list A)) :=
  sequence (mk nt (fun t => sequence (mk nc (fun c => f t c)))).
Definition pick {A} (d : A) (l : list (list A)) (t c : nat) : A := nth c (nth t l []) d.
Definition no_fit : linfit := mkFit 0 0 (fun _ _ => 0).

(** The diagonal Jacobian [np.zeros((k,k))] with assigned diagonal *)
Definition diag (l : list R) : nat -> nat -> R := fun i j => if (i =? j)%nat then nth i l 0 else 0.

(** [jac.dot(cov.dot(jac.transpose()))] *)
Definition sandwich (k : nat) (jac cov : nat -> nat -> R) : nat -> nat -> R := mdot k jac (mdot k cov (mtr jac)).

(** The attributes set by [calc_iv]; [iv_r...] have axes (temperature, channel). *)
Record iv_out := mkIvOut {
  iv_ites : arr3; iv_ites_err : arr3; iv_r0 : arr3; iv_r0_err : arr3; iv_ptes : arr3; iv_ptes_err : arr3;
  iv_ioff : nat -> nat -> R; iv_ioff_err : nat -> nat -> R; iv_rfit : nat -> nat -> R; iv_rfit_err : nat -> nat -> R;
  iv_rnorm : nat -> nat -> R; iv_rnorm_err : nat -> nat -> R }.

(** _iv.py:255-266. The normal fit of one channel. NaN in any of the three arrays counts for the fitter. *)
Definition iv_fit (cf : fitter) (o : iv) (t c : nat) : res linfit :=
  let x := at3 (nc o) (ni o) (vb o) t c in
  let y := at3 (nc o) (ni o) (dites o) t c in
  let s := at3 (nc o) (ni o) (dites_err o) t c in
  let nanx := nan3 (nc o) (ni o) (vb o) t c in
  let bad := fun i => (nanx i || nan3 (nc o) (ni o) (dites o) t c i || nan3 (nc o) (ni o) (dites_err o) t c i)%bool in
  do inds <- match normalinds o with
             | None => findnormalinds cf (ni o) x y s nanx bad 10
             | Some l => Ok l
             end;
  fit_row cf (ni o) x y s bad inds.

(** _iv.py:241-302. [ioff], [rfit] and their errors are constant along the third axis, so they are
    kept with two axes. *)
Definition calc_iv (cf : fitter) (o : iv) : res iv_out :=
  let d := at3 (nc o) (ni o) (dites o) in
  let de := at3 (nc o) (ni o) (dites_err o) in
  let v := at3 (nc o) (ni o) (vb o) in
  let ve := at3 (nc o) (ni o) (vb_err o) in
  do fits <- per_channel (nt o) (nc o) (iv_fit cf o);
  let x t c := pick no_fit fits t c in
  let covout t c := sandwich 2 (diag [1; -1 / fm (x t c) ^ 2]) (fcov (x t c)) in
  let ioff t c := fb (x t c) in
  let ioff_err t c := sqrt (covout t c 0%nat 0%nat) in
  let rfit t c := 1 / fm (x t c) in
  let rfit_err t c := sqrt (covout t c 1%nat 1%nat) in
  do rl_nd <- getattr (rload o);
  do rl <- bcast3 rl_nd (nt o) (nc o) (ni o);
  do rle_nd <- getattr (rload_err o);
  do rle <- bcast3 rle_nd (nt o) (nc o) (ni o);
  let rnorm : arr3 := fun t c i => rfit t c - rl t c i in
  let rnorm_err : arr3 := fun t c i => sqrt (rfit_err t c ^ 2 + rle t c i ^ 2) in
  let ites : arr3 := fun t c i => d t c i - ioff t c in
  let ites_err : arr3 := fun t c i => sqrt (de t c i ^ 2 + ioff_err t c ^ 2) in
  let r0 : arr3 := fun t c i => v t c i / ites t c i - rl t c i in
  let r0_err : arr3 := fun t c i =>
    sqrt ((1 / ites t c i) ^ 2 * ve t c i ^ 2 + (v t c i / ites t c i ^ 2) ^ 2 * ites_err t c i ^ 2 + rle t c i ^ 2) in
  let ptes : arr3 := fun t c i => ites t c i ^ 2 * r0 t c i in
  let ptes_err : arr3 := fun t c i =>
    sqrt ((v t c i - 2 * ites t c i * rl t c i) ^ 2 * ites_err t c i ^ 2
          + ites t c i ^ 2 * ve t c i ^ 2 + (ites t c i ^ 2) ^ 2 * rle t c i ^ 2) in
  Ok (mkIvOut ites ites_err r0 r0_err ptes ptes_err
        ioff ioff_err
        rfit
        rfit                          (* line 300: [self.rfit_err = rfit[:,:,0]] *)
        (fun t c => rnorm t c 0%nat) (fun t c => rnorm_err t c 0%nat)).

(** ** _ibis.py *)

Record ibis := mkIbis {
  bt : nat; bc : nat; bi : nat;
  b_dites : nd; b_dites_err : nd; b_ibias : nd; b_ibias_err : nd;
  b_rsh : R; b_rsh_err : R;
  b_rp : option nd; b_rp_err : option nd;
  b_normalinds : list nat; b_fitsc : bool; b_scinds : option (list nat) }.

(** _ibis.py:109-256 *)
Definition ibis_init (dites0 dites_err0 ibias0 ibias_err0 : nd) (rsh rsh_err : R) (normalinds0 : list nat)
    (rp_guess rp_err_guess : rarg) (nnames : nat) (fitsc : bool) (scinds : option (list nat)) : res ibis :=
  if (fitsc && match scinds with None => true | Some _ => false end)%bool then Err ValueError
  else
    do d <- dims dites0;
    let '(nt, nc, ni) := d in
    if negb (nnames =? nc)%nat then Err ValueError
    else
      do a <- reshape3 dites0 nt nc ni;
      do b <- reshape3 dites_err0 nt nc ni;
      do c <- reshape3 ibias0 nt nc ni;
      do e <- reshape3 ibias_err0 nt nc ni;
      do r <- store_r dites0 nt nc ni rp_guess;
      do re <- store_err dites0 nt nc ni rp_guess rp_err_guess;
      Ok (mkIbis nt nc ni a b c e rsh rsh_err r re normalinds0 fitsc scinds).

(** _ibis.py:283-309 *)
Definition rtes (ibias ibias_off rsh dites ioff rp : R) : R :=
  (ibias - ibias_off) * rsh / (dites - ioff) - (rsh + rp).

(** _ibis.py:312-339 *)
Definition rtes_err (ibias ibias_off rsh dites ioff rp : R) (cov : nat -> nat -> R) : R :=
  let dibias := rsh / (dites - ioff) in
  let dibias_off := - rsh / (dites - ioff) in
  let dimeas := - (ibias - ibias_off) * rsh / (dites - ioff) ^ 2 in
  let dioff := (ibias - ibias_off) * rsh / (dites - ioff) ^ 2 in
  let drsh := (ibias - ibias_off) / (dites - ioff) - 1 in
  let drp := -1 in
  sqrt (msum 6 (sandwich 6 (diag [dibias; dibias_off; dimeas; dioff; drsh; drp]) cov)).

(** _ibis.py:342-370 *)
Definition ptes (ibias ibias_off rsh dites ioff rp : R) : R :=
  (ibias - ibias_off) * rsh * (dites - ioff) - (rsh + rp) * (dites - ioff) ^ 2.

(** _ibis.py:373-398 *)
Definition ptes_err (ibias ibias_off rsh dites ioff rp : R) (cov : nat -> nat -> R) : R :=
  let dibias := rsh * (dites - ioff) in
  let dibias_off := - rsh * (dites - ioff) in
  let dimeas := (ibias - ibias_off) * rsh - 2 * (rsh + rp) * (dites - ioff) in
  let dioff := - (ibias - ibias_off) * rsh + 2 * (rsh + rp) * (dites - ioff) in
  let drsh := (ibias - ibias_off) * (dites - ioff) - (dites - ioff) ^ 2 in
  let drp := -1 * (dites - ioff) ^ 2 in
  sqrt (msum 6 (sandwich 6 (diag [dibias; dibias_off; dimeas; dioff; drsh; drp]) cov)).

(** An offset argument of [analyze]: None, a Python float, or an array of the shape of the data *)
Inductive off := ONone | OFloat (r : R) | OArr (f : arr3).

(** _ibis.py:601-612 with 619-630: floats cannot be subscripted ([ioff[..., 0]]), None cannot be squared. *)
Definition use_off (calc calc_err : arr3) (o oerr : off) : res (arr3 * arr3) :=
  match o with
  | ONone => Ok (calc, calc_err)
  | OFloat _ => Err TypeError
  | OArr f => match oerr with OArr g => Ok (f, g) | _ => Err TypeError end
  end.

(** [a[..., 0]] indexed by [t, ch]: needs a 3-d array, otherwise too many indices *)
Definition first_bias (nc ni : nat) (a : nd) : res (nat -> nat -> R) :=
  match shape a with [_; _; _] => Ok (fun t c => at3 nc ni a t c 0%nat) | _ => Err IndexError end.

(** The fit of the points at [inds] of one channel (_ibis.py:454-462 and 484-495) *)
Definition ibis_fit (cf : fitter) (o : ibis) (inds : list nat) (t c : nat) : res linfit :=
  let at_ a := at3 (bc o) (bi o) a t c in
  let nan_ a := nan3 (bc o) (bi o) a t c in
  fit_row cf (bi o) (at_ (b_ibias o)) (at_ (b_dites o)) (at_ (b_dites_err o))
    (fun i => (nan_ (b_ibias o) i || nan_ (b_dites o) i || nan_ (b_dites_err o) i)%bool) inds.

(** _ibis.py:536-561. Uncertainty of the abscissa of the crossing point. *)
Definition x_int_err (int_n slope_n int_sc slope_sc eint_n eslope_n eint_sc eslope_sc : R) : R :=
  let dint_n := 1 / (slope_sc - slope_n) in
  let dint_sc := -1 / (slope_sc - slope_n) in
  let dslope_n := (int_n - int_sc) / (slope_sc - slope_n) ^ 2 in
  let dslope_sc := - (int_n - int_sc) / (slope_sc - slope_n) ^ 2 in
  sqrt (msum 4 (sandwich 4 (diag [dint_n; dslope_n; dint_sc; dslope_sc])
                           (diag [eint_n ^ 2; eslope_n ^ 2; eint_sc ^ 2; eslope_sc ^ 2]))).

(** _ibis.py:566-599. Uncertainty of the ordinate of the crossing point. *)
Definition y_int_err (int_n slope_n int_sc slope_sc eint_n eslope_n eint_sc eslope_sc : R) : R :=
  let dint_n := slope_n / (slope_sc - slope_n) + 1 in
  let dint_sc := - slope_n / (slope_sc - slope_n) in
  let dslope_n := (int_n - int_sc) / (slope_sc - slope_n) + (int_n - int_sc) / (slope_sc - slope_n) ^ 2 in
  let dslope_sc := - slope_n * (int_n - int_sc) / (slope_sc - slope_n) ^ 2 in
  sqrt (msum 4 (sandwich 4 (diag [dint_n; dslope_n; dint_sc; dslope_sc])
                           (diag [eint_n ^ 2; eslope_n ^ 2; eint_sc ^ 2; eslope_sc ^ 2]))).

(** The attributes set by [analyze] *)
Record ibis_out := mkIbisOut {
  o_slope_n : nat -> nat -> R; o_int_n : nat -> nat -> R; o_slope_sc : nat -> nat -> R; o_int_sc : nat -> nat -> R;
  o_ites : arr3; o_ites_err : arr3; o_ioff : nat -> nat -> R; o_ioff_err : nat -> nat -> R;
  o_rfit : nat -> nat -> R; o_rfit_err : nat -> nat -> R;
  o_ibias_true : arr3; o_ibias_true_err : arr3; o_ibias_off : nat -> nat -> R; o_ibias_off_err : nat -> nat -> R;
  o_rp : nat -> nat -> R; o_rp_err : nat -> nat -> R;
  o_r0 : arr3; o_r0_err : arr3; o_ptes : arr3; o_ptes_err : arr3;
  o_rnorm : nat -> nat -> R; o_rnorm_err : nat -> nat -> R; o_vb : arr3; o_vb_err : arr3 }.

(** _ibis.py:400-690. Quantities of the two fits are constant along the third axis and kept with two
    axes. The crossing point (lines 522-523) is recomputed for all channels in every turn of the loop;
    its last value, with all fits in place, is the one that is used. *)
Definition analyze (cf : fitter) (o : ibis) (yoff yoff_err xoff xoff_err : off) : res ibis_out :=
  let d := at3 (bc o) (bi o) (b_dites o) in
  let de := at3 (bc o) (bi o) (b_dites_err o) in
  let ib := at3 (bc o) (bi o) (b_ibias o) in
  let ibe := at3 (bc o) (bi o) (b_ibias_err o) in
  let rsh := b_rsh o in
  let rsh_err := b_rsh_err o in
  do nfits <- per_channel (bt o) (bc o) (ibis_fit cf o (b_normalinds o));
  let x t c := pick no_fit nfits t c in
  let slope_n t c := fm (x t c) in
  let int_n t c := fb (x t c) in
  let slope_n_err t c := sqrt (fcov (x t c) 1%nat 1%nat) in
  let int_n_err t c := sqrt (fcov (x t c) 0%nat 0%nat) in
  let covn t c := sandwich 2 (diag [1; -1 / fm (x t c) ^ 2]) (fcov (x t c)) in
  let rfit t c := 1 / fm (x t c) * rsh in
  let rfit_err t c := sqrt ((rsh * covn t c 1%nat 1%nat) ^ 2 + (1 / fm (x t c) * rsh_err) ^ 2) in
  do scfits <- (if b_fitsc o
                then do inds <- (match b_scinds o with Some l => Ok l | None => Err IndexError end);
                     per_channel (bt o) (bc o) (ibis_fit cf o inds)
                else Ok []);
  let y t c := pick no_fit scfits t c in
  let slope_sc t c := if b_fitsc o then fm (y t c) else 0 in
  let int_sc t c := if b_fitsc o then fb (y t c) else 0 in
  let slope_sc_err t c := if b_fitsc o then sqrt (fcov (y t c) 1%nat 1%nat) else 0 in
  let int_sc_err t c := if b_fitsc o then sqrt (fcov (y t c) 0%nat 0%nat) else 0 in
  let covsc t c := sandwich 2 (diag [1; -1 / fm (y t c) ^ 2]) (fcov (y t c)) in
  do rps <- (if b_fitsc o
             then Ok (of3 (bt o) (bc o) (bi o) (fun t c _ => 1 / fm (y t c) * rsh - rsh),
                      of3 (bt o) (bc o) (bi o) (fun t c _ =>
                        sqrt ((rsh * covsc t c 1%nat 1%nat) ^ 2 + ((1 / fm (y t c) - 1) * rsh_err) ^ 2)))
             else do r <- getattr (b_rp o); do re <- getattr (b_rp_err o); Ok (r, re));
  let int_point_x : arr3 := fun t c _ =>
    if b_fitsc o then (int_n t c - int_sc t c) / (slope_sc t c - slope_n t c) else 0 in
  let int_point_y : arr3 := fun t c i =>
    if b_fitsc o then slope_n t c * int_point_x t c i + int_n t c else int_n t c in
  let xerr : arr3 := fun t c _ =>
    x_int_err (int_n t c) (slope_n t c) (int_sc t c) (slope_sc t c)
              (int_n_err t c) (slope_n_err t c) (int_sc_err t c) (slope_sc_err t c) in
  let yerr : arr3 := fun t c _ =>
    y_int_err (int_n t c) (slope_n t c) (int_sc t c) (slope_sc t c)
              (int_n_err t c) (slope_n_err t c) (int_sc_err t c) (slope_sc_err t c) in
  do ys <- use_off int_point_y yerr yoff yoff_err;
  do xs <- use_off int_point_x xerr xoff xoff_err;
  let '(ioff3, ioff_err3) := ys in
  let '(ibias_off3, ibias_off_err3) := xs in
  let ites : arr3 := fun t c i => d t c i - ioff3 t c i in
  let ites_err : arr3 := fun t c i => sqrt (de t c i ^ 2 + ioff_err3 t c i ^ 2) in
  let ibias_true : arr3 := fun t c i => ib t c i - ibias_off3 t c i in
  let ibias_true_err : arr3 := fun t c i => sqrt (ibe t c i ^ 2 + ibias_off_err3 t c i ^ 2) in
  let ioff t c := ioff3 t c 0%nat in
  let ioff_err t c := ioff_err3 t c 0%nat in
  let ibias_off t c := ibias_off3 t c 0%nat in
  let ibias_off_err t c := ibias_off_err3 t c 0%nat in
  do rp_err <- first_bias (bc o) (bi o) (snd rps);
  do rp <- first_bias (bc o) (bi o) (fst rps);
  let cov t c i := diag [ibe t c i ^ 2; ibias_off_err t c ^ 2; de t c i ^ 2; ioff_err t c ^ 2; rsh_err ^ 2; rp_err t c ^ 2] in
  let r0 : arr3 := fun t c i => rtes (ib t c i) (ibias_off t c) rsh (d t c i) (ioff t c) (rp t c) in
  let r0_err : arr3 := fun t c i =>
    rtes_err (ib t c i) (ibias_off t c) rsh (d t c i) (ioff t c) (rp t c) (cov t c i) in
  let pt : arr3 := fun t c i => ptes (ib t c i) (ibias_off t c) rsh (d t c i) (ioff t c) (rp t c) in
  let pt_err : arr3 := fun t c i =>
    ptes_err (ib t c i) (ibias_off t c) rsh (d t c i) (ioff t c) (rp t c) (cov t c i) in
  Ok (mkIbisOut slope_n int_n slope_sc int_sc
        ites ites_err ioff ioff_err rfit rfit_err
        ibias_true ibias_true_err ibias_off ibias_off_err rp rp_err
        r0 r0_err pt pt_err
        (fun t c => rfit t c - rsh - rp t c) (fun t c => sqrt (rfit_err t c ^ 2 + rp_err t c ^ 2))
        (fun t c i => ibias_true t c i * rsh)
        (fun t c i => sqrt ((ibias_true t c i * rsh_err) ^ 2 + (rsh * ibias_true_err t c i) ^ 2))).
