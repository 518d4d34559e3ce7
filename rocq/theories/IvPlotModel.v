(** * The current, resistance and power plots of qetpy/plotting/_iv_plotting.py and
    qetpy/plotting/_ibis_plotting.py

    A plot is modelled by the data handed to matplotlib; [None] is nan.  Colour maps, fonts, axis
    labels, grids and the rendering are not modelled.  The selections [temps] and [chans] are "all",
    an integer or a list of integers; comparing a numpy array with "all" is not modelled. *)
From Coq Require Import String Ascii DecimalString.
From Verif Require Import Base ListLemmas UtilsModel IvModel PlotModel.
Open Scope R_scope.

(** A 3-d array read by temperature and channel. *)
Definition rows : Type := nat -> nat -> list (option R).

(** The attributes of an IV or IBIS object the plots use; [None] as in Python before the analysis;
    qetpy/core/_iv.py:201-236, qetpy/core/_ibis.py:203-256. *)
Record ivobj : Type := mkObj {
  v_nt : nat; v_nc : nat; v_names : list string;
  v_vb : option rows; v_vb_err : option rows;
  v_ites : option rows; v_ites_err : option rows;
  v_r0 : option rows; v_r0_err : option rows;
  v_ptes : option rows; v_ptes_err : option rows;
  v_rfit : option (nat -> nat -> R) }.

(** The arguments [temps] and [chans]; qetpy/plotting/_iv_plotting.py:40-52. *)
Inductive selection : Type := SAll | SOne (z : Z) | SMany (zs : list Z).
Definition selected (n : nat) (s : selection) : list Z :=
  match s with SAll => map Z.of_nat (seq 0 n) | SOne z => [z] | SMany zs => zs end.

(** Index along an axis of length [n]; negative ones count from the end. *)
Definition axis_index (n : nat) (z : Z) : res nat :=
  if ((0 <=? z) && (z <? Z.of_nat n))%Z then Ok (Z.to_nat z)
  else if ((- Z.of_nat n <=? z) && (z <? 0))%Z then Ok (Z.to_nat (z + Z.of_nat n))
  else Err IndexError.

(** [a[t, ch]]; an attribute that is None cannot be subscripted. *)
Definition at_row {A} (o : ivobj) (a : option (nat -> nat -> A)) (t c : Z) : res A :=
  do a <- subscriptable a;
  do i <- axis_index (v_nt o) t;
  do j <- axis_index (v_nc o) c;
  Ok (a i j).

(** [row * k]. *)
Definition scaled (k : R) (row : list (option R)) : list (option R) := map (option_map (fun v => v * k)) row.

(** What is drawn for one temperature and channel: points, line, error bars and the fit line, with
    the legend entry and the index into the array of colours; qetpy/plotting/_iv_plotting.py:60-98. *)
Record group : Type := mkGroup {
  g_label : string; g_colour : nat;
  g_points : list (option R) * list (option R);
  g_line : list (option R) * list (option R);
  g_bars : list (option R) * list (option R);
  g_yerr : list (option R); g_xerr : option (list (option R));
  g_fit : option (list (option R) * list (option R)) }.

(** A figure: title and groups in drawing order. *)
Record ivfig : Type := mkIvfig { i_title : string; i_groups : list group }.

(** Python's text of an integer. *)
Definition decZ (z : Z) : string :=
  match z with Zneg p => String "-"%char (dec (Pos.to_nat p)) | _ => dec (Z.to_nat z) end.

(** qetpy/plotting/_iv_plotting.py:60-63. *)
Definition group_label (o : ivobj) (t : Z) (name : string) : string :=
  if (1 <? v_nt o)%nat then ("Temp " ++ decZ t ++ ", Channel " ++ name)%string else ("Channel " ++ name)%string.

(** Comparison with nan. *)
Definition ogt (a b : option R) : bool := match a, b with Some x, Some y => Rltb y x | _, _ => false end.

(** Python's [max] and [min] of a sequence; they raise ValueError on an empty one. *)
Definition py_max (l : list (option R)) : res (option R) :=
  match l with [] => Err ValueError | x :: l => Ok (fold_left (fun m x => if ogt x m then x else m) l x) end.
Definition py_min (l : list (option R)) : res (option R) :=
  match l with [] => Err ValueError | x :: l => Ok (fold_left (fun m x => if ogt m x then x else m) l x) end.

(** [a[np.argmax(abs(a))]]: the first nan if there is one, else the first entry of largest
    magnitude; ValueError on an empty array; qetpy/plotting/_iv_plotting.py:86-88. *)
Definition of_largest (l : list (option R)) : res (option R) :=
  match l with
  | [] => Err ValueError
  | x :: r =>
      Ok (fold_left (fun m x => match m, x with
                                | None, _ => None
                                | Some _, None => None
                                | Some u, Some v => if Rltb (Rabs u) (Rabs v) then Some v else Some u
                                end) r x)
  end.

(** [np.linspace(a, b, num=10)]. *)
Definition linspace10 (a b : option R) : list (option R) :=
  mk 10 (fun i => match a, b with Some a, Some b => Some (a + INR i * ((b - a) / 9)) | _, _ => None end).

(** The fit line, qetpy/plotting/_iv_plotting.py:85-98. *)
Definition fit_line (o : ivobj) (vb : list (option R)) (t c : Z) : res (list (option R) * list (option R)) :=
  do m <- of_largest vb;
  do x <- (if ogt m (Some 0)
           then do b <- py_max (scaled 1000000 vb); Ok (linspace10 (Some 0) b)
           else do a <- py_min (scaled 1000000 vb); Ok (linspace10 a (Some 0)));
  do r <- at_row o (v_rfit o) t c;
  Ok (x, map (option_map (fun v => 1 / r * v)) x).

(** matplotlib's [errorbar] rejects negative errors. *)
Definition check_err (e : list (option R)) : res (list (option R)) :=
  if existsb (fun v => match v with Some v => Rltb v 0 | None => false end) e then Err ValueError else Ok e.

(** One turn of the loops; [ibis] tells the module (only it draws horizontal error bars), [y], [ye]
    and [k] are the plotted quantity, its error and the unit factor; [kcol] is the colour index;
    qetpy/plotting/_iv_plotting.py:59-98, 159-185, 250-276. *)
Definition draw_group (ibis : bool) (o : ivobj) (y ye : option rows) (k : R) (showfit : bool) (kcol : nat) (t c : Z)
  : res group :=
  do ni <- axis_index (length (v_names o)) c;
  do nm <- row_at (v_names o) ni;
  do vb <- at_row o (v_vb o) t c;
  do yr <- at_row o y t c;
  let x := scaled 1000000 vb in
  let yk := scaled k yr in
  do yer <- at_row o ye t c;
  do xer <- (if ibis then do e <- at_row o (v_vb_err o) t c; do e <- check_err (scaled 1000000 e); Ok (Some e) else Ok None);
  do yek <- check_err (scaled k yer);
  do fl <- (if showfit then do f <- fit_line o vb t c; Ok (Some f) else Ok None);
  Ok (mkGroup (group_label o t nm) kcol (x, yk) (x, yk) (x, yk) yek xer fl).

(** The double loop; [it] and [ich] count the turns; qetpy/plotting/_iv_plotting.py:58-98. *)
Definition draw_groups (ibis : bool) (o : ivobj) (y ye : option rows) (k : R) (showfit : bool) (ts cs : list Z)
  : res (list group) :=
  each (fun p => draw_group ibis o y ye k showfit (fst (fst p) * length cs + fst (snd p)) (snd (fst p)) (snd (snd p)))
       (list_prod (combine (seq 0 (length ts)) ts) (combine (seq 0 (length cs)) cs)).

(** Saving or returning, qetpy/plotting/_iv_plotting.py:107-112; [savefig path] is the outcome of
    matplotlib's [savefig].  The result [None] is Python's None. *)
Definition save_or_return (savefig : string -> res unit) (lgcsave : bool) (path : string) (f : ivfig)
  : list (string * ivfig) * res (option ivfig) :=
  if lgcsave then
    match savefig path with
    | Ok _ => ([(path, f)], Ok None)
    | Err e => ([], Err e)
    end
  else ([], Ok (Some f)).

(** The three plots: files written with their content, and the returned figure;
    qetpy/plotting/_iv_plotting.py:13-112, qetpy/plotting/_ibis_plotting.py:8-89. *)
Definition plot_iv (savefig : string -> res unit) (ibis : bool) (o : ivobj) (temps chans : selection) (showfit lgcsave : bool)
    (savepath savename : string) : list (string * ivfig) * res (option ivfig) :=
  match draw_groups ibis o (v_ites o) (v_ites_err o) 1000000 showfit (selected (v_nt o) temps) (selected (v_nc o) chans) with
  | Err e => ([], Err e)
  | Ok gs => save_or_return savefig lgcsave (savepath ++ "iv_curve_" ++ savename ++ ".png") (mkIvfig "$I_0$ vs. $V_b$" gs)
  end.

(** qetpy/plotting/_iv_plotting.py:114-197, qetpy/plotting/_ibis_plotting.py:91-161; the shape is read from [r0]. *)
Definition plot_rv (savefig : string -> res unit) (ibis : bool) (o : ivobj) (temps chans : selection) (lgcsave : bool)
    (savepath savename : string) : list (string * ivfig) * res (option ivfig) :=
  match v_r0 o with
  | None => ([], Err AttributeError)
  | Some _ =>
      match draw_groups ibis o (v_r0 o) (v_r0_err o) 1000 false (selected (v_nt o) temps) (selected (v_nc o) chans) with
      | Err e => ([], Err e)
      | Ok gs => save_or_return savefig lgcsave (savepath ++ "rv_curve_" ++ savename ++ ".png") (mkIvfig "$R_0$ vs. $V_b$" gs)
      end
  end.

(** qetpy/plotting/_iv_plotting.py:199-282, qetpy/plotting/_ibis_plotting.py:163-233; the shape is read from [ptes]. *)
Definition plot_pv (savefig : string -> res unit) (ibis : bool) (o : ivobj) (temps chans : selection) (lgcsave : bool)
    (savepath savename : string) : list (string * ivfig) * res (option ivfig) :=
  match v_ptes o with
  | None => ([], Err AttributeError)
  | Some _ =>
      match draw_groups ibis o (v_ptes o) (v_ptes_err o) 1000000000000 false (selected (v_nt o) temps) (selected (v_nc o) chans) with
      | Err e => ([], Err e)
      | Ok gs => save_or_return savefig lgcsave (savepath ++ "pv_curve_" ++ savename ++ ".png") (mkIvfig "$P_0$ vs. $V_b$" gs)
      end
  end.

(** One plot after the other, results dropped. *)
Definition then_plot (m m' : list (string * ivfig) * res (option ivfig)) : list (string * ivfig) * res (option ivfig) :=
  match snd m with
  | Err e => (fst m, Err e)
  | Ok _ => ((fst m ++ fst m')%list, snd m')
  end.

(** qetpy/plotting/_iv_plotting.py:284-333, qetpy/plotting/_ibis_plotting.py:235-264; returns None. *)
Definition plot_all_curves (savefig : string -> res unit) (ibis : bool) (o : ivobj) (temps chans : selection)
    (showfit lgcsave : bool) (savepath savename : string) : list (string * ivfig) * res (option ivfig) :=
  then_plot (plot_iv savefig ibis o temps chans showfit lgcsave savepath savename)
    (then_plot (plot_rv savefig ibis o temps chans lgcsave savepath savename)
      (then_plot (plot_pv savefig ibis o temps chans lgcsave savepath savename) ([], Ok None))).

(** The methods [plot_iv], [plot_rv], [plot_pv] unpack the result, [fig, ax = ...];
    qetpy/core/_iv.py:326-328, 350-352, 374-376, qetpy/core/_ibis.py:720-729, 757-765, 792-800. *)
Definition unpack (m : list (string * ivfig) * res (option ivfig)) : list (string * ivfig) * res ivfig :=
  (fst m, match snd m with Ok (Some f) => Ok f | Ok None => Err TypeError | Err e => Err e end).

(** ** The objects after their analysis *)

(** Row [t, c] of an array with [ni] bias points, nan where [bad]. *)
Definition to_rows (ni : nat) (f : arr3) (bad : nat -> nat -> nat -> bool) : rows :=
  fun t c => mk ni (fun i => if bad t c i then None else Some (f t c i)).

(** An IV object after [calc_iv], qetpy/core/_iv.py:241-302; nan arises where an input is nan (nan in
    [rload] and divisions by zero are not modelled). *)
Definition iv_object (o : iv) (r : iv_out) (names : list string) : ivobj :=
  let bad a := nan3 (nc o) (ni o) a in
  let bv := bad (vb o) in
  let bd := bad (dites o) in
  let bvd t c i := (bv t c i || bd t c i)%bool in
  let bde t c i := bad (dites_err o) t c i in
  let ball t c i := (bvd t c i || bde t c i || bad (vb_err o) t c i)%bool in
  mkObj (nt o) (nc o) names
    (Some (to_rows (ni o) (at3 (nc o) (ni o) (vb o)) bv)) (Some (to_rows (ni o) (at3 (nc o) (ni o) (vb_err o)) (bad (vb_err o))))
    (Some (to_rows (ni o) (iv_ites r) bd)) (Some (to_rows (ni o) (iv_ites_err r) bde))
    (Some (to_rows (ni o) (iv_r0 r) bvd)) (Some (to_rows (ni o) (iv_r0_err r) ball))
    (Some (to_rows (ni o) (iv_ptes r) bvd)) (Some (to_rows (ni o) (iv_ptes_err r) ball))
    (Some (iv_rfit r)).

(** An IBIS object after [analyze], qetpy/core/_ibis.py:400-690; nan as above. *)
Definition ibis_object (o : ibis) (r : ibis_out) (names : list string) : ivobj :=
  let bad a := nan3 (bc o) (bi o) a in
  let bv := bad (b_ibias o) in
  let bd := bad (b_dites o) in
  let bvd t c i := (bv t c i || bd t c i)%bool in
  let bde t c i := bad (b_dites_err o) t c i in
  let ball t c i := (bvd t c i || bde t c i || bad (b_ibias_err o) t c i)%bool in
  mkObj (bt o) (bc o) names
    (Some (to_rows (bi o) (o_vb r) bv)) (Some (to_rows (bi o) (o_vb_err r) (fun t c i => bv t c i || bad (b_ibias_err o) t c i)%bool))
    (Some (to_rows (bi o) (o_ites r) bd)) (Some (to_rows (bi o) (o_ites_err r) bde))
    (Some (to_rows (bi o) (o_r0 r) bvd)) (Some (to_rows (bi o) (o_r0_err r) ball))
    (Some (to_rows (bi o) (o_ptes r) bvd)) (Some (to_rows (bi o) (o_ptes_err r) ball))
    (Some (o_rfit r)).
