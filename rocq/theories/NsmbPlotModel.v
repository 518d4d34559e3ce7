(** * The plot of the N-template fits, qetpy/plotting/_of_nsmb_plotting.py

    The figure is modelled by the data handed to matplotlib: curves over the bin numbers, vertical
    lines and limits.  Colours, fonts, grid, axis labels and the rendering are not modelled; nor are
    failures of [savefig] and what is left of a figure when an exception is raised. *)
From Coq Require Import String Reals ZArith DecimalString.
From Coquelicot Require Import Coquelicot.
From Verif Require Import Base Dft FilterModel NsmbModel.
Import List ListNotations.
Local Open Scope R_scope.

(** A label: a text, or 'Total Fit. $\chi^2$={:.1f}' with the number printed there (its rounding to
    one digit is not modelled); qetpy/plotting/_of_nsmb_plotting.py:98-102. *)
Inductive nlabel : Type := NText (s : string) | NChi2 (v : R).
(** [plt.plot(bins.T, ...)], entry [i] over bin [i]; qetpy/plotting/_of_nsmb_plotting.py:98-131. *)
Record ncurve : Type := mkNc { nc_y : list R; nc_label : option nlabel }.
(** Curves, [axvline]s ([None]: nan) and [xlim]; qetpy/plotting/_of_nsmb_plotting.py:134-157. *)
Record nfig : Type := mkNf {
  nf_curves : list ncurve; nf_vlines : list (option R * option string); nf_xlim : option (R * R) }.

(** [lgcsaveplots], a bool or an int; qetpy/plotting/_of_nsmb_plotting.py:40-42, 162-163. *)
Inductive flag : Type := FBool (b : bool) | FInt (z : Z).
Definition truthy (f : flag) : bool := match f with FBool b => b | FInt z => negb (z =? 0)%Z end.
Definition flag_str (f : flag) : string :=
  match f with
  | FBool true => "True"%string
  | FBool false => "False"%string
  | FInt z => NilZero.string_of_int (Z.to_int z)
  end.

(** One row of [fitt]: amplitude, template and phase; qetpy/plotting/_of_nsmb_plotting.py:59-79. *)
Definition fit_row (nS nt : nat) (fs tdel : R) (a : nat -> R) (tf : nat -> nat -> C) (k f : nat) : C :=
  (RtoC (a k) * tf k f * (if (k <? nS)%nat then cis (- (omega nt fs f * tdel)) else RtoC 1))%C.
Definition real_ifft (nt : nat) (x : nat -> C) : list R :=
  mk nt (fun t => fst (idft nt x (Z.of_nat t) * RtoC (INR nt))%C).
Definition fitt (nS nB nt : nat) (fs tdel : R) (a : nat -> R) (tf : nat -> nat -> C) : list (list R) :=
  mk (nS + nB) (fun k => real_ifft nt (fit_row nS nt fs tdel a tf k)).
(** qetpy/plotting/_of_nsmb_plotting.py:73, 80. *)
Definition fittott (nS nB nt : nat) (fs tdel : R) (a : nat -> R) (tf : nat -> nat -> C) : list R :=
  real_ifft nt (fun f => csum (nS + nB) (fun k => fit_row nS nt fs tdel a tf k f)).

(** [fitt[j,:,None] + fitt[-1,:,None] + fitt[-2,:,None]]; qetpy/plotting/_of_nsmb_plotting.py:112, 127. *)
Definition with_slope_dc (nt : nat) (rows : list (list R)) (j : Z) : res (list R) :=
  do r <- pyindex rows j;
  do u <- pyindex rows (-1);
  do v <- pyindex rows (-2);
  Ok (mk nt (fun t => nth t r 0 + nth t u 0 + nth t v 0)).

(** The label of the first of several; qetpy/plotting/_of_nsmb_plotting.py:109-122, 136-149. *)
Definition first_label {A} (i : nat) (s : A) : option A := if (i =? 0)%nat then Some s else None.

(** [[f(0), ..., f(n-1)]], stopping at the first exception; qetpy/plotting/_of_nsmb_plotting.py:108, 135. *)
Fixpoint loop {A} (f : nat -> res A) (l : list nat) : res (list A) :=
  match l with [] => Ok [] | i :: l => do a <- f i; do r <- loop f l; Ok (a :: r) end.

(** [plotnsmb], qetpy/plotting/_of_nsmb_plotting.py:11-163, with the path of the saved file.  A number
    [psddnu] of zero (inf or nan in the label) is excluded by the theorems' hypotheses.  The figure is
    neither shown nor closed. *)
Definition plotnsmb (pulse : nat -> R) (fs tdel : R) (a : nat -> R) (tf : nat -> nat -> C) (nS nB nt : nat)
    (psddnu : nat -> R) (lpFiltFreq : option R) (save : flag) (xlim : option (R * R)) (figPrefix : string)
    (shifts : option (list (option R))) (savepath : string) : res (nfig * option string) :=
  if Reqb fs 0 then Err ZeroDivisionError
  else
    do filtered <- (match lpFiltFreq with
                    | Some fc => do l <- lowpassfilter [mk nt pulse] fc fs; Ok (nth 0 l [])
                    | None => Ok [] end);
    if (nt =? 0)%nat then Err ZeroDivisionError
    else
      let rows := fitt nS nB nt fs tdel a tf in
      let total := fittott nS nB nt fs tdel a tf in
      let resid := fftn nt (fun t => pulse t - nth t total 0) in
      let chi2 := fst (csum nt (fun f => Cconj (resid f) / RtoC (psddnu f) * resid f)%C) in
      let data := match lpFiltFreq with
                  | Some _ => [mkNc filtered (Some (NText "Data (LP filtered)")); mkNc (mk nt pulse) (Some (NText "Data"))]
                  | None => [mkNc (mk nt pulse) (Some (NText "Data"))] end in
      do bkg <- loop (fun i => do y <- with_slope_dc nt rows (Z.of_nat (nS + i));
                               Ok (mkNc y (first_label i (NText "Background Fit")))) (seq 0 (nB - 2));
      if (nS + nB =? 0)%nat then Err IndexError
      else
        do sig <- (if Rltb (1 / 10 ^ 20) (Rabs (a O))
                   then do y <- with_slope_dc nt rows 0; Ok [mkNc y (Some (NText "Signal Fit"))]
                   else Ok []);
        do lines <- (match shifts with
                     | None => Ok []
                     | Some sh => loop (fun i => do x <- pyindex sh (Z.of_nat i);
                                                 Ok (x, first_label i "Bckg. Start Times"%string)) (seq 0 nB)
                     end);
        Ok (mkNf (data ++ [mkNc total (Some (NChi2 chi2))] ++ bkg ++ sig)%list lines xlim,
            if truthy save then Some (savepath ++ figPrefix ++ flag_str save ++ ".png")%string else None).

(** ** The fits with [lgcplot=True] *)

(** The call at qetpy/core/_of_nsmb.py:480-485, 661-666, 1065-1072: low-pass frequency 30 kHz, files in
    the current directory. *)
Definition plot_fit (st : setup) (pulse : nat -> R) (fs tdel : R) (a : nat -> R) (save : flag) (prefix : string)
    (shifts : option (list (option R))) : res (nfig * option string) :=
  plotnsmb pulse fs tdel a (s_tf st) ns (s_nb st) (s_nt st) (s_psddnu st) (Some 30000) save None prefix shifts "./".

(** [of_mb] with [lgcplot=True]; the amplitude zero is put in front; qetpy/core/_of_nsmb.py:477-487. *)
Definition of_mb_plot (pinv : nat -> (nat -> nat -> R) -> nat -> nat -> R) (st : setup) (pulse : nat -> R) (fs : R)
    (lfindex : nat) (bkgcon : option (list R)) (shifts : option (list (option R))) (save : flag)
    : res (mb_out * (nfig * option string)) :=
  do o <- of_mb pinv st pulse lfindex bkgcon;
  do p <- plot_fit st pulse fs 0 (fun k => match k with O => 0 | S k => b_amp o k end) save "bcFit" shifts;
  Ok (o, p).

(** [of_nsmb] with [lgcplot=True]; qetpy/core/_of_nsmb.py:661-668. *)
Definition of_nsmb_plot (st : setup) (iP : nat -> nat -> nat -> R) (pulse : nat -> R) (fs : R) (window : list Z)
    (lfindex : nat) (shifts : option (list (option R))) (save : flag) : res (nsmb_out * (nfig * option string)) :=
  do o <- of_nsmb st iP pulse fs window lfindex;
  do p <- plot_fit st pulse fs (o_tdel o) (o_amp o) save "scFit" shifts;
  Ok (o, p).

(** [of_nsmb_con] with [lgcplot=True]; qetpy/core/_of_nsmb.py:1065-1082. *)
Definition of_nsmb_con_plot (pinv : nat -> (nat -> nat -> R) -> nat -> nat -> R)
    (polyfit : list R -> list R -> R * R * R) (st : setup) (pulse : nat -> R) (fs : R) (windows : list (list Z))
    (lfindex : nat) (bkgcon : option (list R)) (sig : sigcon) (shifts : option (list (option R))) (save : flag)
    : res (con_out * (nfig * option string)) :=
  do o <- of_nsmb_con pinv polyfit st pulse fs windows lfindex bkgcon sig;
  do p <- plot_fit st pulse fs (c_tdel o) (c_amp o) save "scFit" shifts;
  Ok (o, p).
