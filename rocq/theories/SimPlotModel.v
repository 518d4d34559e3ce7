(** * The simulated noise plots, qetpy/plotting/_noise_plotting.py:514-868

    The frequencies and the PSD are numpy arrays and all frequencies after the first are positive;
    then the methods of TESnoise are elementwise ([SimModel]).  A figure is modelled as in
    [PlotModel]: grids, limits, colours, fonts and the rendering are left out.  [plt.savefig] is
    assumed to accept the path. *)
From Coq Require Import String.
From Verif Require Import Base ListLemmas UtilsModel DidvModel SimModel PlotModel.
From Coquelicot Require Import Complex.
Open Scope R_scope.

(** A TESnoise object with its frequencies; qetpy/sim/_sim.py:280-284. *)
Record simobj : Type := mkSimobj { so_tes : tes; so_freqs : list R }.

(** A Python string: its text, and whether it is the interned object of that text. *)
Record pytext : Type := mkText { p_text : string; p_interned : bool }.
(** [istype is '...'] compares identity; qetpy/plotting/_noise_plotting.py:548, 554, 560, 566. *)
Definition is_literal (s : pytext) (l : string) : bool := (String.eqb (p_text s) l && p_interned s)%bool.

(** A method evaluated on an array.  The Python float divisions are done also for an empty array;
    whether they raise does not depend on the frequency, so they are tried at one frequency first;
    qetpy/sim/_sim.py:328, 352. *)
Definition on_array (m : R -> res R) (fs : list R) : res (list R) := do _ <- m 1; each m fs.

(** [np.sqrt(np.abs(a))]; qetpy/plotting/_noise_plotting.py:617. *)
Definition abs_root (v : R) : option R := Some (sqrt (Rabs v)).

(** A call of [ax.loglog]; qetpy/plotting/_noise_plotting.py:615-621. *)
Definition loglog_abs (t : tes) (m : tes -> R -> res R) (fs : list R) (label : string) : res curve :=
  do v <- on_array (m t) fs; draw fs (map abs_root v) (Some label).
(** The same without [np.abs]; qetpy/plotting/_noise_plotting.py:789-800. *)
Definition loglog_root (t : tes) (m : tes -> R -> R) (fs : list R) (label : string) : res curve :=
  draw fs (map (fun f => msqrt (m t f)) fs) (Some label).

(** [psd / (np.abs(noise_sim.dIdP(freqs))**2)]; a PSD of one entry is broadcast, other lengths are
    rejected here or by [ax.loglog]; qetpy/plotting/_noise_plotting.py:740. *)
Definition over_dIdP (t : tes) (psd fs : list R) : res (list R) :=
  do g <- on_array (fun f => do p <- dIdP t f; Ok (Cmod p ^ 2)) fs;
  let psd := match psd with [s] => repeat s (length fs) | _ => psd end in
  if (length psd =? length g)%nat then Ok (map (fun q => fst q / snd q) (combine psd g)) else Err ValueError.

(** Each helper's axes, title and curves in drawing order.  [fmt2] and [fmt] stand for the format
    codes [:.2f] and the plain one.  qetpy/plotting/_noise_plotting.py:599-656. *)
Definition plot_ti (fmt2 : R -> string) (f psd : list R) (t : tes) : res axes :=
  let fs := tl f in let psd := tl psd in
  do c1 <- loglog_abs t s_ites fs "TES Johnson Noise";
  do c2 <- loglog_abs t s_iload fs "Load Noise";
  do c3 <- loglog_abs t s_itfn fs "TFN Noise";
  do c4 <- loglog_abs t s_itot fs "Total Noise";
  do c5 <- loglog_abs t (fun t f => Ok (s_isquid t f)) fs "Squid+Electronics Noise";
  do c6 <- draw fs (map msqrt psd) (Some "Raw Data"%string);
  Ok (mkAxes (Some ("Current Noise For $R_0$ : " ++ fmt2 (t_r0 t * 1000) ++ " $m\Omega$")%string) false
        [c1; c2; c3; c4; c5; c6]).

(** qetpy/plotting/_noise_plotting.py:687-749. *)
Definition plot_tp (fmt2 : R -> string) (f psd : list R) (t : tes) : res axes :=
  let fs := tl f in let psd := tl psd in
  do c1 <- loglog_abs t s_ptes fs "TES Johnson Noise";
  do c2 <- loglog_abs t s_pload fs "Load Noise";
  do c3 <- loglog_abs t (fun t _ => Ok (s_ptfn t)) fs "TFN Noise";
  do c4 <- loglog_abs t s_ptot fs "Total Noise";
  do c5 <- loglog_abs t s_psquid fs "Squid+Electronics Noise";
  do d <- over_dIdP t psd fs;
  do c6 <- draw fs (map msqrt d) (Some "Raw Data"%string);
  Ok (mkAxes (Some ("Power Noise For $R_0$ : " ++ fmt2 (t_r0 t * 1000) ++ " $m\Omega$")%string) false
        [c1; c2; c3; c4; c5; c6]).

(** qetpy/plotting/_noise_plotting.py:779-807. *)
Definition plot_sc (fmt : R -> string) (f psd : list R) (t : tes) (qetbias : R) : res axes :=
  let fs := tl f in let psd := tl psd in
  do c1 <- draw fs (map msqrt psd) (Some "Raw Data"%string);
  do c2 <- loglog_root t s_isquid fs "Squid+Electronics Noise";
  do c3 <- loglog_root t s_iloadsc fs "Load Noise";
  do c4 <- loglog_root t s_itotsc fs "Total Noise";
  Ok (mkAxes (Some ("Superconducting State noise for QETbias: " ++ fmt (qetbias * 1000000) ++ " $\mu$A")%string) false
        [c1; c2; c3; c4]).

(** qetpy/plotting/_noise_plotting.py:837-868. *)
Definition plot_n (fmt : R -> string) (f psd : list R) (t : tes) (qetbias : R) : res axes :=
  let fs := tl f in let psd := tl psd in
  do c1 <- draw fs (map msqrt psd) (Some "Raw Data"%string);
  do c2 <- loglog_root t s_isquid fs "Squid+Electronics Noise";
  do c3 <- loglog_root t s_itesnormal fs "TES Johnson Noise";
  do c4 <- loglog_root t s_iloadnormal fs "Load Noise";
  do c5 <- loglog_root t s_itotnormal fs "Total Noise";
  Ok (mkAxes (Some ("Normal State noise for QETbias: " ++ fmt (qetbias * 1000000) ++ " $\mu$A")%string) false
        [c1; c2; c3; c4; c5]).

(** What a call leaves behind: the object, the files written (name and axes) and the returned axes;
    [Ok None] is Python's None. *)
Record simout : Type := mkSimout { o_sim : simobj; o_files : list (string * axes); o_result : res (option axes) }.

(** [if lgcsave: savefig(...) else: return fig, ax]; qetpy/plotting/_noise_plotting.py:550-553. *)
Definition finish (sim : simobj) (lgcsave : bool) (path : string) (r : res axes) : simout :=
  match r with
  | Err e => mkSimout sim [] (Err e)
  | Ok a => if lgcsave then mkSimout sim [(path, a)] (Ok None) else mkSimout sim [] (Ok (Some a))
  end.

(** The three format codes used: [:.2f], [:.3f] and the plain one. *)
Record formats : Type := mkFormats { fm2 : R -> string; fm3 : R -> string; fm0 : R -> string }.

(** qetpy/plotting/_noise_plotting.py:514-571.  The transition plots overwrite [noise_sim.freqs]
    (lines 601, 689) before anything can fail. *)
Definition plot_noise_sim (fm : formats) (f psd : list R) (sim : simobj) (istype : pytext) (qetbias : R)
    (lgcsave : bool) (figsavepath : string) : simout :=
  let bias := (fm3 fm (qetbias * 1000000) ++ "muA.png")%string in
  let t := so_tes sim in
  if is_literal istype "current" then
    finish (mkSimobj t (tl f)) lgcsave (figsavepath ++ "current_qetbias" ++ bias) (plot_ti (fm2 fm) f psd t)
  else if is_literal istype "power" then
    finish (mkSimobj t (tl f)) lgcsave (figsavepath ++ "power_noise_qetbias" ++ bias) (plot_tp (fm2 fm) f psd t)
  else if is_literal istype "sc" then
    finish sim lgcsave (figsavepath ++ "SC_noise_qetbias" ++ bias) (plot_sc (fm0 fm) f psd t qetbias)
  else if is_literal istype "normal" then
    finish sim lgcsave (figsavepath ++ "normal_noise_qetbias" ++ bias) (plot_n (fm0 fm) f psd t qetbias)
  else mkSimout sim [] (Ok None).
