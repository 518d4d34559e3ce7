(** * The noise plots of qetpy/plotting/_noise_plotting.py

    A figure is modelled by the data handed to matplotlib: titles, which axes are switched off and
    the curves with their labels.  Colours, fonts, grids, axis labels, tick formats and the
    rendering are not modelled.  matplotlib's [plot]/[loglog] raise ValueError when the two arrays
    differ in length. *)
From Coq Require Import String Ascii DecimalString.
From Verif Require Import Base ListLemmas Dft UtilsModel NoiseModel.
Open Scope R_scope.

(** One call of [loglog]/[plot]: abscissae, ordinates ([None] for nan) and the [label] argument;
    qetpy/plotting/_noise_plotting.py:48, 79, 139, 197, 271. *)
Record curve : Type := mkCurve { c_x : list R; c_y : list (option R); c_label : option string }.

(** One matplotlib axes: title, whether [axis('off')] was called, curves;
    qetpy/plotting/_noise_plotting.py:74-89. *)
Record axes : Type := mkAxes { a_title : option string; a_hidden : bool; a_curves : list curve }.

(** A figure: its title and its axes, row by row; qetpy/plotting/_noise_plotting.py:42-43, 65-66. *)
Record figure : Type := mkFig { f_title : string; f_rows : list (list axes) }.

(** What a call does besides returning: [print], [plt.savefig], [plt.show];
    qetpy/plotting/_noise_plotting.py:37, 52-59. *)
Inductive event : Type := Printed (s : string) | Saved (path : string) (f : figure) | Shown (f : figure).

(** Events in order, and the outcome. *)
Definition out (A : Type) : Type := (list event * res A)%type.
Definition andthen {A B} (m : out A) (f : A -> out B) : out B :=
  match snd m with
  | Ok a => (fst m ++ fst (f a), snd (f a))%list
  | Err e => (fst m, Err e)
  end.
(** A computation without events. *)
Definition quiet {A} (r : res A) : out A := ([], r).

(** ** The object *)

(** A Noise object with the attributes the plots use: those of [noise], [channames], [name] and
    [freqs]; qetpy/core/_noise.py:243-253. *)
Record pnoise : Type := mkPn { pn : noise; channames : list string; pname : option string; freqs : list R }.

(** [np.fft.rfftfreq(n, d = 1/fs)], qetpy/core/_noise.py:253. *)
Definition rfftfreqs (n : nat) (fs : R) : list R := mk (n / 2 + 1) (fun k => INR k * (1 / (INR n * (1 / fs)))).

(** The constructor, qetpy/core/_noise.py:213-269. *)
Definition noise_new (n : nat) (inp : noise_input) (fs : R) (names : list string) (tracegain : R)
    (name : option string) (time : option (nat -> R)) : res pnoise :=
  do o <- noise_init n inp fs (length names) tracegain time;
  Ok (mkPn o names name (rfftfreqs n fs)).

(** Any sequence of the calculating methods; qetpy/core/_noise.py:271-406. *)
Definition after (inv : nat -> cmatrix -> option cmatrix) (ops : list nop) (o : pnoise) : pnoise :=
  mkPn (run_noises inv ops (pn o)) (channames o) (pname o) (freqs o).

(** The formatted [noise.name]; qetpy/plotting/_noise_plotting.py:43, 191. *)
Definition shown_name (o : pnoise) : string := match pname o with Some s => s | None => "None"%string end.

(** ** Drawing *)

(** matplotlib's check of the two lengths; qetpy/plotting/_noise_plotting.py:48. *)
Definition draw (x : list R) (y : list (option R)) (label : option string) : res curve :=
  if (length x =? length y)%nat then Ok (mkCurve x y label) else Err ValueError.

(** [np.sqrt] of one entry. *)
Definition msqrt (v : R) : option R := if Rltb v 0 then None else Some (sqrt v).

(** [np.sqrt(row[1:])], qetpy/plotting/_noise_plotting.py:48. *)
Definition asd (row : list R) : list (option R) := map msqrt (tl row).

(** [rows[i]] of a numpy array. *)
Definition row_at {A} (rows : list A) (i : nat) : res A :=
  match nth_error rows i with Some r => Ok r | None => Err IndexError end.

(** The overlay loop, qetpy/plotting/_noise_plotting.py:47-48, 335-336. *)
Fixpoint overlay (fr : list R) (rows : list (list R)) (i : nat) (names : list string) : res (list curve) :=
  match names with
  | [] => Ok []
  | channel :: names =>
      do row <- row_at rows i;
      do c <- draw (tl fr) (asd row) (Some channel);
      do cs <- overlay fr rows (S i) names;
      Ok (c :: cs)
  end.

(** A fresh axes, and one on which [axis('off')] was called;
    qetpy/plotting/_noise_plotting.py:65, 87-89. *)
Definition blank : axes := mkAxes None false [].
Definition switched_off : axes := mkAxes None true [].

(** [axes[irow, jcolumn]] receives its content; qetpy/plotting/_noise_plotting.py:74-89. *)
Definition set_nth {A} (l : list A) (i : nat) (a : A) : list A := (firstn i l ++ a :: skipn (S i) l)%list.
Definition set_axes (g : list (list axes)) (r c : nat) (a : axes) : list (list axes) :=
  set_nth g r (set_nth (nth r g []) c a).

(** The cell of loop index [ii]; qetpy/plotting/_noise_plotting.py:68-73. *)
Definition place (nrows ii : nat) : nat * nat := if (ii <? nrows)%nat then (ii, 0%nat) else ((ii - nrows)%nat, 1%nat).

(** The loop over the cells, qetpy/plotting/_noise_plotting.py:67-89; [content ii] is what is put on
    the axes of channel [ii].  The cases [nrows == 1] and [nrows > 1] differ only in how numpy
    indexes the array of axes. *)
Fixpoint fill_cells (content : nat -> res axes) (n nrows : nat) (is : list nat) (g : list (list axes))
  : res (list (list axes)) :=
  match is with
  | [] => Ok g
  | ii :: is =>
      do a <- (if (ii <? n)%nat then content ii else Ok switched_off);
      fill_cells content n nrows is (set_axes g (fst (place nrows ii)) (snd (place nrows ii)) a)
  end.

(** [plt.subplots(nrows, 2)] and the loop, qetpy/plotting/_noise_plotting.py:62-89;
    [plt.subplots] rejects zero rows. *)
Definition subplots (content : nat -> res axes) (n : nat) : res (list (list axes)) :=
  let nrows := ((n + 1) / 2)%nat in
  if (nrows =? 0)%nat then Err ValueError
  else fill_cells content n nrows (seq 0 (nrows * 2)) (repeat (repeat blank 2) nrows).

(** ** Saving *)

(** [noise.name.replace(" ", "_")], qetpy/plotting/_noise_plotting.py:53. *)
Fixpoint underscored (s : string) : string :=
  match s with
  | EmptyString => EmptyString
  | String c s => String (if Ascii.eqb c " "%char then "_"%char else c) (underscored s)
  end.

(** The printed text of the bare [except]; qetpy/plotting/_noise_plotting.py:58. *)
Definition not_saved : string := "Invalid save path. Figure not saved".

(** The [try: plt.savefig(savepath + noise.name.replace(...) + suffix) except: print] block;
    [can_save] tells whether [plt.savefig] accepts the path; a missing path or name raises inside
    the [try]; qetpy/plotting/_noise_plotting.py:50-58. *)
Definition try_save (can_save : string -> bool) (lgcsave : bool) (savepath name : option string)
    (suffix : string) (f : figure) : list event :=
  if lgcsave then
    match savepath, name with
    | Some p, Some s =>
        let path := (p ++ underscored s ++ suffix)%string in
        if can_save path then [Saved path f] else [Printed not_saved]
    | _, _ => [Printed not_saved]
    end
  else [].

(** Saving (if asked for) and [plt.show()]; qetpy/plotting/_noise_plotting.py:50-59. *)
Definition finish (can_save : string -> bool) (lgcsave : bool) (savepath name : option string)
    (suffix : string) (f : figure) : out unit :=
  ((try_save can_save lgcsave savepath name suffix f ++ [Shown f])%list, Ok tt).

(** A figure with one axes. *)
Definition single (title : string) (cs : list curve) : figure :=
  mkFig title [[mkAxes (Some title) false cs]].

(** ** The plots *)

(** qetpy/plotting/_noise_plotting.py:18-98 and qetpy/core/_noise.py:423. *)
Definition plot_psd (can_save : string -> bool) (o : pnoise) (lgcoverlay lgcsave : bool) (savepath : option string)
  : out unit :=
  match n_psd (pn o) with
  | None => ([Printed "Need to calculate the psd first"], Ok tt)
  | Some psd =>
      if lgcoverlay then
        andthen (quiet (overlay (freqs o) psd 0 (channames o)))
          (fun cs => finish can_save lgcsave savepath (pname o) "_PSD_overlay.png"
                       (single (shown_name o ++ " PSD") cs))
      else
        let content ii :=
          do title <- row_at (channames o) ii;
          do row <- row_at psd ii;
          do c <- draw (tl (freqs o)) (asd row) None;
          Ok (mkAxes (Some title) false [c]) in
        andthen (quiet (subplots content (length (channames o))))
          (fun rows => finish can_save lgcsave savepath (pname o) "_PSD_subplot.png"
                         (mkFig (shown_name o ++ " PSD") rows))
  end.

(** qetpy/plotting/_noise_plotting.py:102-162. *)
Definition plot_reim_psd (can_save : string -> bool) (o : pnoise) (lgcsave : bool) (savepath : option string)
  : out unit :=
  match n_real_psd (pn o) with
  | None => ([Printed "Need to calculate the psd first"], Ok tt)
  | Some re =>
      let content ii :=
        do title <- row_at (channames o) ii;
        do rre <- row_at re ii;
        do cre <- draw (tl (freqs o)) (asd rre) (Some "real"%string);
        do im <- (match n_imag_psd (pn o) with Some im => Ok im | None => Err TypeError end);
        do rim <- row_at im ii;
        do cim <- draw (tl (freqs o)) (asd rim) (Some "imag"%string);
        Ok (mkAxes (Some title) false [cre; cim]) in
      andthen (quiet (subplots content (length (channames o))))
        (fun rows => finish can_save lgcsave savepath (pname o) "_ReIm_PSD.png"
                       (mkFig (shown_name o ++ " Real vs Imaginary PSD") rows))
  end.

(** The method Noise.plot_reim_psd, qetpy/core/_noise.py:425-439: it passes [lgcsave = False] and
    [savepath = None] whatever it is given. *)
Definition Noise_plot_reim_psd (can_save : string -> bool) (o : pnoise) (lgcsave : bool) (savepath : option string)
  : out unit := plot_reim_psd can_save o false None.

(** The pairs of the double loop with [ii > jj], in order; qetpy/plotting/_noise_plotting.py:192-194. *)
Definition pairs_below (n : nat) : list (nat * nat) :=
  flat_map (fun ii => map (pair ii) (filter (fun jj => (jj <? ii)%nat) (seq 0 n))) (seq 0 n).

(** Drawing one curve per element; qetpy/plotting/_noise_plotting.py:192-206. *)
Fixpoint each {A B} (f : A -> res B) (l : list A) : res (list B) :=
  match l with
  | [] => Ok []
  | a :: l => do b <- f a; do bs <- each f l; Ok (b :: bs)
  end.

(** qetpy/plotting/_noise_plotting.py:166-222; [savgol nwindow y] is scipy's
    [savgol_filter(y, nwindow, 3, mode='nearest')].  The coefficient array holds [lenpsd] bins per
    pair (qetpy/core/_noise.py:327-334). *)
Definition plot_corrcoeff (savgol : nat -> list R -> res (list R)) (can_save : string -> bool) (o : pnoise)
    (lgcsmooth : bool) (nwindow : nat) (lgcsave : bool) (savepath : option string) : out unit :=
  match n_corrcoeff (pn o) with
  | None => ([Printed "Need to calculate the corrcoeff first"], Ok tt)
  | Some cc =>
      let one p :=
        do ni <- row_at (channames o) (fst p);
        do nj <- row_at (channames o) (snd p);
        let y := tl (mk (lenpsd (nbins (pn o))) (cc (fst p) (snd p))) in
        do ys <- (if lgcsmooth then savgol nwindow y else Ok y);
        draw (tl (freqs o)) (map Some ys) (Some (ni ++ " - " ++ nj)%string) in
      andthen (quiet (each one (pairs_below (nchan (pn o)))))
        (fun cs => finish can_save lgcsave savepath (pname o) "_corrcoeff.png"
                     (single (shown_name o ++ " " ++ String "010"%char " Cross Channel Correlation Coefficients") cs))
  end.

(** ** plot_csd *)

(** An element of [whichcsd]: a string or something else. *)
Inductive csdlabel : Type := LStr (s : string) | LOther.

(** [label[i]], then [int(...)] of the one character.  Simplification: ASCII digits; Python's [int]
    also accepts the other Unicode decimal digits.  qetpy/plotting/_noise_plotting.py:253-254. *)
Definition char_at (s : string) (i : nat) : res ascii :=
  match String.get i s with Some a => Ok a | None => Err IndexError end.
Definition int_of_char (a : ascii) : res nat :=
  let k := nat_of_ascii a in
  if ((48 <=? k) && (k <=? 57))%nat then Ok (k - 48)%nat else Err ValueError.

(** Outcome of the first loop: the index pairs, or an early [return] after a message. *)
Inductive scanned : Type := Indices (ps : list (nat * nat)) | Refused (m : string).

(** qetpy/plotting/_noise_plotting.py:249-260; [n] is the number of channels of [real_csd]. *)
Fixpoint scan_labels (n : nat) (ls : list csdlabel) : res scanned :=
  match ls with
  | [] => Ok (Indices [])
  | LOther :: _ =>
      Ok (Refused "Invalid selection. Please provide a list of strings for the desired plots. Ex: ['01','02'] ")
  | LStr s :: ls =>
      do a <- char_at s 0; do x <- int_of_char a;
      do b <- char_at s 1; do y <- int_of_char b;
      if ((n <=? x) || (n <=? y))%nat then Ok (Refused "index out of range")
      else
        do r <- scan_labels n ls;
        Ok (match r with Indices ps => Indices ((x, y) :: ps) | Refused m => Refused m end)
  end.

(** Decimal text of a number, as ['{}'.format(ii)]. *)
Definition dec (n : nat) : string := NilZero.string_of_uint (Nat.to_uint n).

(** The second loop, qetpy/plotting/_noise_plotting.py:262-290. *)
Fixpoint csd_figures (can_save : string -> bool) (o : pnoise) (part : string) (spec : nat -> nat -> list R)
    (lgcsave : bool) (savepath : option string) (ii : nat) (ps : list (nat * nat)) : out unit :=
  match ps with
  | [] => ([], Ok tt)
  | (x, y) :: ps =>
      andthen (quiet (do nx <- row_at (channames o) x; do ny <- row_at (channames o) y;
                      do c <- draw (tl (freqs o)) (map Some (tl (spec x y))) None;
                      Ok (single (shown_name o ++ " " ++ part ++ "(CSD) for channels: " ++ nx ++ "-" ++ ny) [c])))
        (fun f => andthen (finish can_save lgcsave savepath (pname o) ("_csd" ++ dec ii ++ ".png") f)
          (fun _ => csd_figures can_save o part spec lgcsave savepath (S ii) ps))
  end.

(** qetpy/plotting/_noise_plotting.py:224-290. *)
Definition plot_csd (can_save : string -> bool) (o : pnoise) (whichcsd : list csdlabel) (lgcreal lgcsave : bool)
    (savepath : option string) : out unit :=
  match n_csd (pn o) with
  | None => ([Printed "Must calculate the csd first"], Ok tt)
  | Some _ =>
      match n_real_csd (pn o), n_imag_csd (pn o) with
      | Some re, Some im =>
          andthen (quiet (scan_labels (nchan (pn o)) whichcsd))
            (fun r => match r with
                      | Refused m => ([Printed m], Ok tt)
                      | Indices ps =>
                          csd_figures can_save o (if lgcreal then "Re" else "Im") (if lgcreal then re else im)
                            lgcsave savepath 0 ps
                      end)
      | _, _ => ([], Err AttributeError)
      end
  end.

(** ** plot_decorrelatednoise *)

(** Attribute that is [None]: subscripting raises TypeError. *)
Definition subscriptable {A} (x : option A) : res A := match x with Some a => Ok a | None => Err TypeError end.

(** [u[1:] + c[1:]] of two arrays; numpy raises ValueError when the lengths differ;
    qetpy/plotting/_noise_plotting.py:390. *)
Definition add_rows (u c : list R) : res (list R) :=
  if (length u =? length c)%nat then Ok (map (fun p => fst p + snd p) (combine u c)) else Err ValueError.

(** The curves of one channel, qetpy/plotting/_noise_plotting.py:368-393. *)
Definition decorr_curves (o : pnoise) (unc : list (list R)) (lgcdata lgcuncorr lgccorr lgcsum : bool) (ii : nat)
  : res (list curve) :=
  do d <- (if lgcdata then
             do rc <- subscriptable (n_real_csd (pn o));
             do c <- draw (tl (freqs o)) (asd (rc ii ii)) (Some "Data"%string); Ok [c]
           else Ok []);
  do u <- (if lgcuncorr then
             do r <- row_at unc ii;
             do c <- draw (tl (freqs o)) (asd r) (Some "Uncorrelated Noise"%string); Ok [c]
           else Ok []);
  do k <- (if lgccorr then
             do cor <- subscriptable (n_corr (pn o)); do r <- row_at cor ii;
             do c <- draw (tl (freqs o)) (asd r) (Some "Correlated Noise"%string); Ok [c]
           else Ok []);
  do s <- (if lgcsum then
             do ru <- row_at unc ii;
             do cor <- subscriptable (n_corr (pn o)); do rc <- row_at cor ii;
             do t <- add_rows (tl ru) (tl rc);
             do c <- draw (tl (freqs o)) (map msqrt t) (Some "Total Noise"%string); Ok [c]
           else Ok []);
  Ok (d ++ u ++ k ++ s)%list.

(** qetpy/plotting/_noise_plotting.py:293-441. *)
Definition plot_decorrelatednoise (can_save : string -> bool) (o : pnoise)
    (lgcoverlay lgcdata lgcuncorr lgccorr lgcsum lgcsave : bool) (savepath : option string) : out unit :=
  match n_uncorr (pn o) with
  | None => ([Printed "Need to de-correlate the noise first"], Ok tt)
  | Some unc =>
      let title := (shown_name o ++ " de-correlated noise")%string in
      if lgcoverlay then
        andthen (quiet (overlay (freqs o) unc 0 (channames o)))
          (fun cs => finish can_save lgcsave savepath (pname o) "_deCorrNoise_overlay.png" (single title cs))
      else
        let content ii :=
          do t <- row_at (channames o) ii;
          do cs <- decorr_curves o unc lgcdata lgcuncorr lgccorr lgcsum ii;
          Ok (mkAxes (Some t) false cs) in
        andthen (quiet (subplots content (length (channames o))))
          (fun rows => finish can_save lgcsave savepath (pname o) "_deCorrNoise_subplot.png" (mkFig title rows))
  end.

(** ** compare_noise *)

(** An object of the list given to compare_noise: a Noise object together with the attribute
    [chann_dict] somebody may have put on it.  The class does not define this attribute (its
    dictionary is called [chandict], qetpy/core/_noise.py:266-269). *)
Record compared : Type := mkCmp { cmp : pnoise; chann_dict : option (list (string * nat)) }.
Definition as_built (o : pnoise) : compared := mkCmp o None.

(** [self.chandict], qetpy/core/_noise.py:266-269: a later equal name overwrites an earlier one. *)
Fixpoint name_dict (i : nat) (names : list string) (d : list (string * nat)) : list (string * nat) :=
  match names with
  | [] => d
  | s :: names => name_dict (S i) names ((s, i) :: d)
  end.
Definition chandict (o : pnoise) : list (string * nat) := name_dict 0 (channames o) [].

(** Dictionary lookup. *)
Fixpoint dict_get (d : list (string * nat)) (s : string) : option nat :=
  match d with
  | [] => None
  | (k, v) :: d => if String.eqb s k then Some v else dict_get d s
  end.

(** The inner loop over the objects, qetpy/plotting/_noise_plotting.py:476-493. *)
Fixpoint compare_curves (chan : string) (decor : bool) (arr : list compared) : out (list curve) :=
  match arr with
  | [] => ([], Ok [])
  | c :: arr =>
      let o := cmp c in
      let rest (cs : list curve) := andthen (compare_curves chan decor arr) (fun r => ([], Ok (cs ++ r)%list)) in
      match chann_dict c with
      | None => ([], Err AttributeError)
      | Some d =>
          match dict_get d chan with
          | None => andthen ([Printed ("channel: " ++ chan ++ " not found for file: " ++ shown_name o ++ " ")], Ok tt)
                      (fun _ => rest [])
          | Some i =>
              if decor then
                match n_uncorr (pn o) with
                | None => andthen ([Printed ("The decorrelated noise for file: " ++ shown_name o ++ " has not been calculated yet")], Ok tt)
                            (fun _ => rest [])
                | Some unc =>
                    andthen (quiet (do r <- row_at unc i;
                                    do nm <- (match pname o with Some s => Ok s | None => Err TypeError end);
                                    draw (tl (freqs o)) (asd r) (Some (nm ++ " Decorrelated Noise")%string)))
                      (fun k => rest [k])
                end
              else
                andthen (quiet (do psd <- subscriptable (n_psd (pn o)); do r <- row_at psd i;
                                draw (tl (freqs o)) (asd r) (pname o)))
                  (fun k => rest [k])
          end
      end
  end.

(** The argument [channels]: a list or array of names, or something else. *)
Inductive chanarg : Type := ChanList (l : list string) | ChanOther.

(** The loop over the channels, qetpy/plotting/_noise_plotting.py:468-506. *)
Fixpoint compare_channels (can_save : string -> bool) (arr : list compared) (decor lgcsave : bool)
    (savepath : option string) (chans : list string) : out unit :=
  match chans with
  | [] => ([], Ok tt)
  | chan :: chans =>
      andthen
        (if existsb (String.eqb chan) (concat (map (fun c => channames (cmp c)) arr)) then
           andthen (compare_curves chan decor arr)
             (fun cs => let f := single chan cs in
                ((if lgcsave then
                    match savepath with
                    | Some p => let path := (p ++ chan ++ "_PSD_comparison.png")%string in
                                if can_save path then [Saved path f] else [Printed not_saved]
                    | None => [Printed not_saved]
                    end
                  else []) ++ [Shown f], Ok tt)%list)
         else ([Printed ("Invalid channel name: " ++ chan ++ " ")], Ok tt))
        (fun _ => compare_channels can_save arr decor lgcsave savepath chans)
  end.

(** qetpy/plotting/_noise_plotting.py:444-508. *)
Definition compare_noise (can_save : string -> bool) (arr : list compared) (channels : chanarg)
    (decor lgcsave : bool) (savepath : option string) : out unit :=
  match channels with
  | ChanOther => ([Printed "Please provide desired channels in format of a list of numpy.ndarray. ex ['PSA1','PAS2']"], Ok tt)
  | ChanList chans => compare_channels can_save arr decor lgcsave savepath chans
  end.

(** ** Noise.save *)

(** The last character of a string; [path[-1]] raises IndexError on the empty string;
    qetpy/core/_noise.py:520. *)
Fixpoint last_char (s : string) : res ascii :=
  match s with
  | EmptyString => Err IndexError
  | String c EmptyString => Ok c
  | String _ s => last_char s
  end.

(** Noise.save, qetpy/core/_noise.py:510-524: the file that is opened for writing.  Whether opening
    succeeds and the pickled bytes are not modelled. *)
Definition Noise_save (o : pnoise) (path : string) : res string :=
  do c <- last_char path;
  let path := (if Ascii.eqb c "/"%char then path else path ++ "/")%string in
  do nm <- (match pname o with Some s => Ok s | None => Err AttributeError end);
  Ok (path ++ underscored nm ++ ".pkl")%string.
