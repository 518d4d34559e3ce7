(** * Model of the constrained minimum search of qetpy/core/_fitting.py *)
From Verif Require Import Base UtilsModel.
Local Open Scope R_scope.

(** [np.argmin(l)]: position of the first smallest entry of a list with head [v]
    (called at qetpy/core/_fitting.py:93, 99 and 103). *)
Fixpoint argmin_from (i best : nat) (bv : R) (l : list R) : nat :=
  match l with
  | [] => best
  | v :: l => if Rltb v bv then argmin_from (S i) i v l else argmin_from (S i) best bv l
  end.

(** [np.argmin(l)]; an empty array raises ValueError; qetpy/core/_fitting.py:93,99,103. *)
Definition argmin (l : list R) : res nat :=
  match l with [] => Err ValueError | v :: l => Ok (argmin_from 1 0 v l) end.

(** [np.arange(lo, hi)] on integers; qetpy/core/_fitting.py:83,87. *)
Definition arangeZ (lo hi : Z) : list Z := zrange lo (Z.to_nat (hi - lo)).

(** The window bins [inds], qetpy/core/_fitting.py:80-88, for an [nconstrain] that is
    already limited to [nbins].  [-nbins//2] parses as [(-nbins)//2]. *)
Definition window_inds (nbins nconstrain windowcenter : Z) (outside : bool) : list Z :=
  let win_start := (nbins / 2 - nconstrain / 2 + windowcenter)%Z in
  if outside then
    let win_end := ((- nbins) / 2 + nconstrain / 2 + nconstrain mod 2 + windowcenter)%Z in
    map (fun i => if (i <? 0)%Z then (i + nbins)%Z else i)
        (arangeZ 0 win_start ++ arangeZ win_end 0)
  else
    let win_end := (nbins / 2 + nconstrain / 2 + nconstrain mod 2 + windowcenter)%Z in
    filter (fun i => (0 <=? i)%Z && (i <? nbins)%Z) (arangeZ win_start win_end).

(** [a[inds]] with an integer index array; qetpy/core/_fitting.py:91,93. *)
Fixpoint take {A} (a : list A) (inds : list Z) : res (list A) :=
  match inds with
  | [] => Ok []
  | i :: inds => do x <- pyindex a i; do r <- take a inds; Ok (x :: r)
  end.

(** [np.flatnonzero(mask)]; qetpy/core/_fitting.py:101. *)
Definition flatnonzero (mask : list bool) : list Z :=
  mask_select mask (zrange 0 (length mask)).

(** [np.argmin(chi2[..., inds])] followed by [inds[bestind]]; [None] is [np.nan];
    qetpy/core/_fitting.py:92-96 and 101-106. *)
Definition best_of (chi2 : list R) (inds : list Z) : res (option Z) :=
  match inds with
  | [] => Ok None
  | _ =>
      do vals <- take chi2 inds;
      do b <- argmin vals;
      do i <- pyindex inds (Z.of_nat b);
      Ok (Some i)
  end.

(** [_argmin_chi2] for a one-dimensional [chi2]; qetpy/core/_fitting.py:64-108. *)
Definition argmin_chi2 (chi2 : list R) (nconstrain : option Z) (outside : bool)
  (mask : option (list bool)) (windowcenter : Z) : res (option Z) :=
  let nbins := Z.of_nat (length chi2) in
  if negb ((- (nbins / 2) <=? windowcenter)%Z
           && (windowcenter <=? nbins / 2 - (nbins + 1) mod 2)%Z)
  then Err ValueError
  else
    match nconstrain with
    | Some nc =>
        do nc <- (if (nc >? nbins)%Z then Ok nbins
                  else if (nc <=? 0)%Z then Err ValueError else Ok nc);
        let inds := window_inds nbins nc windowcenter outside in
        do inds <- match mask with
                   | Some m => do sel <- take m inds; Ok (mask_select sel inds)
                   | None => Ok inds
                   end;
        best_of chi2 inds
    | None =>
        match mask with
        | None => do b <- argmin chi2; Ok (Some (Z.of_nat b))
        | Some m => best_of chi2 (flatnonzero m)
        end
    end.

(** [_get_pulse_direction_constraint_mask]; qetpy/core/_fitting.py:137-145. *)
Definition direction_mask (amps : list R) (dir : Z) : res (option (list bool)) :=
  if ((dir =? -1)%Z || (dir =? 0)%Z || (dir =? 1)%Z)%bool then
    if (dir =? 0)%Z then Ok None
    else Ok (Some (map (fun a => Rltb 0 (IZR dir * a)) amps))
  else Err ValueError.
