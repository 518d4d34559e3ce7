(** * Specifications for IV and IBIS, independent of the model

    From IvModel only the types of the arguments are used: [nd], [rarg]. *)
From Verif Require Import Base IvModel.
From Coquelicot Require Import Coquelicot.
Local Open Scope R_scope.

(** [x] with its [k]-th entry replaced by [u] *)
Definition upd (x : nat -> R) (k : nat) (u : R) : nat -> R := fun j => if (j =? k)%nat then u else x j.

Definition vec (l : list R) : nat -> R := fun k => nth k l 0.

(** [e] is the linearly propagated standard deviation of [f] at [x] when the [n] arguments have
    covariance matrix [cov]: sqrt (sum_ij d_i f cov_ij d_j f). *)
Definition propagates (n : nat) (f : (nat -> R) -> R) (x : nat -> R) (cov : nat -> nat -> R) (e : R) : Prop :=
  exists g : nat -> R,
    (forall k, (k < n)%nat -> is_derive (fun u => f (upd x k u)) (x k) (g k)) /\
    e = sqrt (rsum n (fun i => rsum n (fun j => g i * cov i j * g j))).

(** Independent arguments with the given standard deviations *)
Definition independent (s : list R) : nat -> nat -> R := fun i j => if (i =? j)%nat then nth i s 0 ^ 2 else 0.

(** Weighted squared distance of the points (x, y, sigma) from the line [m x + b] *)
Definition line_chi2 (pts : list (R * R * R)) (b m : R) : R :=
  lsum (map (fun p => let '(x, y, s) := p in ((m * x + b - y) / s) ^ 2) pts).

(** The line is a best fit of the points. *)
Definition best_line (pts : list (R * R * R)) (b m : R) : Prop :=
  forall b' m', line_chi2 pts b m <= line_chi2 pts b' m'.

(** All points on a line, with non-zero uncertainties, at least two abscissas *)
Definition on_line (pts : list (R * R * R)) (b m : R) : Prop :=
  (forall x y s, In (x, y, s) pts -> s <> 0 /\ y = m * x + b) /\
  exists x y s x' y' s', In (x, y, s) pts /\ In (x', y', s') pts /\ x <> x'.

(** The points at the given places *)
Definition points (x y s : nat -> R) (inds : list nat) : list (R * R * R) := map (fun i => (x i, y i, s i)) inds.

(** The first [e] points, fitted by the line [m x + b], have reduced chi2 at most [tol]. *)
Definition consistent (x y s : nat -> R) (tol : R) (e : nat) (b m : R) : Prop :=
  line_chi2 (points x y s (seq 0 e)) b m / (INR e - 2) <= tol.

(** The data array describes [nt] temperatures, [nc] channels, [ni] bias points. *)
Definition has_dims (a : nd) (nt nc ni : nat) : Prop :=
  shape a = [nt; nc; ni] \/ shape a = [nc; ni] /\ nt = 1%nat \/ shape a = ni :: nil /\ nt = 1%nat /\ nc = 1%nat.

(** Entry of a data array for temperature [t], channel [c], bias point [i] (C order) *)
Definition entry (nc ni : nat) (a : nd) (t c i : nat) : R := flat a ((t * nc + c) * ni + i)%nat.
Definition entry_nan (nc ni : nat) (a : nd) (t c i : nat) : bool := nanat a ((t * nc + c) * ni + i)%nat.

(** [v] is the resistance that the argument [r] gives for temperature [t], channel [c], bias point [i]. *)
Definition load_at (nt nc ni : nat) (r : rarg) (t c i : nat) (v : R) : Prop :=
  match r with
  | RScalar w => v = w
  | RArr a => shape a = nc :: nil /\ v = flat a c \/
              shape a = [nt; nc] /\ v = flat a (t * nc + c)%nat \/
              shape a = [nt; nc; ni] /\ v = entry nc ni a t c i
  end.

(** The documented forms of a resistance argument *)
Definition documented_form (nt nc ni : nat) (r : rarg) : Prop :=
  match r with
  | RScalar _ => True
  | RArr a => shape a = nc :: nil \/ shape a = [nt; nc] \/ shape a = [nt; nc; ni]
  end.
Definition same_form (r e : rarg) : Prop :=
  match r, e with
  | RScalar _, RScalar _ => True
  | RArr a, RArr b => shape a = shape b
  | _, _ => False
  end.

(** A per-bias-point resistance array *)
Definition full_array (nt nc ni : nat) (r : rarg) : Prop :=
  match r with RScalar _ => False | RArr a => shape a = [nt; nc; ni] end.

(** The arguments of a constructor fit together: data of one to three axes, as many names as
    channels, the other arrays of the same size, a resistance of a documented form. *)
Definition accepted (d : nd) (others : list nd) (r : rarg) (nn : nat) : Prop :=
  exists nt nc ni, has_dims d nt nc ni /\ nn = nc /\ (forall a, In a others -> size a = (nt * nc * ni)%nat) /\ documented_form nt nc ni r.
