(** Specification vocabulary for the sample bound (C01-C03, C06, C07, C66).
    Independent of Bound_Model.v: binomial coefficients are the factorial quotients
    of the standard library, the failure bound is the textbook product form, and
    ball volumes come from the two-step recurrence. *)
From Coq Require Import ZArith Reals.
Open Scope R_scope.

(** n choose i, zero above the diagonal. *)
Definition choose (n i : nat) : R := if (i <=? n)%nat then C n i else 0.

(** The double-sampling failure bound for a set system of VC dimension [vc] whose
    sets have measure [rho]:  2 * (sum_{i<=vc} choose(2m, i)) * 2^(-rho m / 2). *)
Definition net_failure_bound (rho : R) (vc : nat) (m : nat) : R :=
  2 * sum_f_R0 (fun i => choose (2 * m) i) vc * Rpower 2 (- rho * INR m / 2).

(** Volume of the d-dimensional unit ball: V_0 = 1, V_1 = 2, V_(d+2) = 2 pi V_d / (d+2). *)
Fixpoint unit_ball_volume (d : nat) : R :=
  match d with
  | O => 1
  | S O => 2
  | S (S d') => 2 * PI / INR d * unit_ball_volume d'
  end.

(** Measure, relative to a region of volume [vol], of a ball of the radius that gives
    stretch factor 1+tol at the given clearance (radius = clearance when [tol] is None). *)
Definition ball_measure (clearance : R) (tol : option R) (dim : nat) (vol : R) : R :=
  let a := match tol with None => 1 | Some t => t / sqrt (1 + t * t) end in
  unit_ball_volume dim * (a * clearance) ^ dim / vol.

(** Tolerance order: a larger stretch factor, or no requirement at all, is easier *)
Definition tol_easier (t1 t2 : option R) : Prop :=
  match t1, t2 with
  | Some a, Some b => 0 <= a <= b
  | Some a, None => 0 <= a
  | None, None => True
  | None, Some _ => False
  end.

(** Expected number of the other m-1 uniform samples that land in a ball of radius r
    (ball measure capped at 1). *)
Definition expected_ball_count (m : Z) (r : R) (dim : nat) (vol : R) : R :=
  (IZR m - 1) * Rmin (unit_ball_volume dim * r ^ dim / vol) 1.

(** Order on values where [None] stands for minus infinity. *)
Definition ext_le (a b : option R) : Prop :=
  match a, b with
  | None, _ => True
  | Some x, Some y => x <= y
  | Some _, None => False
  end.
