(** Geometric notions used to state the environment properties. *)
From Coq Require Import List Reals.
Import ListNotations.
Open Scope R_scope.

(** x lies on the closed planar segment from a to b *)
Definition on_segment (a b x : R * R) : Prop :=
  exists t, 0 <= t <= 1 /\ fst x = fst a + t * (fst b - fst a) /\ snd x = snd a + t * (snd b - snd a).
Definition share_point (a b c d : R * R) : Prop := exists x, on_segment a b x /\ on_segment c d x.

(** the two lines through the segments are parallel *)
Definition parallel (a b c d : R * R) : Prop :=
  (fst b - fst a) * (snd d - snd c) = (snd b - snd a) * (fst d - fst c).
(** the three points lie on one line *)
Definition aligned (a b c : R * R) : Prop :=
  (fst b - fst a) * (snd c - snd a) = (snd b - snd a) * (fst c - fst a).

(** point at parameter t of the straight motion from p to q *)
Fixpoint at_time (t : R) (p q : list R) : list R :=
  match p, q with
  | x :: p', y :: q' => (x + t * (y - x)) :: at_time t p' q'
  | _, _ => []
  end.

(** coordinates lie in a box *)
Definition in_box (p : list R) (lo hi : nat -> R) : Prop :=
  forall i, (i < length p)%nat -> lo i <= nth i p 0 <= hi i.

Fixpoint sumsq (p q : list R) : R :=
  match p, q with
  | x :: p', y :: q' => (x - y) * (x - y) + sumsq p' q'
  | _, _ => 0
  end.
Definition dist (p q : list R) : R := sqrt (sumsq p q).

(** The free space of the narrow passage in dim dimensions (docstring, envs.py 366-374). *)
Definition narrow_free (dim : nat) (c : R) (p : list R) : Prop :=
  length p = dim /\
  ((-3/2 <= nth 0 p 0 <= -1/2 /\ forall i, (1 <= i < dim)%nat -> -1/2 <= nth i p 0 <= 1/2) \/
   (-1/2 <= nth 0 p 0 <= 1/2 /\ forall i, (1 <= i < dim)%nat -> -c <= nth i p 0 <= c) \/
   (1/2 <= nth 0 p 0 <= 3/2 /\ forall i, (1 <= i < dim)%nat -> -1/2 <= nth i p 0 <= 1/2)).
(** The bounding box of the environment. *)
Definition narrow_outer (dim : nat) (p : list R) : Prop :=
  length p = dim /\ -3/2 <= nth 0 p 0 <= 3/2 /\
  forall i, (1 <= i < dim)%nat -> -1/2 <= nth i p 0 <= 1/2.
(** The wall segments, in every plane spanned by the first and another axis. *)
Definition walls (c : R) (s : (R * R) * (R * R)) : Prop :=
  In s [((-1/2, c), (-1/2, 1/2)); ((-1/2, -c), (-1/2, -1/2));
        ((-1/2, c), (1/2, c)); ((-1/2, -c), (1/2, -c));
        ((1/2, c), (1/2, 1/2)); ((1/2, -c), (1/2, -1/2))].
(** The straight reference path [0, L] x {0}. *)
Definition straight_path (dim : nat) (L : R) (p : list R) : Prop :=
  exists s, 0 <= s <= L /\ p = s :: repeat 0 (dim - 1).
(** all entries in the unit interval, as many as dimensions *)
Definition unit_draws (dim : nat) (u : list R) : Prop :=
  length u = dim /\ forall x, In x u -> 0 <= x <= 1.
