(** Notions used to say when a roadmap over a net of samples solves a query: a curve given
    by arclength, its clearance, a net along it, and a motion check that does not reject
    free motions. *)
From Coq Require Import List Reals QArith Qreals.
From Verif Require Import Geom_Spec.
Import ListNotations.
Close Scope Q_scope.
Open Scope R_scope.

Section Net.
  Context {P : Type}.
  Variable dim : nat.
  Variable pos : P -> list R.           (* coordinates of a point *)
  Variable free : list R -> Prop.       (* free space *)
  Variable check : P -> P -> bool.      (* motion check *)
  Variable dst : P -> P -> Q.           (* distances the program works with *)

  (** The curve [c], on [0, L], moves at most as fast as its parameter: it is a curve of
      length at most L. *)
  Definition curve (L : R) (c : R -> list R) : Prop :=
    (forall s, 0 <= s <= L -> length (c s) = dim) /\
    forall s t, 0 <= s <= L -> 0 <= t <= L -> dist (c s) (c t) <= Rabs (s - t).

  (** Every point within [delta] of the curve is free. *)
  Definition has_clearance (delta L : R) (c : R -> list R) : Prop :=
    forall s x, 0 <= s <= L -> length x = dim -> dist x (c s) <= delta -> free x.

  (** Every ball of radius [rho] around a point of the curve holds a sample. *)
  Definition net_along (rho L : R) (c : R -> list R) (ss : list P) : Prop :=
    forall s, 0 <= s <= L -> exists i p, nth_error ss i = Some p /\ dist (pos p) (c s) <= rho.

  (** The motion check accepts every motion all of whose points are free. *)
  Definition accepts_free_motions : Prop :=
    forall p q, (forall t, 0 <= t <= 1 -> free (at_time t (pos p) (pos q))) -> check p q = true.

  (** The program's distances are within [eta] of the Euclidean ones. *)
  Definition distances_within (eta : R) : Prop :=
    forall p q, Rabs (Q2R (dst p q) - dist (pos p) (pos q)) <= eta.

  Definition coordinates : Prop := forall p, length (pos p) = dim.
End Net.
