(** Vocabulary for the results of the narrow passage experiments (C168-C170): the settings a row belongs to, success
    rates as quotients of two counts, and the volume of the passage in closed form. *)
From Coq Require Import Reals List.
From Verif Require Import Bound_Spec NarrowTab_Model.
Import ListNotations.
Open Scope R_scope.

(** equal up to one part in a hundred thousand *)
Definition near (a b : R) : Prop := Rabs (a - b) <= 1 / 10 ^ 8 + 1 / 10 ^ 5 * Rabs b.
(** the list holds [n] elements with the property *)
Inductive counts {A} (P : A -> Prop) : list A -> nat -> Prop :=
| counts_nil : counts P [] 0
| counts_yes : forall x l n, P x -> counts P l n -> counts P (x :: l) (S n)
| counts_no : forall x l n, ~ P x -> counts P l n -> counts P (x :: l) n.
(** a trial run with this kind of graph, clearance, dimension and number of samples *)
Definition ran (t : prm) (delta : R) (d n : nat) (r : row) : Prop := r_type r = t /\ r_dim r = d /\ near (r_clear r) delta /\ r_n r = n.
(** a trial known to be solved with radius (or number of neighbours) [x] *)
Definition solved (x : R) (r : row) : Prop := exists u, r_ub r = Some u /\ u <= x.
(** the share of the trials of a setting that are solved with [x] *)
Definition rate (out : list row) (t : prm) (delta : R) (d n : nat) (x p : R) : Prop :=
  exists a b, counts (ran t delta d n) out b /\ counts (fun r => ran t delta d n r /\ solved x r) out a /\ (0 < b)%nat /\ p = INR a / INR b.

(** two unit cubes and a corridor of half width [delta] *)
Definition passage_volume (d : nat) (delta : R) : R := 2 + (2 * delta) ^ (d - 1).
(** measure of a ball of radius [r] in it *)
Definition net_measure (d : nat) (delta r : R) : R := unit_ball_volume d * r ^ d / passage_volume d delta.
