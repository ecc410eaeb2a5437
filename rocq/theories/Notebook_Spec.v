(** Specification vocabulary for the notebooks (C163-C165), in terms of Bound_Spec.v only. *)
From Coq Require Import ZArith Reals List String.
From Verif Require Import Bound_Spec.
Import ListNotations.
Open Scope R_scope.

(** [z] is the smallest count of at least two at which the failure bound is at most [gam] *)
Definition least_count (rho : R) (vc : nat) (gam : R) (z : Z) : Prop :=
  exists m, z = Z.of_nat m /\ (2 <= m)%nat /\ net_failure_bound rho vc m <= gam /\
    forall m', (2 <= m' < m)%nat -> gam < net_failure_bound rho vc m'.

(** measure of the ball of radius [rad] in a region of volume one *)
Definition ball (dim : nat) (rad : R) : R := unit_ball_volume dim * rad ^ dim.

(** base two logarithm and the textbook bound of Blumer et al. with it *)
Definition lg (x : R) : R := ln x / ln 2.
Definition blumer (eps gam : R) (vc : nat) : R :=
  Rmax (4 / eps * lg (2 / gam)) (8 * INR vc / eps * lg (13 / eps)).
