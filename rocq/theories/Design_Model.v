(** Model of notebooks/designing_tractable_experiments.ipynb, cells 3 to 21 (the curves of radii and ball measures and the two tables of
    required samples), over exact reals.  The search of cell 14 is [batch_net_search] of Notebook_Model.v; the numpy operations on the array
    of tolerances act entry by entry; plotting is left out. *)
From Coq Require Import ZArith Reals List.
From Verif Require Import Search_Model Bound_Model Notebook_Model Geom_Model.
Import ListNotations.
Open Scope R_scope.

(** np.linspace(start, stop, num) *)
Definition linspace (start stop : R) (num : nat) : list R :=
  map (fun i => start + INR i * ((stop - start) / INR (num - 1))) (seq 0 num).

(** cell 3 *)
Definition ds : list nat := [2; 3; 6; 7; 10; 14; 20]%nat.
(** cell 5 *)
Definition clearance : R := 1 / 2.
Definition length_ : R := 2.
(** cell 7 *)
Definition tols : list R := linspace 1 (1 / 100) 100.
Definition conn_rads (c : R) (tols : list R) : list R := map (compute_connection_radius c) tols.
(** cell 9 *)
Definition net_rads (c : R) (tols : list R) : list R := map (fun t => compute_epsilon_net_radius c (Some t)) tols.
(** cell 12: one row of ball measures per dimension *)
Definition rhos (ds : list nat) (c len : R) (tols : list R) : list (list R) :=
  map (fun d => map (fun t => compute_rho c (Some t) d (line_volume d c len)) tols) ds.
(** cell 16 *)
Definition success_probs : list R := [1 / 100; 1 / 10; 1 / 2; 9 / 10; 99 / 100].
Definition rho_thresh : R := 1 / 10 ^ 12.
Definition line_table (ds : list nat) (sps : list R) (c len : R) (tols : list R) (thresh : R) (fuel : nat) :=
  batch_net_search ds sps (List.length tols) (rhos ds c len tols) thresh fuel.
(** cell 18 *)
Definition clearances : list R := linspace (1 / 10) (1 / 2) 100.
(** cell 19 *)
Definition narrow_rhos (ds : list nat) (cs : list R) : list (list R) :=
  map (fun d => map (fun c => compute_rho c None d (narrow_volume d c)) cs) ds.
(** cell 21 *)
Definition narrow_table (ds : list nat) (sps : list R) (cs : list R) (thresh : R) (fuel : nat) :=
  batch_net_search ds sps (List.length cs) (narrow_rhos ds cs) thresh fuel.
