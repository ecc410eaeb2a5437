(** Model of brute_force_ann (notebooks/test_contrived_knn_strategy.ipynb, cell 3).

    The points are rows of reals.  [argsort] is numpy's: some order that sorts its argument.  The function divides the
    points by its argument [_conn_rad] but reads the half width of the windows from the notebook's variable
    [conn_rad]; both are parameters here.  A division by zero is a warning in numpy and is left out ([_conn_rad] is
    not zero in the theorems). *)
From Coq Require Import Reals List Bool Arith.
From Verif Require Import Notebook_Model.
Import ListNotations.
Open Scope R_scope.

(** np.searchsorted(a, v, side='left') on a sorted array: the first place whose value is not below [v] *)
Fixpoint searchsorted (a : list R) (v : R) : nat :=
  match a with [] => O | x :: a' => if Rlt_dec x v then S (searchsorted a' v) else O end.
(** np.intersect1d: the common values, sorted and without repetition *)
Fixpoint insert_once (x : nat) (l : list nat) : list nat :=
  match l with
  | [] => [x]
  | y :: l' => if (x <? y)%nat then x :: l else if (x =? y)%nat then l else y :: insert_once x l'
  end.
Definition intersect1d (a b : list nat) : list nat := fold_right insert_once [] (filter (fun x => existsb (Nat.eqb x) b) a).

Section Ann.
Variable argsort : list R -> list nat.
Variable conn_rad : R.                       (* the notebook's variable *)

(** normed_data[:, _id], sorted_args[_id] and sorted_coords[_id] *)
Definition normed (data : list (list R)) (_conn_rad : R) (id : nat) : list R := map (fun row => nth id row 0 / _conn_rad) data.
Definition sorted_args (data : list (list R)) (_conn_rad : R) (id : nat) : list nat := argsort (normed data _conn_rad id).
Definition sorted_coords (data : list (list R)) (_conn_rad : R) (id : nat) : list R :=
  map (fun i => nth i (normed data _conn_rad id) 0) (sorted_args data _conn_rad id).
(** sorted_args[_id][lb_sarg:ub_sarg] *)
Definition window (data : list (list R)) (_conn_rad : R) (pt : list R) (id : nat) : list nat :=
  let lb_sarg := searchsorted (sorted_coords data _conn_rad id) (nth id pt 0 - conn_rad) in
  let ub_sarg := searchsorted (sorted_coords data _conn_rad id) (nth id pt 0 + conn_rad) in
  slice lb_sarg ub_sarg (sorted_args data _conn_rad id).
Definition neighbors (data : list (list R)) (_conn_rad : R) (d : nat) (pt : list R) : list nat :=
  fold_left (fun nb id => intersect1d nb (window data _conn_rad pt id)) (seq 1 (d - 1)) (window data _conn_rad pt 0).
(** [d] columns; [None]: IndexError, there are points but no columns *)
Definition brute_force_ann (data : list (list R)) (d : nat) (_conn_rad : R) : option (list (list nat)) :=
  match d, data with
  | O, _ :: _ => None
  | _, _ => Some (map (neighbors data _conn_rad d) data)
  end.
End Ann.
