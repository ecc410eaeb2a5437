(** Model of exps/tamp_environment/kuka_carry/separating_axis.py (box-box separating-axis
    test), over the reals.  Vectors are functions of the coordinate 0, 1, 2; an orientation is
    indexed by row and column.  All numpy operations of the file act row by row on the batch, so
    the batch is [map] of the test of one pair.  [to_vectorized] (60-62) flattens the orientation
    row by row and the reshape of lines 6-7 undoes it. *)
From Coq Require Import Reals List Bool Arith.
From Verif Require Import Sat_Model.
Import ListNotations.
Open Scope R_scope.

Notation vec := (nat -> R).
Record box := mkBox { center : vec; half : vec; orient : nat -> nat -> R }.

Definition dot3 (u v : vec) : R := u 0%nat * v 0%nat + u 1%nat * v 1%nat + u 2%nat * v 2%nat.
(** orientations[:, :, i] *)
Definition column (b : box) (j : nat) : vec := fun i => orient b i j.
(** np.cross *)
Definition cross3 (u v : vec) : vec := fun c =>
  match c with
  | O => u 1%nat * v 2%nat - u 2%nat * v 1%nat
  | S O => u 2%nat * v 0%nat - u 0%nat * v 2%nat
  | _ => u 0%nat * v 1%nat - u 1%nat * v 0%nat
  end.
(** separating_axis.py 16-18: normalised unless zero *)
Definition unit_or_zero (u : vec) : vec :=
  let norm := sqrt (dot3 u u) in
  if Rlt_dec 0 norm then fun c => u c / norm else u.
(** separating_axis.py 9-19 *)
Definition box_axes (b1 b2 : box) : list vec :=
  map (column b1) [0; 1; 2]%nat ++ map (column b2) [0; 1; 2]%nat ++
  flat_map (fun i => map (fun j => unit_or_zero (cross3 (column b1 i) (column b2 j))) [0; 1; 2]%nat) [0; 1; 2]%nat.
(** separating_axis.py 46-47 *)
Definition sign_rows : list vec :=
  map (fun s c => nth c s 0)
    [[-1; -1; -1]; [-1; -1; 1]; [-1; 1; -1]; [-1; 1; 1]; [1; -1; -1]; [1; -1; 1]; [1; 1; -1]; [1; 1; 1]].
(** compute_vertices_vectorized, separating_axis.py 45-52: the half extent carries the row
    index of the result, half_extents[:, np.newaxis, :, np.newaxis] *)
Definition box_vertex (b : box) (s : vec) : vec := fun i =>
  center b i + (half b i * s 0%nat * orient b i 0%nat + half b i * s 1%nat * orient b i 1%nat + half b i * s 2%nat * orient b i 2%nat).
Definition box_vertices (b : box) : list vec := map (box_vertex b) sign_rows.

Definition Rltb (x y : R) : bool := if Rlt_dec x y then true else false.

(** separating_axis.py 28-40 for one axis *)
Definition not_separated (vs1 vs2 : list vec) (axis : vec) : bool :=
  let p1 := map (fun v => dot3 v axis) vs1 in
  let p2 := map (fun v => dot3 v axis) vs2 in
  negb (Rltb (lmax p1) (lmin p2) || Rltb (lmax p2) (lmin p1)).

(** separating_axis_theorem, separating_axis.py 4-42, for one pair of boxes.  The variable
    called [separated] is True for boxes that are not separated. *)
Definition box_test (b1 b2 : box) : bool :=
  fold_left (fun separated axis => separated && not_separated (box_vertices b1) (box_vertices b2) axis)
            (box_axes b1 b2) true.
Definition box_test_batch (bs : list (box * box)) : list bool := map (fun b => box_test (fst b) (snd b)) bs.
