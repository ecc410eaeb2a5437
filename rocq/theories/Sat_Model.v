(** Model of exps/tamp_environment/turtlebot_move/separating_axis.py (planar
    separating-axis test), over the reals.

    The vertices are numpy numbers, so the division in [normalize] by the zero length of a
    degenerate edge gives NaN, not an exception: every dot product is NaN and the comparisons
    of [overlap] are false.  A NaN axis is [None] here. *)
From Coq Require Import Reals List Bool Arith.
From Verif Require Import Plane.
Import ListNotations.
Open Scope R_scope.

Definition Rleb (x y : R) : bool := if Rle_dec x y then true else false.

(** separating_axis.py 27-32 *)
Definition normalize (v : rpt) : option rpt :=
  let norm := sqrt (fst v * fst v + snd v * snd v) in
  if Req_EM_T norm 0 then None else Some (fst v / norm, snd v / norm).
(** separating_axis.py 35-39 *)
Definition dot (u v : rpt) : R := fst u * fst v + snd u * snd v.
(** separating_axis.py 42-46 *)
Definition edge_direction (p q : rpt) : rpt := (fst q - fst p, snd q - snd p).
(** separating_axis.py 49-53 *)
Definition orthogonal (v : rpt) : rpt := (snd v, - fst v).
(** separating_axis.py 56-63 *)
Definition vertices_to_edges (vs : list rpt) : list rpt :=
  map (fun i => edge_direction (nth i vs (0, 0)) (nth ((i + 1) mod length vs) vs (0, 0))) (seq 0 (length vs)).

(** min and max of a non-empty list *)
Definition lmin (l : list R) : R := match l with [] => 0 | x :: l' => fold_right Rmin x l' end.
Definition lmax (l : list R) : R := match l with [] => 0 | x :: l' => fold_right Rmax x l' end.

(** separating_axis.py 66-71 *)
Definition project (vs : list rpt) (axis : rpt) : R * R :=
  let dots := map (fun v => dot v axis) vs in (lmin dots, lmax dots).
(** separating_axis.py 74-78 *)
Definition overlap (p q : R * R) : bool :=
  Rleb (Rmin (fst p) (snd p)) (Rmax (fst q) (snd q)) && Rleb (Rmin (fst q) (snd q)) (Rmax (fst p) (snd p)).

Definition axes (vs : list rpt) : list (option rpt) :=
  map (fun e => normalize (orthogonal e)) (vertices_to_edges vs).

(** one round of the loops of separating_axis.py 85-91 *)
Definition overlaps_on (a b : list rpt) (axis : option rpt) : bool :=
  match axis with
  | None => false
  | Some u => overlap (project a u) (project b u)
  end.

(** separating_axis_theorem, separating_axis.py 81-93: the early return of False is the
    short-circuit of [forallb]. *)
Definition separating_axis (a b : list rpt) : bool :=
  forallb (overlaps_on a b) (axes a ++ axes b).

(** vec_overlap, separating_axis.py 117-119; projections are [min, max] *)
Definition vec_overlap (p q : R * R) : bool := Rleb (fst p) (snd q) && Rleb (fst q) (snd p).
Definition vec_overlaps_on (a b : list rpt) (axis : option rpt) : bool :=
  match axis with
  | None => false
  | Some u => vec_overlap (project a u) (project b u)
  end.

(** vec_vertices_to_edges, separating_axis.py 109-110: np.roll by -1 minus the vertices *)
Definition roll (vs : list rpt) : list rpt := match vs with [] => [] | p :: l => l ++ [p] end.
Definition vec_vertices_to_edges (vs : list rpt) : list rpt :=
  map (fun xy => (fst (fst xy) - fst (snd xy), snd (fst xy) - snd (snd xy))) (combine (roll vs) vs).
(** separating_axis.py 125-126 with vec_normalize 96-98 and vec_orthogonal 106-107 *)
Definition vec_axes (vs : list rpt) : list (option rpt) :=
  map (fun e => normalize (orthogonal e)) (vec_vertices_to_edges vs).

(** Body of the loop of vec_separating_axis_theorem for one entry of the batch,
    separating_axis.py 130-134 *)
Definition round (i : nat) (ab : list rpt * list rpt) : bool :=
  let (a, b) := ab in
  vec_overlaps_on a b (nth i (vec_axes a) None) && vec_overlaps_on a b (nth i (vec_axes b) None).
(** vec_separating_axis_theorem, separating_axis.py 121-136.  The batch is a list of pairs of
    polygons, the first with n vertices (polygons_a.shape[1]), the second with m.  The loop runs
    over the vertices of the first polygons; an index past the second polygons' vertices raises
    IndexError (None). *)
Definition vec_separating_axis (n m : nat) (batch : list (list rpt * list rpt)) : option (list bool) :=
  if (m <? n)%nat then None
  else Some (fold_left (fun results i => map (fun rb => fst rb && round i (snd rb)) (combine results batch))
                       (seq 0 n) (repeat true (length batch))).
