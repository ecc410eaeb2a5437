(** Model of nonasymptotic/sampler.py: the ring bookkeeping that prepares the triangulation
    and the sampling of a point from the triangles.

    The points that mark the holes (sampler.py 35-47, 57-60) are modelled in SamplerHoles_Model.v.
    Not modelled: the triangulation itself (sampler.py 102), whose triangles are inputs here. *)
From Coq Require Import Arith QArith Qabs List Bool.
Import ListNotations.

Section Rings.
  Context {V : Type}.

  (** One polygon: its exterior ring and its holes; a ring repeats its first vertex at the
      end, as shapely rings do. *)
  Record poly := { exterior : list V; holes : list (list V) }.

  (** get_interior_ring(polys, i): None for polygons with fewer holes; sampler.py 27-32. *)
  Definition interior_rings (polys : list poly) : list (list V) :=
    let max_num_holes := list_max (map (fun p => length (holes p)) polys) in
    let all := flat_map (fun i => map (fun p => nth_error (holes p) i) polys) (seq 0 max_num_holes) in
    flat_map (fun r => match r with Some ring => [ring] | None => [] end) all.

  (** mpoly_rings, sampler.py 22-33 and 65 *)
  Definition mpoly_rings (polys : list poly) : list (list V) :=
    map exterior polys ++ interior_rings polys.
End Rings.
Arguments poly : clear implicits.

(** np.cumsum *)
Fixpoint cumsum_from (acc : nat) (l : list nat) : list nat :=
  match l with
  | [] => []
  | x :: l' => (acc + x)%nat :: cumsum_from (acc + x) l'
  end.
Definition cumsum (l : list nat) : list nat := cumsum_from 0 l.

(** np.delete(l, idxs): drop the entries at the given positions *)
Fixpoint delete_from {A} (k : nat) (l : list A) (idxs : list nat) : list A :=
  match l with
  | [] => []
  | x :: l' => if existsb (Nat.eqb k) idxs then delete_from (S k) l' idxs else x :: delete_from (S k) l' idxs
  end.
Definition np_delete {A} (l : list A) (idxs : list nat) : list A := delete_from 0 l idxs.

(** np.insert(l, idxs, vals): the values go in front of the entries at the given positions
    of the original array, in the order given *)
Definition inserted_at {A} (k : nat) (idxs : list nat) (vals : list A) : list A :=
  flat_map (fun p => if (fst p =? k)%nat then [snd p] else []) (combine idxs vals).
Fixpoint insert_from {A} (k : nat) (l : list A) (idxs : list nat) (vals : list A) : list A :=
  inserted_at k idxs vals ++
  match l with
  | [] => []
  | x :: l' => x :: insert_from (S k) l' idxs vals
  end.
Definition np_insert {A} (l : list A) (idxs : list nat) (vals : list A) : list A := insert_from 0 l idxs vals.

(** a[0] -= 1 *)
Definition dec_first (l : list nat) : list nat :=
  match l with [] => [] | x :: l' => (x - 1)%nat :: l' end.

(** sampler.py 65-76: all ring vertices in one array without the repeated closing ones *)
Definition ring_vertices {V} (rings : list (list V)) : list V :=
  let vertices := concat rings in
  let num_pts_in_polys := map (@length V) rings in
  let del_vert_indices := cumsum (dec_first num_pts_in_polys) in
  np_delete vertices del_vert_indices.

(** sampler.py 78-91: the segments joining them *)
Definition ring_segments {V} (rings : list (list V)) : list (nat * nat) :=
  let num_pts_in_polys := map (@length V) rings in
  let n_polys := length num_pts_in_polys in
  let roll_indices := cumsum (dec_first (map (fun p => (p - 1)%nat) num_pts_in_polys)) in
  let n_verts := length (ring_vertices rings) in
  let conn_from_arr := seq 0 n_verts in
  let conn_to_arr := np_delete conn_from_arr roll_indices in
  let starts := cumsum (0%nat :: map (fun p => (p - 1)%nat) (removelast num_pts_in_polys)) in
  let positions := map (fun p => (fst p - snd p)%nat) (combine starts (seq 0 n_polys)) in
  combine conn_from_arr (np_insert conn_to_arr positions roll_indices).

(** ** Sampling from the triangles *)
Open Scope Q_scope.
Definition pt : Type := Q * Q.
Definition triangle : Type := pt * pt * pt.

(** sampler.py 118-130 *)
Definition area (t : triangle) : Q :=
  let '((x1, y1), (x2, y2), (x3, y3)) := t in
  (1#2) * Qabs (x1 * (y2 - y3) + x2 * (y3 - y1) + x3 * (y1 - y2)).
Definition qsum (l : list Q) : Q := fold_right Qplus 0 l.
(** sampler.py 126-131; a zero total gives NaN probabilities, which rng.choice refuses *)
Definition area_pmf (ts : list triangle) : option (list Q) :=
  let areas := map area ts in
  let total := qsum areas in
  if Qeq_bool total 0 then None else Some (map (fun a => a / total) areas).

(** sampler.py 133-137: the draws folded into the lower half of the unit square *)
Definition fold_draw (x y : Q) : pt :=
  if Qle_bool (x + y) 1 then (x, y) else (1 - x, 1 - y).

(** shapely's affine_transform(p, [a, b, d, e, xoff, yoff]) *)
Definition affine (a b d e xoff yoff : Q) (p : pt) : pt :=
  (a * fst p + b * snd p + xoff, d * fst p + e * snd p + yoff).

(** sampler.py 139-142, for the triangle drawn *)
Definition sample_in_triangle (t : triangle) (x y : Q) : pt :=
  let '((x0, y0), (x1, y1), (x2, y2)) := t in
  affine (x1 - x0) (x2 - x0) (y1 - y0) (y2 - y0) x0 y0 (fold_draw x y).
