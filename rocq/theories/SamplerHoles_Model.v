(** Model of nonasymptotic/sampler.py 20-62 and 93-102: the points that mark the holes of a polygon
    or multipolygon, and the region that is triangulated.

    shapely and triangle are libraries.  A ring bounds a disc: the points inside it and the points on
    it.  [covers] and [point_on_surface] are arguments.  Triangle with the switch p keeps the part of the
    plane that cannot be reached, without crossing a segment, from one of the given hole points or from
    far away. *)
From Coq Require Import Reals List.
From Verif Require Import Plane Sat_Model World_Props Sampler_Model.
Import ListNotations.
Open Scope R_scope.

Record disc := mkDisc { ins : rpt -> Prop; edge : rpt -> Prop }.

Section Holes.
  Context {V : Type}.
  Variable shape_of : list V -> disc.                            (* Polygon(ring) *)
  Variable cov : list V -> list V -> bool.                       (* covers(Polygon(r1), Polygon(r2)) *)
  Variable point_on_surface : (rpt -> Prop) -> option rpt.       (* None: POINT EMPTY *)

  (** difference(S, e), line 44 *)
  Definition take_away (S : rpt -> Prop) (e : list V) : rpt -> Prop :=
    fun x => S x /\ ~ (ins (shape_of e) x \/ edge (shape_of e) x).
  (** lines 34-44 for the hole h: the exteriors that it covers are taken away one by one *)
  Definition interior_poly (exteriors : list (list V)) (h : list V) : rpt -> Prop :=
    fold_left take_away (filter (cov h) exteriors) (ins (shape_of h)).
  (** get_coordinates of an array of points: empty points have none *)
  Definition coordinates (ps : list (option rpt)) : list rpt :=
    flat_map (fun o => match o with Some x => [x] | None => [] end) ps.
  (** lines 20-47, MultiPolygon *)
  Definition interior_points (polys : list (poly V)) : list rpt :=
    coordinates (map (fun h => point_on_surface (interior_poly (map exterior polys) h)) (interior_rings polys)).
  (** lines 49-60, Polygon *)
  Definition interior_points_single (p : poly V) : list rpt :=
    coordinates (map (fun h => point_on_surface (ins (shape_of h))) (holes p)).
  (** lines 96-99 *)
  Definition hole_seeds (points : list rpt) : list rpt := (-100, -100) :: points.

  (** lines 93-102: the segments are those of all rings *)
  Definition on_rings (rings : list (list V)) (x : rpt) : Prop := exists r, In r rings /\ edge (shape_of r) x.
  Definition reach (rings : list (list V)) (a b : rpt) : Prop := exists c, curve c /\ c 0 = a /\ c 1 = b /\
    forall t, 0 <= t <= 1 -> ~ on_rings rings (c t).
  Definition reach_far (rings : list (list V)) (a : rpt) : Prop := forall M, exists b, reach rings a b /\ M < Rmax (Rabs (fst b)) (Rabs (snd b)).
  Definition triangulated (rings : list (list V)) (seeds : list rpt) (x : rpt) : Prop :=
    ~ on_rings rings x /\ ~ reach_far rings x /\ forall s, In s seeds -> ~ reach rings s x.
End Holes.
