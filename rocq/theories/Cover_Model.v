(** Model of the coverage check of the straight line environment
    (nonasymptotic/envs.py 101-357, StraightLine.is_prm_epsilon_delta_complete).

    The first statement of the method raises NotImplementedError (line 103, "Need to generalize to
    arbitrarily long envs"), so the rest is unreachable as the code stands; what is modelled is the
    body that the statement disables, with the length of the environment a parameter.

    Plane regions (shapely geometries) are sets of points.  [polygon] is the convex hull of its
    vertices: the polygons built here are triangles, rectangles and quadrilaterals, and a simple
    polygon lies in the hull of its vertices whatever its shape.  Answers of shapely's predicates
    ([covers], [within]), the test that a region is a single Polygon, the areas and the clock are
    arbitrary booleans: nothing proved depends on them except where said. *)
From Coq Require Import Reals List Bool Arith Permutation.
From Verif Require Import Plane Geom_Model Geom_Spec.
Import ListNotations.
Open Scope R_scope.

Notation region := (rpt -> Prop).

(** shapely: union, intersection, convex_hull, Polygon, unary_union *)
Definition union (A B : region) : region := fun p => A p \/ B p.
Definition inter (A B : region) : region := fun p => A p /\ B p.
Definition convex_hull (A : region) : region :=
  fun p => forall C, convex C -> (forall x, A x -> C x) -> C p.
Definition polygon (vs : list rpt) : region := convex_hull (fun p => In p vs).
Definition empty : region := fun _ => False.
Definition unary_union (l : list region) : region := fun p => exists A, In A l /\ A p.

Definition padd (p q : rpt) : rpt := (fst p + fst q, snd p + snd q).
Definition pscale (k : R) (p : rpt) : rpt := (k * fst p, k * snd p).

(** one row of query_all_graph_connections: ids, entry and exit samples, distance in the graph *)
Record sol := { s_id : nat * nat; s_in : vec; s_out : vec; s_dist : R }.

(** envs.py 77-81 arclength_to_curve_point (modelled in Geom_Model.v) *)
Definition curve_point (dim : nat) (len t : R) : vec := line_curve dim len t.

(** lines 136-138: the row passes the tolerance test *)
Definition valid_pair (dim : nat) (len tol : R) (q : rpt) (s : sol) : bool :=
  Rleb (s_dist s + norm (vzip Rminus (curve_point dim len (fst q)) (s_in s))
        + norm (vzip Rminus (curve_point dim len (snd q)) (s_out s)))
       ((snd q - fst q) * (1 + tol)).

(** prm.query_all_graph_connections (prm.py 94-115) restricted to pairs connected in the graph:
    the rows whose samples are within the radius of the start and of the goal *)
Definition query_all_connections (dim : nat) (len conn_r : R) (rows : list sol) (q : rpt) : list sol :=
  filter (fun s => Rleb (norm (vzip Rminus (curve_point dim len (fst q)) (s_in s))) conn_r &&
                   Rleb (norm (vzip Rminus (curve_point dim len (snd q)) (s_out s))) conn_r) rows.

(** lines 128-141 *)
Definition find_valid (dim : nat) (len tol conn_r : R) (rows : list sol) (q : rpt) : list sol :=
  filter (valid_pair dim len tol q) (query_all_connections dim len conn_r rows q).

(** lines 148-152 *)
Definition ray_slope1 (tol : R) : rpt :=
  let r := (- (2 + tol), - tol) in pscale (2 / norm [fst r; snd r]) r.
Definition ray_slope2 (tol : R) : rpt :=
  let r := (tol, 2 + tol) in pscale (2 / norm [fst r; snd r]) r.

(** lines 168 and 221 *)
Definition query_shadow (tol : R) (q : rpt) : region :=
  polygon [q; padd q (ray_slope1 tol); padd q (ray_slope2 tol)].

(** lines 157-158 *)
Definition u_1 (s : sol) : R := hd 0 (s_in s).
Definition u_2 (s : sol) : R := norm (tl (s_in s)).
Definition v_1 (s : sol) : R := hd 0 (s_out s).
Definition v_2 (s : sol) : R := norm (tl (s_out s)).

(** lines 175-183 *)
Definition bounding_box (conn_r : R) (s : sol) : region :=
  let t_1_low := u_1 s - sqrt (conn_r * conn_r - u_2 s * u_2 s) in
  let t_1_high := u_1 s + sqrt (conn_r * conn_r - u_2 s * u_2 s) in
  let t_2_low := v_1 s - sqrt (conn_r * conn_r - v_2 s * v_2 s) in
  let t_2_high := v_1 s + sqrt (conn_r * conn_r - v_2 s * v_2 s) in
  polygon [(t_1_low, t_2_low); (t_1_high, t_2_low); (t_1_high, t_2_high); (t_1_low, t_2_high)].

(** lines 189-207 *)
Definition inner_approx (tol : R) (s : sol) : region :=
  if Rle_dec (s_dist s + u_2 s + v_2 s) ((1 + tol) * (v_1 s - u_1 s))
  then
    let p1 := (u_1 s, (u_2 s + (1 + tol) * u_1 s + v_2 s + s_dist s + v_1 s) / (tol + 2)) in
    let p2 := ((u_2 s + v_2 s + s_dist s - (1 + tol) * v_1 s - u_1 s) / - (2 + tol), v_1 s) in
    let ray_p1 := padd p1 (ray_slope1 tol) in
    let ray_p2 := padd p1 (ray_slope2 tol) in   (* line 202 adds to p1 *)
    polygon [ray_p1; p1; p2; ray_p2]
  else
    let p1 := (u_1 s, (u_2 s + (1 + tol) * u_1 s + v_2 s + s_dist s - v_1 s) / tol) in
    let p2 := ((u_2 s + v_2 s + s_dist s - (1 + tol) * v_1 s + u_1 s) / - tol, v_1 s) in
    let ray_p1 := padd p1 (ray_slope2 tol) in
    let ray_p2 := padd p2 (ray_slope1 tol) in
    polygon [ray_p1; p1; p2; ray_p2].

(** the dictionary prm_points_to_cvx_hull, newest binding first *)
Notation hulls := (list ((nat * nat) * (region * region))).
Fixpoint lookup (i : nat * nat) (h : hulls) : option (region * region) :=
  match h with
  | [] => None
  | (j, x) :: h' => if ((fst i =? fst j) && (snd i =? snd j))%nat then Some x else lookup i h'
  end.

Section Loop.
  Variable covers : region -> rpt -> bool.     (* shapely's answer to region.covers(Point(p)) *)

  (** lines 156-235, one row per step: the dictionary and the list of new sets *)
  Definition add_row (tol conn_r : R) (q : rpt) (st : hulls * list region) (s : sol) : hulls * list region :=
    let (h, new) := st in
    match lookup (s_id s) h with
    | Some (hull, box) =>
        if covers hull q then (h, new)
        else let hull' := convex_hull (inter (union hull (query_shadow tol q)) box) in
             ((s_id s, (hull', box)) :: h, new ++ [hull'])
    | None =>
        let box := bounding_box conn_r s in
        let open := inner_approx tol s in
        let hull' := if covers open q then inter open box
                     else convex_hull (inter (union open (query_shadow tol q)) box) in
        ((s_id s, (hull', box)) :: h, new ++ [hull'])
    end.

  Definition add_rows (tol conn_r : R) (q : rpt) (h : hulls) (rows : list sol) : hulls * list region :=
    fold_left (add_row tol conn_r q) rows (h, []).

  (** lines 108-109 *)
  Definition length_space (conn_r : R) : region :=
    polygon [(0, conn_r); (0, 1); (1 - conn_r, 1)].

  Record cstate := { c_heap : list rpt; c_cover : region; c_hulls : hulls }.

  (** lines 108-126 and 259 *)
  Definition cover_init (conn_r : R) : cstate :=
    {| c_heap := [(0, conn_r); (0, 1); (1 - conn_r, 1)]; c_cover := empty; c_hulls := [] |}.

  Inductive verdict := Going (st : cstate) | FailedQuery (q : rpt) | Covered (st : cstate) | TimedOut.

  (** One transition of the loop of lines 260-357.  The heap is a bag: which element heappop
      returns is not determined.  [cv_sample] is lines 263-284 (random_point_in_mpolygon and
      nearest_points give points of what is left to cover); [cv_inside] lines 301-302; [cv_fail]
      304-307; [cv_same] the two [continue]s of 314 and 336; [cv_grow] 316-331; [cv_done] and
      [cv_timeout] 347-357. *)
  Inductive cover_step (dim : nat) (len tol conn_r : R) (rows : list sol) : cstate -> verdict -> Prop :=
  | cv_sample (cover : region) h p p' :
      length_space conn_r p -> ~ cover p -> length_space conn_r p' ->
      cover_step dim len tol conn_r rows
        {| c_heap := []; c_cover := cover; c_hulls := h |}
        (Going {| c_heap := [p; p']; c_cover := cover; c_hulls := h |})
  | cv_inside heap (cover : region) h q heap' : Permutation heap (q :: heap') -> cover q ->
      cover_step dim len tol conn_r rows
        {| c_heap := heap; c_cover := cover; c_hulls := h |}
        (Going {| c_heap := heap'; c_cover := cover; c_hulls := h |})
  | cv_fail heap cover h q heap' : Permutation heap (q :: heap') ->
      find_valid dim len tol conn_r rows q = [] ->
      cover_step dim len tol conn_r rows
        {| c_heap := heap; c_cover := cover; c_hulls := h |} (FailedQuery q)
  | cv_same heap cover h q heap' h' new : Permutation heap (q :: heap') ->
      find_valid dim len tol conn_r rows q <> [] ->
      add_rows tol conn_r q h (find_valid dim len tol conn_r rows q) = (h', new) ->
      cover_step dim len tol conn_r rows
        {| c_heap := heap; c_cover := cover; c_hulls := h |}
        (Going {| c_heap := heap'; c_cover := cover; c_hulls := h' |})
  | cv_grow heap cover h q heap' h' new pts : Permutation heap (q :: heap') ->
      find_valid dim len tol conn_r rows q <> [] ->
      add_rows tol conn_r q h (find_valid dim len tol conn_r rows q) = (h', new) ->
      (forall p, In p pts -> length_space conn_r p) ->
      cover_step dim len tol conn_r rows
        {| c_heap := heap; c_cover := cover; c_hulls := h |}
        (Going {| c_heap := heap' ++ pts; c_cover := union cover (unary_union new); c_hulls := h' |})
  | cv_done st : cover_step dim len tol conn_r rows st (Covered st)
  | cv_timeout st : cover_step dim len tol conn_r rows st TimedOut.

  (** runs of the loop from its start *)
  Inductive cover_run (dim : nat) (len tol conn_r : R) (rows : list sol) : verdict -> Prop :=
  | run_start : cover_run dim len tol conn_r rows (Going (cover_init conn_r))
  | run_step st v : cover_run dim len tol conn_r rows (Going st) ->
      cover_step dim len tol conn_r rows st v -> cover_run dim len tol conn_r rows v.
End Loop.
