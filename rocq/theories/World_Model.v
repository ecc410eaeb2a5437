(** Model of the turtlebot world: exps/tamp_environment/turtlebot_move/problems.py (hallway_manip,
    hallway, sample_placement_on_aabb, sample_placements) and the parts of streams.py that read it
    (BagOfBoundingBoxes.__init__, oobb_flat_vertices, get_ik, the adaptive sample count).

    Everything that is checked for collision is flat, so boxes are rectangles of the plane; heights
    occur only where the code uses them.  pybullet_tools: create_box(w, l, h) is centred at its
    point, get_oobb_vertices lists the corners in the order of itertools.product, sample_aabb draws
    uniformly, aabb_empty is "some upper bound is below its lower bound". *)
From Coq Require Import Reals List Bool Arith.
From Verif Require Import Plane Sat_Model Bag_Model.
Import ListNotations.
Open Scope R_scope.

(** ** Boxes *)
Record rect := mkRect { r_x : R; r_y : R; r_w : R; r_l : R }.

(** ** The world, problems.py 174-303 (hallway_manip) and 305-396 (the second hallway) *)

(** lines 178-183 and 308-313: room_length and hallway_length as parameters (1.5 and 3 in hallway_manip, 1 and 3
    in hallway), wall_thickness = mound_height = 0.1 *)
Definition mound_height : R := 1 / 10.
Definition wall_thickness : R := mound_height.
Definition BOT_RADIUS : R := 179 / 1000.

(** lines 186-199; [us] are the draws of np.random.uniform(0, 1) *)
Definition min_object_size (robot_scale : R) : R := robot_scale * BOT_RADIUS.
Definition max_object_size (robot_scale : R) : R := min_object_size robot_scale + 1 / 10.
Definition target_radius (robot_scale u : R) : R :=
  min_object_size robot_scale +
  (max_object_size robot_scale - min_object_size robot_scale) * (1 - Rpower (1 - u) (1 / 4)).
Definition target_sizes (robot_scale : R) (us : list R) : list R :=
  max_object_size robot_scale :: map (target_radius robot_scale) us.
(** line 201 *)
Definition hallway_gap (sizes : list R) (dd : R) : R := lmax sizes * 2 + dd.
(** line 314: hallway() has no targets *)
Definition hallway_gap_plain (robot_scale dd : R) : R := robot_scale * BOT_RADIUS * 2 + dd.

(** lines 202-255 and 314-367, in the order of the list [obstacles] *)
Definition hallway_walls (room_length hallway_length gap : R) : list rect :=
  let hallway_width := gap + wall_thickness in
  let flap_width := (room_length - hallway_width) / 2 in
  let room1_front_wall := mkRect (- hallway_length / 2 - room_length / 2) 0 (room_length + mound_height) wall_thickness in
  let room1_back_wall := mkRect (- hallway_length / 2 - room_length / 2) room_length (room_length + mound_height) wall_thickness in
  let room1_left_wall := mkRect (- hallway_length / 2 - room_length - wall_thickness / 2) (room_length / 2) wall_thickness (room_length + mound_height) in
  let room1_flap1 := mkRect (- hallway_length / 2) (room_length / 2 + hallway_width / 2 + flap_width / 2) wall_thickness (flap_width + mound_height) in
  let room1_flap2 := mkRect (- hallway_length / 2) (room_length / 2 - hallway_width / 2 - flap_width / 2) wall_thickness (flap_width + mound_height) in
  let room2_front_wall := mkRect (hallway_length / 2 + room_length / 2) room_length (room_length + mound_height) wall_thickness in
  let room2_back_wall := mkRect (hallway_length / 2 + room_length / 2) 0 (room_length + mound_height) wall_thickness in
  let room2_flap1 := mkRect (hallway_length / 2) (flap_width / 2) wall_thickness (flap_width + mound_height) in
  let room2_flap2 := mkRect (hallway_length / 2) (room_length - flap_width / 2) wall_thickness (flap_width + mound_height) in
  let room2_right_wall := mkRect (hallway_length / 2 + room_length + wall_thickness / 2) (room_length / 2) wall_thickness (room_length + mound_height) in
  let hallway_top_wall := mkRect 0 (room_length / 2 + hallway_width / 2) hallway_length wall_thickness in
  let hallway_bottom_wall := mkRect 0 (room_length / 2 - hallway_width / 2) hallway_length wall_thickness in
  [room1_front_wall; room1_back_wall; room1_left_wall; room1_flap1; room2_flap1;
   room2_front_wall; room2_back_wall; room2_right_wall; room1_flap2; room2_flap2;
   hallway_top_wall; hallway_bottom_wall].

(** lines 258-267: floors of the two rooms *)
Definition room1_floor (room_length hallway_length : R) : rect :=
  mkRect (- hallway_length / 2 - room_length / 2) (room_length / 2) room_length room_length.
Definition room2_floor (room_length hallway_length : R) : rect :=
  mkRect (hallway_length / 2 + room_length / 2) (room_length / 2) room_length room_length.

(** line 176: base_limits, the same for both axes; lines 289 and 390: initial and goal configuration *)
Definition base_limits : R * R := (- (3 / 2), 3 / 2).
Definition init_conf (room_length hallway_length : R) : rpt := (- hallway_length / 2 - room_length / 2, room_length / 2).
Definition goal_conf (room_length hallway_length : R) : rpt := (hallway_length / 2 + room_length / 2, room_length / 2).

(** ** Placing bodies, problems.py 49-103 *)

(** lines 49-78 with top_pose the unit pose: [ex], [ey] is the extent of the body, [off] its point
    minus its centre, [ux], [uy] the draws of sample_aabb.  Every attempt computes the same box, so
    the 50 attempts are all empty or the first succeeds.  The result is the body's new point. *)
Definition sample_placement (bottom : rect) (ex ey : R) (off : rpt) (ux uy : R) : option rpt :=
  let lower := (r_x bottom - r_w bottom / 2 + ex / 2, r_y bottom - r_l bottom / 2 + ey / 2) in
  let upper := (r_x bottom + r_w bottom / 2 - ex / 2, r_y bottom + r_l bottom / 2 - ey / 2) in
  if Rlt_dec (fst upper) (fst lower) then None
  else if Rlt_dec (snd upper) (snd lower) then None
  else Some (fst lower + ux * (fst upper - fst lower) + fst off, snd lower + uy * (snd upper - snd lower) + snd off).

(** a body: extent and offset of its point from its centre; a placed body: with its point *)
Record body := mkBody { b_ex : R; b_ey : R; b_off : rpt }.

Section Place.
  Variable Obst : Type.                         (* obstacles that were given *)
  Variable hits_obstacle : body -> rpt -> Obst -> bool.      (* pairwise_collision(body, obst, max_distance) *)
  Variable hits_body : body -> rpt -> body -> rpt -> bool.

  Inductive placing := Placed (l : list (body * rpt)) | NoRoom | OutOfFuel.

  (** lines 92-102 for one body: [draws n] are the draws of the n-th attempt; None is no pose *)
  Fixpoint place_one (fuel : nat) (n : nat) (draws : nat -> R * R) (surface : rect) (obstacles : list Obst)
      (placed : list (body * rpt)) (b : body) : option (option rpt * nat) :=
    match fuel with
    | O => None
    | S fuel' =>
        match sample_placement surface (b_ex b) (b_ey b) (b_off b) (fst (draws n)) (snd (draws n)) with
        | None => Some (None, S n)
        | Some p =>
            if existsb (hits_obstacle b p) obstacles || existsb (fun q => hits_body b p (fst q) (snd q)) placed
            then place_one fuel' (S n) draws surface obstacles placed b
            else Some (Some p, S n)
        end
    end.

  (** lines 86-103 *)
  Fixpoint sample_placements (fuel n : nat) (draws : nat -> R * R) (surface : rect) (obstacles : list Obst)
      (placed : list (body * rpt)) (bodies : list body) : placing :=
    match bodies with
    | [] => Placed placed
    | b :: rest =>
        match place_one fuel n draws surface obstacles placed b with
        | None => OutOfFuel
        | Some (None, _) => NoRoom
        | Some (Some p, n') => sample_placements fuel n' draws surface obstacles (placed ++ [(b, p)]) rest
        end
    end.
End Place.
Arguments Placed : clear implicits.

(** ** streams.py *)

(** get_oobb_vertices of a box with lower corner (lx, ly), upper corner (ux, uy) and any height, turned
    by the angle with cosine c and sine s and moved by t: the first two coordinates *)
Definition turn (c s : R) (t v : rpt) : rpt := (c * fst v - s * snd v + fst t, s * fst v + c * snd v + snd t).
Definition oobb_vertices2 (lx ly ux uy c s : R) (t : rpt) : list rpt :=
  map (turn c s t) [(lx, ly); (lx, ly); (lx, uy); (lx, uy); (ux, ly); (ux, ly); (ux, uy); (ux, uy)].

(** lines 72-87 *)
Definition diff_thresh : R := 1 / 1000.
Definition norm2 (v : rpt) : R := sqrt (fst v * fst v + snd v * snd v).
Definition add_unique (verts2d : list rpt) (v : rpt) : list rpt :=
  if existsb (fun w => if Rlt_dec (norm2 (vsub v w)) diff_thresh then true else false) verts2d
  then verts2d else verts2d ++ [v].
Definition oobb_flat_vertices (verts : list rpt) : option (list rpt) :=
  let verts2d := fold_left add_unique verts [] in
  if (length verts2d =? 4)%nat then Some verts2d else None.

(** lines 31-36: scipy's ConvexHull lists the corners of a rectangle counterclockwise; the
    unique corners come as ll, lu, ul, uu *)
Definition hull4 (vs : list rpt) : list rpt :=
  match vs with [ll; lu; ul; uu] => [ll; ul; uu; lu] | _ => [] end.

(** an OOBB: box with lower and upper corner, turned and moved *)
Record obox := mkObox { o_lx : R; o_ly : R; o_ux : R; o_uy : R; o_c : R; o_s : R; o_t : rpt }.
Definition get_oobb_vertices (o : obox) : list rpt := oobb_vertices2 (o_lx o) (o_ly o) (o_ux o) (o_uy o) (o_c o) (o_s o) (o_t o).
(** lines 51-52 *)
Definition box_hull (o : obox) : option (list rpt) := option_map hull4 (oobb_flat_vertices (get_oobb_vertices o)).
(** get_oobb of a wall: its bounding box when it stands at the origin, moved to its place, line 138 *)
Definition wall_oobb (o : rect) : obox := mkObox (- (r_w o) / 2) (- (r_l o) / 2) (r_w o / 2) (r_l o / 2) 1 0 (r_x o, r_y o).
(** aabb_from_extent_center(extent) is centred at the origin, lines 141-143 *)
Definition robot_oobb (ex ey : R) : obox := mkObox (- ex / 2) (- ey / 2) (ex / 2) (ey / 2) 1 0 (0, 0).

Fixpoint sequence {A} (l : list (option A)) : option (list A) :=
  match l with
  | [] => Some []
  | None :: _ => None
  | Some a :: l' => option_map (cons a) (sequence l')
  end.

(** lines 51-52 and 89-101: None is an exception *)
Definition check_motions (obstacles : list obox) (ex ey : R) (batch : list (rpt * rpt)) : option (list bool) :=
  match box_hull (robot_oobb ex ey), sequence (map box_hull obstacles) with
  | Some robot, Some hulls => is_motion_valid robot hulls batch
  | _, _ => None
  end.
(** the assertions of lines 168-169 *)
Definition conf_free (obstacles : list obox) (ex ey : R) (p : rpt) : option bool :=
  option_map (fun v => hd false v) (check_motions obstacles ex ey [(p, p)]).

(** lines 44 and 54-63 for the first two coordinates *)
Definition extents (vs : list rpt) : (R * R) * (R * R) :=
  ((lmin (map fst vs), lmax (map fst vs)), (lmin (map snd vs), lmax (map snd vs))).
Definition env_bounds (obstacles : list obox) : (R * R) * (R * R) := extents (flat_map get_oobb_vertices obstacles).
(** lines 65-67 *)
Definition sample_from_env (bounds : (R * R) * (R * R)) (u v : R) : rpt :=
  (fst (fst bounds) + u * (snd (fst bounds) - fst (fst bounds)), fst (snd bounds) + v * (snd (snd bounds) - fst (snd bounds))).

(** lines 114-119: the configuration at a pose is the pose's point *)
Definition ik (pose : rpt) : rpt := pose.

(** problems.py 125 and 396: hallway() leaves hallway_gap at its default *)
Definition problem_gap_plain : R := 0.
(** lines 149-152: [gap] is problem.hallway_gap, [ex] the extent of the body in x *)
Definition adaptive_delta (gap ex : R) : R := gap - (ex / 2 - - ex / 2) + 5 / 100.
