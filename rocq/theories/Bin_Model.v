(** Model of the world of exps/tamp_environment/kuka_carry/run.py: the hollow shapes
    (create_hollow_shapes, 269-292, SHAPE_INDICES, 422-429), the grid of bins (load_world,
    498-540), the clearance handed to the sample bound (get_insert_motion_gen, 140-161), and
    of the collision environment built on them (BagOfBoundingBoxes, 38-101).

    Coordinates are reals.  Vectors are functions of the coordinate 0, 1, 2.  The shapes are
    not rotated (pbu.Pose(point=...)), so the pose of a shape is its centre. *)
From Coq Require Import Reals List Bool Arith ZArith.
From Verif Require Import Sat_Model Box_Model.
Import ListNotations.
Open Scope R_scope.

Definition vec3 (x y z : R) : vec := fun i => match i with O => x | S O => y | _ => z end.
(** v[index] = x *)
Definition upd (v : vec) (index : nat) (x : R) : vec := fun j => if j =? index then x else v j.

(** pbu.OOBB without rotation: an AABB placed at a point *)
Record oobb := mkOobb { o_lower : vec; o_upper : vec; o_point : vec }.

(** ** Hollow shapes *)

(** sorted(signs) *)
Fixpoint insert_sign (x : Z) (l : list Z) : list Z :=
  match l with
  | [] => [x]
  | y :: l' => if (x <=? y)%Z then x :: y :: l' else y :: insert_sign x l'
  end.
Definition sorted_signs (l : list Z) : list Z := fold_right insert_sign [] l.

(** run.py 280-291: one wall.  pbu.get_box_geometry(w, l, h) has half extents (w, l, h) / 2. *)
Definition wall (dims : vec) (thickness : R) (index : nat) (sign : Z) : oobb :=
  let link_dims := upd dims index thickness in
  let center := vec3 0 0 (dims 2%nat / 2) in
  let half_extents := fun i => link_dims i / 2 in
  mkOobb (fun i => - half_extents i) half_extents
         (upd center index (center index + IZR sign * (dims index - thickness) / 2)).

(** create_hollow_shapes, run.py 269-292; [None] is the AssertionError of line 270. *)
Definition create_hollow_shapes (indices : list (list Z)) (width length_ height thickness : R) : option (list oobb) :=
  if (length indices =? 3)%nat then
    let dims := vec3 width length_ height in
    Some (flat_map (fun e => map (wall dims thickness (fst e)) (sorted_signs (snd e)))
                   (combine (seq 0 3) indices))
  else None.

(** SHAPE_INDICES, run.py 422-429 *)
Definition bin_indices : list (list Z) := [[-1; 1]; [-1; 1]; [-1]]%Z.
Definition cubby_indices : list (list Z) := [[-1]; [-1; 1]; [-1; 1]]%Z.
Definition fence_indices : list (list Z) := [[-1; 1]; [-1; 1]; []]%Z.

(** ** The grid of bins (load_world) *)

(** create_hollow("bin", width=..., length=..., height=...), thickness defaults to 0.01 *)
Definition thickness : R := 1 / 100.
Definition bin (width length_ height : R) : list oobb :=
  match create_hollow_shapes bin_indices width length_ height thickness with Some l => l | None => [] end.

(** run.py 514-535.  pbu.multiply(bin_pose, pose) of two unrotated poses adds the points. *)
Definition container_size (min_gap : R) : R := 6 / 100 + min_gap.
Definition container_height : R := 15 / 100.
Definition bin_positions (min_gap : R) : list (R * R) :=
  let w := container_size min_gap in
  let grid_x := map (fun i => INR i * w) (seq 0 2) in
  let grid_y := map (fun i => INR i * w) (seq 0 4) in
  let bin_center := (- (68 / 100), - (w * (INR 4 - 1)) / 2) in
  map (fun xy => (fst xy + fst bin_center, snd xy + snd bin_center)) (list_prod grid_x grid_y).
Definition place (at_ : R * R) (o : oobb) : oobb :=
  mkOobb (o_lower o) (o_upper o) (fun i => vec3 (fst at_) (snd at_) 0 i + o_point o i).
Definition sink_obstacle_oobbs (min_gap : R) : list (list oobb) :=
  let w := container_size min_gap in
  map (fun at_ => map (place at_) (bin w w container_height)) (bin_positions min_gap).

(** ** The clearance given to the bound, run.py 140-160; [None] is an IndexError. *)
Definition hallway_size (obstacles : list oobb) : option R :=
  match nth_error obstacles 2, nth_error obstacles 0 with
  | Some w2, Some w1 => Some (o_point w2 0%nat + o_upper w2 0%nat - o_point w1 0%nat + o_lower w1 0%nat)
  | _, _ => None
  end.
Definition insert_delta (obstacles : list oobb) (body_lower body_upper : vec) (collision_buffer : R) : option R :=
  match hallway_size obstacles with
  | Some h => Some (h - ((body_upper 0%nat - body_lower 0%nat) + collision_buffer) / 2)
  | None => None
  end.

(** ** BagOfBoundingBoxes *)

(** pbu.get_oobb_vertices: the eight corners *)
Definition oobb_vertices (o : oobb) : list vec :=
  flat_map (fun x => flat_map (fun y => map (fun z =>
     vec3 (o_point o 0%nat + x 0%nat) (o_point o 1%nat + y 1%nat) (o_point o 2%nat + z 2%nat))
     [o_lower o; o_upper o]) [o_lower o; o_upper o]) [o_lower o; o_upper o].

(** run.py 45-46 and extents, 50-62.  The start point is always among the vertices. *)
Definition env_vertices (obstacles : list oobb) (start : vec) : list vec :=
  flat_map oobb_vertices obstacles ++ [start].
Definition env_bounds (obstacles : list oobb) (start : vec) (theta_margin : R) : list (R * R) :=
  let vs := env_vertices obstacles start in
  map (fun i => (lmin (map (fun v => v i) vs), lmax (map (fun v => v i) vs))) (seq 0 3)
  ++ repeat (- theta_margin, theta_margin) 3.

(** sample_from_env, run.py 64-65: random.uniform(a, b) is a + (b - a) * u *)
Definition sample_env (bounds : list (R * R)) (u : list R) : list R :=
  map (fun bu => fst (fst bu) + (snd (fst bu) - fst (fst bu)) * snd bu) (combine bounds u).

(** run.py 148-150 *)
Definition cspace_volume (bounds : list (R * R)) : R :=
  fold_left (fun v b => v * (snd b - fst b)) bounds 1.

(** OBB.from_oobb, separating_axis.py 64-67, for a pose with the given rotation matrix: the
    centre is the pose's point. *)
Definition obb_from_oobb (lower upper point : vec) (rot : nat -> nat -> R) : box :=
  mkBox point (fun i => (upper i - lower i) / 2) rot.
Definition eye3 : nat -> nat -> R := fun i j => if i =? j then 1 else 0.
Definition obstacle_box (o : oobb) : box := obb_from_oobb (o_lower o) (o_upper o) (o_point o) eye3.

(** is_motion_valid, run.py 77-101.  A configuration is any type with a distance (the norm of
    line 81); [interpolate start goal n] is the list of poses (box positions and rotations) of
    pbu.interpolate_poses with n steps, which is not part of this repository.  Every row of
    the batch gets the number of steps of the longest row.
    [None]: np.max of an empty batch raises ValueError, rows of unequal numbers of poses raise
    IndexError (line 94) when shorter than the first. *)
Section Motion.
  Context {conf : Type}.
  Variable norm_diff : conf -> conf -> R.
  Variable interpolate : conf -> conf -> nat -> list (vec * (nat -> nat -> R)).
  Variables (lower upper : vec).      (* self.aabb *)
  Variable obstacles : list oobb.

  (** int(x) of a number >= 0 *)
  Definition trunc (x : R) : nat := Z.to_nat (Int_part x).
  Definition num_steps (batch : list (conf * conf)) : nat :=
    trunc (lmax (map (fun sg => norm_diff (fst sg) (snd sg)) batch) / (3 / 100)).
  Definition row_poses (n : nat) (sg : conf * conf) : list (vec * (nat -> nat -> R)) :=
    interpolate (fst sg) (snd sg) (n + 2).
  Definition hits (pose : vec * (nat -> nat -> R)) (o : oobb) : bool :=
    box_test (obstacle_box o) (obb_from_oobb lower upper (fst pose) (snd pose)).
  Definition motion_valid (batch : list (conf * conf)) : option (list bool) :=
    match batch with
    | [] => None
    | first :: _ =>
        let n := num_steps batch in
        let m := length (row_poses n first) in
        if forallb (fun sg => m <=? length (row_poses n sg)) batch then
          Some (map (fun sg => fold_left (fun valid o =>
                       fold_left (fun valid pose => valid && negb (hits pose o)) (firstn m (row_poses n sg)) valid)
                     obstacles true) batch)
        else None
    end.
End Motion.
