(** Model of exps/tamp_environment/kuka_carry/kuka_primitives.py (poses, grasps, configurations,
    trajectories, samplers and motion streams) and of the parts of run.py that use them:
    the placement loop of load_world (565-577), the facts of pddlstream_from_problem (323-392) and
    the assembly of an insertion trajectory (130-145, 210-243).

    The pybullet world is a record of the joint positions and of the base pose of every body.
    Library calls (DESIGN.md section 3): [link_pose] forward kinematics, [touch] pairwise_collision,
    [ik] inverse_kinematics with the configuration in which it leaves the robot, [plan] plan_joint_motion.
    Simplifications: the joints argument is always the list of all movable joints of the body (it is
    in every call), so setting joint positions replaces the configuration; values are exact. *)
From Coq Require Import Reals List Bool Arith.
From Verif Require Import Space Pose Kuka_Model.
Import ListNotations.
Local Open Scope R_scope.

Notation jconf := (list R).
Record sim := Sim { joints_at : nat -> jconf; pose_at : nat -> pose }.
Definition put {A} (f : nat -> A) (k : nat) (v : A) : nat -> A := fun k' => if (k' =? k)%nat then v else f k'.
(** utils.set_pose, utils.set_joint_positions *)
Definition set_pose (s : sim) (b : nat) (p : pose) : sim := Sim (joints_at s) (put (pose_at s) b p).
Definition set_joint_positions (s : sim) (b : nat) (q : jconf) : sim := Sim (put (joints_at s) b q) (pose_at s).

(** kuka_primitives.py 92-113 *)
Record body_pose := BodyPose { p_body : nat; p_pose : pose }.
Definition assign_pose (s : sim) (p : body_pose) : sim := set_pose s (p_body p) (p_pose p).
(** 116-146 *)
Record body_grasp := BodyGrasp { g_body : nat; grasp_pose : pose; approach_pose : pose; g_robot : nat; g_link : nat }.
(** 149-173 *)
Record body_conf := BodyConf { c_body : nat; configuration : jconf }.
Definition assign_conf (s : sim) (c : body_conf) : sim := set_joint_positions s (c_body c) (configuration c).
(** the trajectories of Kuka_Model, with the list of all joints as the only joints value *)
Notation path := (body_path jconf unit body_grasp).
Notation body_path_of r l g := (BodyPath jconf unit body_grasp r l tt g).

(** 54-72, [max_width] None is infinity *)
Definition leb_opt (x : R) (m : option R) : bool := match m with None => true | Some m => if Rle_dec x m then true else false end.
Definition get_top_grasps (center : r3) (w l h : R) (under : bool) (tool_pose body_pose : pose) (max_width : option R) (grasp_length : R) : list pose :=
  let reflect_z := mkPose (from_euler 0 PI 0) (0, 0, 0) in
  let translate_z := shift (0, 0, h / 2 - grasp_length) in
  let translate_center := shift (addp (point body_pose) (oppp center)) in
  let turns := seq 0 (if under then 2 else 1) in
  let grasp a := multiply tool_pose (multiply translate_z (multiply (mkPose (from_euler 0 0 a) (0, 0, 0)) (multiply reflect_z (multiply translate_center body_pose)))) in
  (if leb_opt w max_width then map (fun i => grasp (PI / 2 + INR i * PI)) turns else []) ++
  (if leb_opt l max_width then map (fun i => grasp (INR i * PI)) turns else []).
(** 74-81: the grasps and the approach of "top" *)
Definition approach_top : pose := shift (0, 0, 1 / 100).
Definition top_grasps (center : r3) (w l h : R) : list pose := get_top_grasps center w l h true unit_pose unit_pose None 0.
(** 329-342: one BodyGrasp for each grasp pose *)
Definition grasp_gen (robot tool_link : nat) (prism : nat -> r3 * (R * R * R)) (body : nat) : list body_grasp :=
  let '(center, (w, l, h)) := prism body in
  map (fun g => BodyGrasp body g approach_top robot tool_link) (top_grasps center w l h).

Section World.
Variable link_pose : nat -> jconf -> nat -> pose.
Variable touch : nat -> nat -> pose -> jconf -> pose -> jconf -> bool.
Definition collides (s : sim) (a b : nat) : bool := touch a b (pose_at s a) (joints_at s a) (pose_at s b) (joints_at s b).

(** utils.Attachment.assign, kuka_primitives.py 137-141 *)
Definition held_at (g : body_grasp) (q : jconf) : pose := multiply (link_pose (g_robot g) q (g_link g)) (grasp_pose g).
Definition assign_grasp (s : sim) (g : body_grasp) : sim := set_pose s (g_body g) (held_at g (joints_at s (g_robot g))).

(** BodyPath.iterator 188-195: the world at every yield; ApplyForce.iterator 245-246 *)
Definition visit (body : nat) (attachments : list body_grasp) (s : sim) (q : jconf) : sim :=
  fold_left assign_grasp attachments (set_joint_positions s body q).
Fixpoint trace (body : nat) (attachments : list body_grasp) (s : sim) (l : list jconf) : list sim :=
  match l with
  | [] => []
  | q :: l' => let s' := visit body attachments s q in s' :: trace body attachments s' l'
  end.
Definition iterator (s : sim) (b : path) : list sim :=
  match b with
  | BodyPath _ _ _ body l _ attachments => trace body attachments s l
  | Attach _ _ _ _ _ _ | Detach _ _ _ _ _ _ => []
  end.
(** Command.execute 296-300: the world at every step *)
Fixpoint execute (s : sim) (l : list path) : list sim :=
  match l with
  | [] => []
  | b :: l' => let t := iterator s b in t ++ execute (last t s) l'
  end.
Definition run_command (s : sim) (l : list path) : sim := last (execute s l) s.

(** 470-486 *)
Definition mem (b : nat) (l : list nat) : bool := existsb (Nat.eqb b) l.
Fixpoint test_paths (body : nat) (s : sim) (l : list path) : bool :=
  match l with
  | [] => false
  | b :: l' =>
    let moving := path_bodies _ _ _ g_body b in
    if mem body moving then test_paths body s l' else
    let t := iterator s b in
    if existsb (fun s' => existsb (fun mov => collides s' mov body) moving) t then true else test_paths body (last t s) l'
  end.
Definition movable_collision_test (s : sim) (command : list path) (body : nat) (p : body_pose) : bool :=
  if mem body (command_bodies _ _ _ g_body command) then false else test_paths body (assign_pose s p) command.

(** utils.inverse_kinematics: the solution, and where the robot is left *)
Variable ik : nat -> jconf -> nat -> pose -> option jconf * jconf.
(** utils.end_effector_from_body, utils.approach_from_grasp *)
Definition end_effector_from_body (body_pose grasp_pose : pose) : pose := multiply body_pose (invert grasp_pose).
Definition approach_from_grasp (approach_pose end_effector_pose : pose) : pose := multiply approach_pose end_effector_pose.
(** get_ik_fn 369-393; [sample i] is the i-th draw of sample_fn *)
Fixpoint ik_attempts (robot link : nat) (target : pose) (fixed : list nat) (randomize : bool) (sample : nat -> jconf) (attempts : list nat) (s : sim) : option body_conf * sim :=
  match attempts with
  | [] => (None, s)
  | i :: rest =>
    let s1 := if randomize then set_joint_positions s robot (sample i) else s in
    let '(q_approach, left_at) := ik robot (joints_at s1 robot) link target in
    let s2 := set_joint_positions s1 robot left_at in
    match q_approach with
    | None => ik_attempts robot link target fixed randomize sample rest s2
    | Some q => if existsb (collides s2 robot) fixed then ik_attempts robot link target fixed randomize sample rest s2
                else (Some (BodyConf robot q), s2)
    end
  end.
Definition num_attempts : nat := 10.
Definition get_ik_fn (s : sim) (robot : nat) (p : pose) (g : body_grasp) (fixed : list nat) (randomize : bool) (sample : nat -> jconf) : option body_conf * sim :=
  let gripper_pose := end_effector_from_body p (grasp_pose g) in
  let target := approach_from_grasp (approach_pose g) gripper_pose in
  ik_attempts robot (g_link g) target fixed randomize sample (seq 0 num_attempts) s.

(** utils.sample_placement: the pose it returns and the pose in which it leaves the body *)
Record draw := Draw { d_result : option pose; d_left : pose }.
(** get_fixed_stable_gen 345-354, get_stable_gen 356-366: the next pose that is yielded, the world at
    that time and the draws that remain; [None] if the draws end before *)
Fixpoint stable_next (fixed obstacles : list nat) (body : nat) (s : sim) (draws : list draw) : option (body_pose * sim * list draw) :=
  match draws with
  | [] => None
  | d :: rest =>
    let s1 := set_pose s body (d_left d) in
    match d_result d with
    | None => stable_next fixed obstacles body s1 rest
    | Some p => if existsb (collides s1 body) (fixed ++ obstacles) then stable_next fixed obstacles body s1 rest
                else Some (BodyPose body p, s1, rest)
    end
  end.
(** the angles of get_fixed_stable_gen, 347 *)
Definition fixed_thetas : list R := [0; PI / 2; PI; - (PI / 2)].

(** run.py 565-577; each round of the inner loop has its own draws, and the loop is over when a
    configuration is found; [None] if the rounds end before *)
Notation round := (list draw * (nat -> jconf))%type.
Variable robot : nat.
Variable grasp_of : nat -> body_grasp.
Fixpoint place_one (fixed placed : list nat) (radish : nat) (s : sim) (rounds : list round) : option (sim * list round) :=
  match rounds with
  | [] => None
  | (draws, sample) :: rest =>
    match stable_next fixed placed radish s draws with
    | None => None
    | Some (p, s1, _) =>
      let s2 := set_pose s1 radish (p_pose p) in
      match get_ik_fn s2 robot (p_pose p) (grasp_of radish) fixed true sample with
      | (Some _, s3) => Some (s3, rest)
      | (None, s3) => place_one fixed placed radish s3 rest
      end
    end
  end.
Fixpoint place_all (fixed placed radishes : list nat) (s : sim) (rounds : list round) : option sim :=
  match radishes with
  | [] => Some s
  | r :: rest =>
    match place_one fixed placed r s rounds with
    | None => None
    | Some (s', rounds') => place_all fixed (placed ++ [r]) rest s' rounds'
    end
  end.

(** assign_fluent_state 401-411; the name of a fluent is "atpose" ([inl]) or another one ([inr]),
    which raises ValueError *)
Fixpoint assign_fluent_state (s : sim) (fluents : list ((nat * body_pose) + nat)) : option (list nat * sim) :=
  match fluents with
  | [] => Some ([], s)
  | inl (o, p) :: rest =>
    match assign_fluent_state (assign_pose s p) rest with
    | Some (obstacles, s') => Some (o :: obstacles, s')
    | None => None
    end
  | inr _ :: _ => None
  end.
(** utils.plan_joint_motion from the current configuration *)
Variable plan : sim -> nat -> jconf -> list nat -> list body_grasp -> option (list jconf).
Inductive answer := Raised | NoPath | Planned (command : list path) (s : sim).
(** get_free_motion_gen 414-436 (no attachments) and get_holding_motion_gen 439-464 *)
Definition motion_fn (fixed : list nat) (teleport : bool) (s : sim) (conf1 conf2 : body_conf) (attachments : list body_grasp) (fluents : list ((nat * body_pose) + nat)) : answer :=
  if negb (c_body conf1 =? c_body conf2)%nat then Raised else
  if teleport then Planned [body_path_of robot [configuration conf1; configuration conf2] attachments] s else
  let s1 := assign_conf s conf1 in
  match assign_fluent_state s1 fluents with
  | None => Raised
  | Some (obstacles, s2) =>
    match plan s2 robot (configuration conf2) (fixed ++ obstacles) attachments with
    | None => NoPath
    | Some l => Planned [body_path_of robot l attachments] s2
    end
  end.
Definition free_motion_fn fixed teleport s conf1 conf2 fluents := motion_fn fixed teleport s conf1 conf2 [] fluents.
Definition holding_motion_fn fixed teleport s conf1 conf2 grasp fluents := motion_fn fixed teleport s conf1 conf2 [grasp] fluents.

(** run.py 229-238: the configurations for the waypoints; [ik] is tried from where the robot is *)
Fixpoint insert_confs (g : body_grasp) (body : nat) (s : sim) (whole_path : list pose) : list jconf * sim :=
  match whole_path with
  | [] => ([], s)
  | p :: rest =>
    let s1 := set_pose s body p in
    match get_ik_fn s1 robot p g [] false (fun _ => []) with
    | (None, s2) => insert_confs g body s2 rest
    | (Some c, s2) => let '(l, s3) := insert_confs g body (assign_grasp s2 g) rest in (configuration c :: l, s3)
    end
  end.
(** run.py 130-137, 175-176, 192-243: [query] is the roadmap's answer between the two poses the body
    has at the end configurations (None: SubplanFailed); without any configuration [conf_joints] is
    unbound.  The poses of a waypoint and of its six numbers are identified. *)
Variable query : pose -> pose -> option (list pose).
Definition insert_fn (s : sim) (conf1 conf2 : body_conf) (body : nat) (g : body_grasp) : answer :=
  let s1 := assign_grasp (assign_conf s conf1) g in
  let start := pose_at s1 body in
  let s2 := assign_grasp (assign_conf s1 conf2) g in
  let end_ := pose_at s2 body in
  match query start end_ with
  | None => Raised
  | Some l =>
    match insert_confs g body s2 (start :: l ++ [end_]) with
    | ([], _) => Raised
    | (c, s3) => Planned [body_path_of robot c [g]] s3
    end
  end.

(** *** pddlstream_from_problem, run.py 323-392 *)
Inductive fact :=
| FCanMove | FHandEmpty
| FConf (q : nat) | FAtConf (q : nat)
| FGrasp (o g : nat) | FGraspable (o : nat)
| FPose (o p : nat) | FAtPose (o p : nat)
| FKin (o p g q : nat)
| FStackable (o r : nat) | FSupported (o p r : nat)
| FPreInsert (q : nat) | FPostInsert (q : nat)
| FSink (r : nat) | FStove (r : nat).
(** the objects of type BodyPose, BodyGrasp and BodyConf, numbered in the order of their creation *)
Record store := Store { st_poses : list (nat * pose); st_confs : list (nat * jconf); st_grasps : list (nat * body_grasp); st_next : nat }.
Definition new_pose (h : store) (p : pose) : nat * store := (st_next h, Store ((st_next h, p) :: st_poses h) (st_confs h) (st_grasps h) (S (st_next h))).
Definition new_conf (h : store) (q : jconf) : nat * store := (st_next h, Store (st_poses h) ((st_next h, q) :: st_confs h) (st_grasps h) (S (st_next h))).
Definition new_grasp (h : store) (g : body_grasp) : nat * store := (st_next h, Store (st_poses h) (st_confs h) ((st_next h, g) :: st_grasps h) (S (st_next h))).

Variable is_sink is_stove : nat -> bool.
(** utils.is_placement for the poses of the world *)
Variable is_placement : sim -> nat -> nat -> bool.
(** the random configurations and placements, for each body *)
Variable samples0 samples_pre samples_post : nat -> nat -> jconf.
Variable place_at : nat -> nat -> R -> draw.
Inductive outcome (A : Type) := Problem (a : A) | NoProblem | AssertionError.
Arguments Problem {A} a. Arguments NoProblem {A}. Arguments AssertionError {A}.

(** 336-355 *)
Fixpoint describe (fixed movable : list nat) (s : sim) (h : store) (grasps : list (nat * nat)) : outcome (list fact * sim * store * list (nat * nat)) :=
  match movable with
  | [] => Problem ([], s, h, grasps)
  | body :: rest =>
    let '(g, h1) := new_grasp h (grasp_of body) in
    let '(p, h2) := new_pose h1 (pose_at s body) in
    match get_ik_fn s robot (pose_at s body) (grasp_of body) fixed true (samples0 body) with
    | (None, _) => NoProblem
    | (Some c, s1) =>
      let '(q, h3) := new_conf h2 (configuration c) in
      let surfaces := flat_map (fun r => if is_sink r then FStackable body r :: (if is_placement s1 body r then [FSupported body p r] else []) else []) fixed in
      match describe fixed rest s1 h3 (grasps ++ [(body, g)]) with
      | Problem (facts, s2, h4, grasps') =>
        Problem ([FGrasp body g; FGraspable body; FPose body p; FAtPose body p; FConf q; FKin body p g q] ++ surfaces ++ facts, s2, h4, grasps')
      | NoProblem => NoProblem
      | AssertionError => AssertionError
      end
    end
  end.
(** 366: the pose in front of the bin *)
Definition preinsert_offset : pose := shift (2 / 100, 0, 14 / 100).
(** 359-384: only the first placement is used, since the loop ends by return or break *)
Fixpoint insertions (fixed : list nat) (pairs : list (nat * nat)) (s : sim) (h : store) (grasps : list (nat * nat)) : outcome (list fact * sim * store) :=
  match pairs with
  | [] => Problem ([], s, h)
  | (body, sink) :: rest =>
    match find (fun x => fst x =? body)%nat grasps with
    | None => AssertionError
    | Some (_, g) =>
      match stable_next fixed [] body s (map (place_at body sink) fixed_thetas) with
      | None => AssertionError
      | Some (post, s1, _) =>
        let '(post_id, h1) := new_pose h (p_pose post) in
        let pre := multiply preinsert_offset (p_pose post) in
        let '(pre_id, h2) := new_pose h1 pre in
        let '(c1, s2) := get_ik_fn s1 robot pre (grasp_of body) fixed true (samples_pre body) in
        let '(c2, s3) := get_ik_fn s2 robot (p_pose post) (grasp_of body) fixed true (samples_post body) in
        match c1, c2 with
        | Some c1, Some c2 =>
          let '(q1, h3) := new_conf h2 (configuration c1) in
          let '(q2, h4) := new_conf h3 (configuration c2) in
          match insertions fixed rest s3 h4 grasps with
          | Problem (facts, s4, h5) =>
            Problem ([FPose body post_id; FPose body pre_id; FSupported body post_id sink; FConf q1; FConf q2; FKin body pre_id g q1; FKin body post_id g q2; FPreInsert q1; FPostInsert q2] ++ facts, s4, h5)
          | NoProblem => NoProblem
          | AssertionError => AssertionError
          end
        | _, _ => NoProblem
        end
      end
    end
  end.
Definition default_arm_pos : jconf := [0; 0; 0; 0; 0; 0; 0].
(** 323-328, 333, 387-392; the start configuration is object 0 *)
Definition pddlstream_from_problem (fixed movable : list nat) (s : sim) : outcome (list fact * store) :=
  let s0 := set_joint_positions s robot default_arm_pos in
  let '(start_conf, h0) := new_conf (Store [] [] [] 0%nat) (joints_at s0 robot) in
  let sinks := filter is_sink fixed in
  match describe fixed movable s0 h0 [] with
  | Problem (facts1, s1, h1, grasps) =>
    match insertions fixed (combine movable sinks) s1 h1 grasps with
    | Problem (facts2, s2, h2) =>
      Problem ([FCanMove; FConf start_conf; FAtConf start_conf; FHandEmpty] ++ facts1 ++ facts2 ++
               flat_map (fun b => (if is_sink b then [FSink b] else []) ++ (if is_stove b then [FStove b] else [])) fixed, h2)
    | NoProblem => NoProblem
    | AssertionError => AssertionError
    end
  | NoProblem => NoProblem
  | AssertionError => AssertionError
  end.
End World.
Arguments Problem {A} a. Arguments NoProblem {A}. Arguments AssertionError {A}.
