(** Model of the configurations of the turtlebot problems and of the motion test with fluents:
    exps/tamp_environment/turtlebot_move/problems.py 19-46 (ObjectPose, Conf), 103-113 (base joints) and
    exps/tamp_environment/turtlebot_move/streams.py 232-272 (get_motion_fn).

    The pybullet world is the record of joint positions and poses of the bodies.  Library calls: [named] joints_from_names,
    [plan] plan_joint_motion and plan_nonholonomic_motion, reading the world; set_joint_positions pairs joints and values and asserts
    that there are as many.  custom_limits, reversible, algorithm, num_samples and connect_radius are fixed with [plan].  Fluents have
    the number of arguments of their predicate. *)
From Coq Require Import Arith List Bool String.
Import ListNotations.

Inductive err := TypeError | AssertionError | AttributeError | IndexError | NotImplementedError (name : string).
Inductive res (A : Type) := Ok (a : A) | Err (e : err).
Arguments Ok {A} a. Arguments Err {A} e.

Section Fluent.
  Context {V X : Type}.                                  (* joint positions, poses *)
  Record world := World { joint_at : nat -> nat -> V; pose_of : nat -> X }.

  Definition set_joint (b j : nat) (v : V) (w : world) : world :=
    World (fun b' j' => if (b' =? b) && (j' =? j) then v else joint_at w b' j') (pose_of w).
  Fixpoint set_all (b : nat) (jvs : list (nat * V)) (w : world) : world :=
    match jvs with [] => w | (j, v) :: l => set_all b l (set_joint b j v w) end.
  Definition set_joint_positions (b : nat) (js : list nat) (vs : list V) (w : world) : res world :=
    if List.length js =? List.length vs then Ok (set_all b (combine js vs) w) else Err AssertionError.
  Definition get_joint_positions (b : nat) (js : list nat) (w : world) : list V := map (joint_at w b) js.
  Definition set_pose (b : nat) (x : X) (w : world) : world := World (joint_at w) (fun b' => if b' =? b then x else pose_of w b').

  (** problems.py 23-33: the positions that __post_init__ reads are not kept *)
  Record conf := mkConf { c_body : nat; c_joints : list nat; c_values : option (list V) }.
  Definition new_conf (w : world) (b : nat) (js : list nat) (values : option (list V)) : conf :=
    match values with
    | None => let _ := get_joint_positions b js w in mkConf b js None
    | Some vs => mkConf b js (Some vs)
    end.
  (** 39-40 *)
  Definition assign (c : conf) (w : world) : res world :=
    match c_values c with
    | None => Err TypeError
    | Some vs => set_joint_positions (c_body c) (c_joints c) vs w
    end.
  (** 103-113 *)
  Variable named : nat -> string -> nat.
  Definition base_joints (robot : nat) : list nat := map (named robot) ["x"; "y"; "theta"]%string.
  Definition get_base_conf (robot : nat) (w : world) : list V := get_joint_positions robot (base_joints robot) w.
  Definition set_base_conf (robot : nat) (vs : list V) (w : world) : res world := set_joint_positions robot (base_joints robot) vs w.

  (** what stands for a pose or a grasp in a fluent: the ObjectPose of problems.py 19-21, which has neither assign nor value, or an object of a
      body with both, like those of pybullet_tools *)
  Inductive object := ObjectPose (x : X) | BodyObject (b : nat) (x : X).
  Definition assign_object (o : object) (w : world) : res world :=
    match o with ObjectPose _ => Err AttributeError | BodyObject b x => Ok (set_pose b x w) end.
  Definition value (o : object) : res X := match o with ObjectPose _ => Err AttributeError | BodyObject _ x => Ok x end.
  Inductive fluent := AtGrasp (r b : nat) (g : object) | AtPose (b : nat) (p : object) | Other (predicate : string).
  Definition attachment : Type := nat * nat * X * nat.  (* parent, its link, grasp, child *)

  (** streams.py 242-255 *)
  Fixpoint read_fluents (rover base_link : nat) (fluents : list fluent) (attachments : list attachment) (movable : list nat) (w : world)
      : res (list attachment * list nat) * world :=
    match fluents with
    | [] => (Ok (attachments, movable), w)
    | AtGrasp _ b g :: l =>
        match value g with
        | Ok x => read_fluents rover base_link l (attachments ++ [(rover, base_link, x, b)]) movable w
        | Err e => (Err e, w)
        end
    | AtPose b p :: l =>
        if existsb (Nat.eqb b) movable then (Err AssertionError, w)
        else match assign_object p w with
             | Ok w' => read_fluents rover base_link l attachments (b :: movable) w'
             | Err e => (Err e, w)
             end
    | Other name :: _ => (Err (NotImplementedError name), w)
    end.

  Variable plan : bool -> nat -> list nat -> option (list V) -> list attachment -> list nat -> world -> option (list (list V)).
  Inductive trajectory := Direct (q1 q2 : conf) | Along (rover : nat) (joints : list nat) (path : list (list V)).
  (** streams.py 232-272; [holonomic] selects the planner; also the world in which the planner starts or the test raises *)
  Definition motion_test (fixed : list nat) (collisions teleport holonomic : bool) (rover : nat) (q1 q2 : conf) (fluents : list fluent) (w : world)
      : res (option trajectory) * world :=
    if teleport then (Ok (Some (Direct q1 q2)), w)
    else match c_joints q1 with
         | [] => (Err IndexError, w)
         | j :: l =>
             let base_link := last l j in
             match assign q1 w with
             | Err e => (Err e, w)
             | Ok w1 =>
                 match read_fluents rover base_link fluents [] [] w1 with
                 | (Err e, w2) => (Err e, w2)
                 | (Ok (attachments, movable), w2) =>
                     let obstacles := if collisions then fixed ++ movable else [] in
                     match assign q1 w2 with
                     | Err e => (Err e, w2)
                     | Ok w3 =>
                         (Ok (option_map (Along rover (c_joints q2)) (plan holonomic rover (c_joints q1) (c_values q2) attachments obstacles w3)), w3)
                     end
                 end
             end
         end.
End Fluent.
