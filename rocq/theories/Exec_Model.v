(** Running a plan of the turtlebot: the streams that certify its facts, and the commands of
    post_process carried out by apply_commands

    exps/tamp_environment/turtlebot_move/run.py       lines 129-133 (streams), 258-269 (main)
    exps/tamp_environment/turtlebot_move/streams.py   lines 114-213
    exps/tamp_environment/turtlebot_move/problems.py  lines 172-290 (hallway_manip)

    apply_commands, State, Attach, Detach, Trajectory and the attachments are pybullet_tools', which
    is not in the repository; they are modelled after their documented behaviour: a trajectory puts
    the joints to one configuration after the other, attach remembers where the body is relative to
    the link, detach forgets it, and after every step the attached bodies are put in their place.
    The configurations have the joints x and y only (problems.py 279, streams.py 211), so the rover
    never turns and the relative pose of a body is a difference of positions.  Heights are left out. *)
From Coq Require Import Arith List Bool ZArith QArith Reals.
From Verif Require Import Plane Stream_Model Turtle_Model.
Import ListNotations.
Close Scope Q_scope.
Local Open Scope R_scope.

(** where the rover and the bodies are, and the dictionary of attachments *)
Record sim := Sim { rov : rpt; body : nat -> rpt; att : list (nat * rpt) }.

Definition vplus (p q : rpt) : rpt := (fst p + fst q, snd p + snd q).
Definition put (b : nat -> rpt) (o : nat) (p : rpt) : nat -> rpt := fun o' => if (o' =? o)%nat then p else b o'.
Definition attached (s : sim) (o : nat) : bool := existsb (fun a => (fst a =? o)%nat) (att s).

(** State.assign: every attached body moves to its place at the rover *)
Definition assign (s : sim) : sim :=
  Sim (rov s) (fold_left (fun b a => put b (fst a) (vplus (rov s) (snd a))) (att s) (body s)) (att s).

(** Trajectory.apply: the states shown, and the last one *)
Fixpoint follow (path : list rpt) (s : sim) : list sim * sim :=
  match path with
  | [] => ([], s)
  | c :: path' =>
      let s1 := assign (Sim c (body s) (att s)) in
      let (frames, s2) := follow path' s1 in (s1 :: frames, s2)
  end.

(** one command; [None] is the KeyError of attaching an attached body (its pose is deleted from the
    state) and of detaching one that is not *)
Definition perform (traj : nat -> list rpt) (c : command) (s : sim) : option (list sim * sim) :=
  match c with
  | Traj t => Some (follow (traj t) s)
  | Attach _ o =>
      if attached s o then None
      else let s1 := assign (Sim (rov s) (body s) (att s ++ [(o, vsub (body s o) (rov s))])) in Some ([s1], s1)
  | Detach _ o =>
      if attached s o
      then let s1 := assign (Sim (rov s) (body s) (filter (fun a => negb (fst a =? o)%nat) (att s))) in Some ([s1], s1)
      else None
  end.

(** apply_commands *)
Fixpoint perform_all (traj : nat -> list rpt) (cs : list command) (s : sim) : option (list sim * sim) :=
  match cs with
  | [] => Some ([], s)
  | c :: cs' =>
      match perform traj c s with
      | None => None
      | Some (fr, s1) =>
          match perform_all traj cs' s1 with
          | None => None
          | Some (fr', s2) => Some (fr ++ fr', s2)
          end
      end
  end.

(** run.py 258-269: the commands of the plan *)
Definition execute (traj : nat -> list rpt) (plan : list action) (s : sim) : option (list sim * sim) :=
  match post_process plan with
  | None => None
  | Some cs => perform_all traj cs s
  end.

(** ** What the streams certify *)
(** values of the objects of the plan: configurations, poses and trajectories *)
Record values := Values { conf_xy : nat -> qpt; pose_xy : nat -> qpt; traj_of : nat -> list rpt }.

(** get_ik, streams.py 114-119: the configuration is where the pose is *)
Definition get_ik (pose : qpt) : qpt := pose.
