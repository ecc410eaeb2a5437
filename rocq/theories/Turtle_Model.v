(** Model of the turtlebot task domain, exps/tamp_environment/turtlebot_move/domain.pddl, of the
    initial state and goal that pddlstream_from_problem builds (run.py 105-143), and of
    post_process (run.py 146-163).

    Objects, configurations, poses, rovers and trajectories are numbered.  The predicates that no
    action changes (Rover, Target, Pose, Kin, Motion, MotionHolding; the facts given initially or
    certified by streams) are an arbitrary record of relations; the fluents form the state. *)
From Coq Require Import Arith List Bool.
From Verif Require Import Strips.
Import ListNotations.

(** domain.pddl 4-16, the predicates that occur in effects *)
Inductive fluent :=
| HFree
| AtConf (v q : nat)
| AtPose (o p : nat)
| Holding (o : nat).
Definition fluent_eqb (a b : fluent) : bool :=
  match a, b with
  | HFree, HFree => true
  | AtConf v q, AtConf v' q' => (v =? v') && (q =? q')
  | AtPose o p, AtPose o' p' => (o =? o') && (p =? p')
  | Holding o, Holding o' => o =? o'
  | _, _ => false
  end.
Definition state := fluent -> bool.

(** domain.pddl 4-16, the others *)
Record facts := {
  Rover : nat -> bool;
  Target : nat -> bool;
  Pose : nat -> nat -> bool;
  Kin : nat -> nat -> nat -> bool;
  Motion : nat -> nat -> nat -> nat -> bool;
  MotionHolding : nat -> nat -> nat -> nat -> nat -> bool
}.

(** domain.pddl 26-59 *)
Inductive action :=
| Pick (v q1 t q2 p o : nat)
| Place (v q1 t q2 p o : nat).

Section Domain.
Variable F : facts.

(** preconditions over the unchanging predicates, domain.pddl 28-34 and 44-51 *)
Definition static_pre (a : action) : bool :=
  match a with
  | Pick v q1 t q2 p o => Rover F v && Motion F v q1 t q2 && Kin F o p q2 && Target F o
  | Place v q1 t q2 p o => Rover F v && MotionHolding F v q1 t q2 o && Target F o && Pose F o p && Kin F o p q2
  end.
(** preconditions over fluents *)
Definition pre (a : action) : list fluent :=
  match a with
  | Pick v q1 t q2 p o => [AtConf v q1; AtPose o p; HFree]
  | Place v q1 t q2 p o => [AtConf v q1; Holding o]
  end.
(** effects, domain.pddl 35-40 and 52-57 *)
Definition adds (a : action) : list fluent :=
  match a with
  | Pick v q1 t q2 p o => [AtConf v q2; Holding o]
  | Place v q1 t q2 p o => [AtConf v q2; HFree; AtPose o p]
  end.
Definition dels (a : action) : list fluent :=
  match a with
  | Pick v q1 t q2 p o => [AtConf v q1; HFree; AtPose o p]
  | Place v q1 t q2 p o => [AtConf v q1; Holding o]
  end.

Definition step (s : state) (a : action) : option state :=
  if static_pre a && holds fluent s (pre a)
  then Some (update fluent fluent_eqb s (adds a) (dels a)) else None.
Fixpoint run (s : state) (plan : list action) : option state :=
  match plan with
  | [] => Some s
  | a :: plan' => match step s a with Some s' => run s' plan' | None => None end
  end.
End Domain.

(** run.py 122: zip(targets, target_init_poses, target_goal_poses) *)
Definition zip3 (targets inits goals : list nat) : list (nat * (nat * nat)) := combine targets (combine inits goals).
(** run.py 112-126: HFree, the rover's configuration and the initial poses *)
Definition init_state (rover q0 : nat) (targets inits goals : list nat) : state :=
  fun f => match f with
  | HFree => true
  | AtConf v q => (v =? rover) && (q =? q0)
  | AtPose o p => existsb (fun x => (o =? fst x) && (p =? fst (snd x))) (zip3 targets inits goals)
  | Holding _ => false
  end.
(** run.py 124 and 129 *)
Definition goal_reached (targets inits goals : list nat) (s : state) : bool :=
  forallb (fun x => s (AtPose (fst x) (snd (snd x)))) (zip3 targets inits goals).

(** ** post_process, run.py 146-163 *)
Inductive command :=
| Traj (t : nat)
| Attach (v o : nat)
| Detach (v o : nat).
(** the dictionary [attachments] *)
Definition dict := nat -> option nat.
Definition set_key (d : dict) (k v : nat) : dict := fun k' => if k' =? k then Some v else d k'.
(** [None] is the KeyError of attachments[v] *)
Fixpoint post_loop (attachments : dict) (commands : list command) (plan : list action) : option (list command) :=
  match plan with
  | [] => Some commands
  | Pick v q1 t q2 p o :: plan' =>
      let attachments := set_key attachments v o in
      match attachments v with
      | Some b => post_loop attachments (commands ++ [Traj t; Attach v b]) plan'
      | None => None
      end
  | Place v q1 t q2 p o :: plan' =>
      match attachments v with
      | Some b => post_loop attachments (commands ++ [Traj t; Detach v b]) plan'
      | None => None
      end
  end.
Definition post_process (plan : list action) : option (list command) := post_loop (fun _ => None) [] plan.
