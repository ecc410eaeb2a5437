(** Model of the kuka task domain, exps/tamp_environment/kuka_carry/domain.pddl, of the fluents
    and goal that pddlstream_from_problem builds (run.py 325-396), of postprocess_plan
    (run.py 580-585), of the assembly of an insertion trajectory (run.py 229-245) and of the
    command classes (kuka_primitives.py 176-318).

    As for the turtlebot, everything is numbered, and the predicates that no action changes are an
    arbitrary record of relations.  The motion streams of stream.pddl may look at the current
    object poses; the relations here are the union over all of them, so every plan that is
    executable with state-dependent streams is executable here. *)
From Coq Require Import Arith List Bool.
From Verif Require Import Strips.
Import ListNotations.

(** domain.pddl 3-29, the predicates that occur in effects *)
Inductive fluent :=
| HandEmpty
| CanMove
| AtConf (q : nat)
| AtPose (o p : nat)
| AtGrasp (o g : nat)
| Cleaned (o : nat)
| Cooked (o : nat).
Definition fluent_eqb (a b : fluent) : bool :=
  match a, b with
  | HandEmpty, HandEmpty => true
  | CanMove, CanMove => true
  | AtConf q, AtConf q' => q =? q'
  | AtPose o p, AtPose o' p' => (o =? o') && (p =? p')
  | AtGrasp o g, AtGrasp o' g' => (o =? o') && (g =? g')
  | Cleaned o, Cleaned o' => o =? o'
  | Cooked o, Cooked o' => o =? o'
  | _, _ => false
  end.
Definition state := fluent -> bool.

(** domain.pddl 3-29, the others; [poses] are the pose objects the planner knows *)
Record facts := {
  poses : list nat;
  Stackable : nat -> nat -> bool;
  Sink : nat -> bool;
  Stove : nat -> bool;
  Kin : nat -> nat -> nat -> nat -> bool;
  FreeMotion : nat -> nat -> nat -> bool;
  HoldingMotion : nat -> nat -> nat -> nat -> nat -> bool;
  InsertMotion : nat -> nat -> nat -> nat -> nat -> bool;
  Supported : nat -> nat -> nat -> bool
}.

(** domain.pddl 31-85, parameters in the order of the file *)
Inductive action :=
| MoveFree (q1 q2 t : nat)
| MoveHolding (q1 q2 o g t : nat)
| MoveInsert (q1 q2 o g t : nat)
| Pick (o p g q : nat)
| Place (o p g q : nat)
| Clean (o r : nat)
| Cook (o r : nat).

Section Domain.
Variable F : facts.
(** domain.pddl 87-90 *)
Definition On (s : state) (o r : nat) : bool := existsb (fun p => Supported F o p r && s (AtPose o p)) (poses F).

(** preconditions that are not fluents *)
Definition static_pre (s : state) (a : action) : bool :=
  match a with
  | MoveFree q1 q2 t => FreeMotion F q1 t q2
  | MoveHolding q1 q2 o g t => HoldingMotion F q1 t q2 o g
  | MoveInsert q1 q2 o g t => InsertMotion F q1 t q2 o g
  | Pick o p g q | Place o p g q => Kin F o p g q
  | Clean o r => Stackable F o r && Sink F r && On s o r
  | Cook o r => Stackable F o r && Stove F r && On s o r
  end.
Definition pre (a : action) : list fluent :=
  match a with
  | MoveFree q1 q2 t => [AtConf q1; HandEmpty; CanMove]
  | MoveHolding q1 q2 o g t | MoveInsert q1 q2 o g t => [AtConf q1; AtGrasp o g; CanMove]
  | Pick o p g q => [AtPose o p; HandEmpty; AtConf q]
  | Place o p g q => [AtGrasp o g; AtConf q]
  | Clean o r => []
  | Cook o r => [Cleaned o]
  end.
Definition adds (a : action) : list fluent :=
  match a with
  | MoveFree q1 q2 t | MoveHolding q1 q2 _ _ t | MoveInsert q1 q2 _ _ t => [AtConf q2]
  | Pick o p g q => [AtGrasp o g; CanMove]
  | Place o p g q => [AtPose o p; HandEmpty; CanMove]
  | Clean o r => [Cleaned o]
  | Cook o r => [Cooked o]
  end.
Definition dels (a : action) : list fluent :=
  match a with
  | MoveFree q1 q2 t | MoveHolding q1 q2 _ _ t | MoveInsert q1 q2 _ _ t => [AtConf q1; CanMove]
  | Pick o p g q => [AtPose o p; HandEmpty]
  | Place o p g q => [AtGrasp o g]
  | Clean o r => []
  | Cook o r => [Cleaned o]
  end.
Definition step (s : state) (a : action) : option state :=
  if static_pre s a && holds fluent s (pre a)
  then Some (update fluent fluent_eqb s (adds a) (dels a)) else None.
Fixpoint run (s : state) (plan : list action) : option state :=
  match plan with
  | [] => Some s
  | a :: plan' => match step s a with Some s' => run s' plan' | None => None end
  end.
End Domain.

(** run.py 325-348: CanMove, HandEmpty, the arm's configuration and the pose of each movable *)
Definition init_state (start : nat) (movable : list (nat * nat)) : state :=
  fun f => match f with
  | HandEmpty | CanMove => true
  | AtConf q => q =? start
  | AtPose o p => existsb (fun x => (o =? fst x) && (p =? snd x)) movable
  | _ => false
  end.
(** run.py 394-396 *)
Definition goal_reached (start : nat) (movable : list (nat * nat)) (s : state) : bool :=
  s (AtConf start) && forallb (fun x => s (Cleaned (fst x))) movable.

(** ** Commands, kuka_primitives.py 176-318 *)
Section Commands.
Variables Conf Joints Attachment : Type.
(** BodyPath 176-222, Attach 255-261, Detach 264-269 *)
Inductive body_path :=
| BodyPath (body : nat) (path : list Conf) (joints : Joints) (attachments : list Attachment)
| Attach (body robot link : nat)
| Detach (body robot link : nat).
(** 220-221, 260-261, 268-269 *)
Definition path_reverse (b : body_path) : body_path :=
  match b with
  | BodyPath body path joints attachments => BodyPath body (rev path) joints attachments
  | Attach body robot link => Detach body robot link
  | Detach body robot link => Attach body robot link
  end.
(** 311-314 *)
Definition command_reverse (body_paths : list body_path) : list body_path := map path_reverse (rev body_paths).
(** 177-179, 241-242, 279-280: the bodies a command moves or attaches *)
Variable att_body : Attachment -> nat.
Definition path_bodies (b : body_path) : list nat :=
  match b with
  | BodyPath body _ _ attachments => body :: map att_body attachments
  | Attach body robot _ | Detach body robot _ => [body; robot]
  end.
Definition command_bodies (l : list body_path) : list nat := flat_map path_bodies l.

(** run.py 580-585: [traj t] are the body paths of the trajectory object t *)
Variable traj : nat -> list body_path.
Definition postprocess_plan (plan : list action) : list body_path :=
  fold_left (fun paths a => match a with
    | MoveFree _ _ t | MoveHolding _ _ _ _ t | MoveInsert _ _ _ _ t => paths ++ traj t
    | _ => paths
    end) plan [].

(** run.py 229-245: waypoints without an inverse kinematics solution are left out; with none at
    all [conf_joints] is unbound ([None]) *)
Definition insert_path {W} (ik : W -> option Conf) (whole_path : list W) : option (list Conf) :=
  match fold_left (fun acc w => match ik w with Some c => acc ++ [c] | None => acc end) whole_path [] with
  | [] => None
  | l => Some l
  end.
End Commands.
