(** Model of the corner world of the turtlebot, exps/tamp_environment/turtlebot_move/problems.py
    399-439 (corner) and 131-171 (the first definition of hallway, which has the same body and is
    replaced by the second one at line 305).

    The floor, the colours and the heights are left out: the collision checker reads the obstacles'
    boxes in the plane.  initial_surfaces is filled (line 425) and never read, so the box stays where
    create_box puts it, centred at the origin. *)
From Coq Require Import Reals List.
From Verif Require Import Plane Sat_Model World_Model.
Import ListNotations.
Open Scope R_scope.

(** line 400 *)
Definition base_extent : R := 3.
(** lines 419-420 *)
Definition robot_width (robot_scale : R) : R := BOT_RADIUS * robot_scale.
Definition corner_offset (robot_scale : R) : R := robot_width robot_scale + mound_height.
(** line 423 *)
Definition box_width (robot_scale dd : R) : R :=
  (base_extent / 2 - (mound_height + 2 * robot_width robot_scale)) * 2 - dd.
(** lines 407-415, 424 and 427: the list [obstacles] *)
Definition corner_walls (robot_scale dd : R) : list rect :=
  [mkRect 0 (base_extent / 2) (base_extent + mound_height) mound_height;
   mkRect 0 (- base_extent / 2) (base_extent + mound_height) mound_height;
   mkRect (base_extent / 2) 0 mound_height (base_extent + mound_height);
   mkRect (- base_extent / 2) 0 mound_height (base_extent + mound_height);
   mkRect 0 0 (box_width robot_scale dd) (box_width robot_scale dd)].
(** lines 432-433 *)
Definition corner_init (robot_scale : R) : rpt :=
  (base_extent / 2 - corner_offset robot_scale, - base_extent / 2 + corner_offset robot_scale).
Definition corner_goal (robot_scale : R) : rpt :=
  (- base_extent / 2 + corner_offset robot_scale, base_extent / 2 - corner_offset robot_scale).
