(** How many samples the turtlebot's motion query asks for
    (exps/tamp_environment/turtlebot_move/streams.py 134-160) and the bounds of the region it samples, for each of the worlds of problems.py.  Lengths are real numbers. *)
From Coq Require Import ZArith Reals List.
From Verif Require Import Plane World_Model Corner_Model Search_Model Bound_Model.
Import ListNotations.
Open Scope R_scope.

(** problems.py 128: the problem's [hallway_gap] is 0 unless the world sets it *)
Definition default_gap : R := 0.

(** lines 142-146: the x-extent that is planned for is the held object's, if there is one *)
Definition body_extent (rover : R) (held : option R) : R :=
  match held with Some e => e | None => rover end.

(** lines 148-155: the pair (min_samples, max_samples).  [None] is an exception of
    compute_numerical_bound (ArithmeticError); the first component of the inner result is
    the outcome of its search. *)
Definition sample_range (adaptive_n : bool) (start_samples end_samples : Z) (gap rover : R) (held : option R) (fuel : nat)
  : option (sres (Z * Z)) :=
  if adaptive_n then
    match compute_numerical_bound (adaptive_delta gap (body_extent rover held)) (99 / 100) 16 2 None fuel with
    | None => None
    | Some (Ret max_samples, _) => Some (Ret ((max_samples - 1)%Z, max_samples))
    | Some (ErrOverflow, _) => Some ErrOverflow
    | Some (ErrArith, _) => Some ErrArith
    | Some (OutOfFuel, _) => Some OutOfFuel
    end
  else Some (Ret (start_samples, end_samples)).

(** ** Setting up a query *)

(** lines 44-46 and 54-63: unpacking the transposed list of no vertices raises ValueError *)
Definition py_extents (vs : list rpt) : option ((R * R) * (R * R)) :=
  match vs with [] => None | _ => Some (extents vs) end.

Inductive setup :=
| RaisesArithmetic                     (* compute_numerical_bound, bound.py 147 *)
| RaisesOverflow                       (* its search *)
| RaisesInternal                       (* its search, "Something wrong happened" *)
| SearchRuns                           (* its search has not ended within the fuel *)
| RaisesValue                          (* extents of no vertices *)
| Ready (min_samples max_samples : Z) (bounds : (R * R) * (R * R)).

(** lines 134-160 up to the bounds of the environment: the sample counts come first *)
Definition query_setup (adaptive_n : bool) (start_samples end_samples : Z) (gap : R) (obstacles : list obox)
    (rover : R) (held : option R) (fuel : nat) : setup :=
  match sample_range adaptive_n start_samples end_samples gap rover held fuel with
  | None => RaisesArithmetic
  | Some ErrOverflow => RaisesOverflow
  | Some ErrArith => RaisesInternal
  | Some OutOfFuel => SearchRuns
  | Some (Ret (lo, hi)) =>
      match py_extents (flat_map get_oobb_vertices obstacles) with
      | None => RaisesValue
      | Some b => Ready lo hi b
      end
  end.

(** the two fields of a RoversProblem that a query reads here *)
Record rproblem := mkProblem { p_obstacles : list rect; p_gap : R }.
(** problems.py 294-303 *)
Definition manip_problem (robot_scale dd : R) (us : list R) : rproblem :=
  let gap := hallway_gap (target_sizes robot_scale us) dd in mkProblem (hallway_walls (3 / 2) 3 gap) gap.
(** problems.py 396 *)
Definition hallway_problem (robot_scale dd : R) : rproblem :=
  mkProblem (hallway_walls 1 3 (hallway_gap_plain robot_scale dd)) default_gap.
(** problems.py 439 *)
Definition corner_problem (robot_scale dd : R) : rproblem := mkProblem (corner_walls robot_scale dd) default_gap.

(** problems.py 442-460: the bodies random_obstacles makes, the four walls and boxes of width and
    length 0.1 at the points where sample_placements puts them (line 481) *)
Definition random_extent : R := 5.
Definition random_solids (places : list rpt) : list rect :=
  [mkRect 0 (random_extent / 2) (random_extent + mound_height) mound_height;
   mkRect 0 (- random_extent / 2) (random_extent + mound_height) mound_height;
   mkRect (random_extent / 2) 0 mound_height (random_extent + mound_height);
   mkRect (- random_extent / 2) 0 mound_height (random_extent + mound_height)] ++
  map (fun p => mkRect (fst p) (snd p) mound_height mound_height) places.
(** problems.py 483: neither obstacles nor a gap are given; the default is an empty list (line 120) *)
Definition random_problem (places : list rpt) : rproblem := mkProblem [] default_gap.
(** problems.py 470-471: the points of the initial and the goal configuration *)
Definition random_init : rpt := (175 / 100, - (175 / 100)).
Definition random_goal : rpt := (- (175 / 100), 175 / 100).

(** the query of a problem *)
Definition problem_setup (adaptive_n : bool) (s e : Z) (p : rproblem) (rover : R) (held : option R) (fuel : nat) : setup :=
  query_setup adaptive_n s e (p_gap p) (map wall_oobb (p_obstacles p)) rover held fuel.
