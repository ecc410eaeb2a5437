(** Model of the anytime planning loop of get_anytime_motion_fn,
    exps/tamp_environment/turtlebot_move/streams.py 148-197, and of the same loop in
    get_insert_motion_gen, exps/tamp_environment/kuka_carry/run.py 159-210.

    Sample counts are rationals (the loop multiplies a count by [factor]).  The planner is
    abstract: [query sizes] is the path (without end points) that query_best_solution returns
    after the roadmap was grown to each of [sizes] in turn, empty if there is none.
    grow_to_n_samples of the nearest-neighbour roadmap raises ArithmeticError when asked for no
    more samples than it has (prm.py 374-380). *)
From Coq Require Import QArith Qround ZArith List Bool.
Import ListNotations.
Open Scope Z_scope.

(** int(x): towards zero *)
Definition Qint (x : Q) : Z := if Qle_bool 0 x then Qfloor x else - Qfloor (- x).
Definition Qlt_bool (x y : Q) : bool := negb (Qle_bool y x).

Inductive ended {P : Type} :=
| OutOfFuel
| PathUnbound                                   (* the loop body never ran: UnboundLocalError *)
| GrowError (sizes : list Z)                    (* ArithmeticError from grow_to_n_samples *)
| Stopped (sizes : list Z) (path : list P).
Arguments ended : clear implicits.

Section Loop.
Variable P : Type.
Variable query : list Z -> list P.
Variable max_samples : Z.
Variable factor : Q.

(** streams.py 171-178 / run.py 181-196; [sizes] are the sizes grown to so far *)
Fixpoint loop (fuel : nat) (num_samples : Q) (sizes : list Z) : ended P :=
  match fuel with
  | O => OutOfFuel
  | S fuel' =>
    if Qlt_bool num_samples (inject_Z (max_samples + 1)) then
      let n := Qint num_samples in
      if match sizes with [] => false | _ => n <=? last sizes 0 end then GrowError sizes
      else
        let sizes' := sizes ++ [n] in
        match query sizes' with
        | [] => loop fuel' (num_samples * factor)%Q sizes'
        | path => Stopped sizes' path
        end
    else match sizes with [] => PathUnbound | _ => Stopped sizes [] end
  end.

(** streams.py 183-197: no path gives None, otherwise the path with both end points *)
Definition motion (start goal : P) (r : ended P) : option (option (list P)) :=
  match r with
  | Stopped _ [] => Some None
  | Stopped _ path => Some (Some ([start] ++ path ++ [goal]))
  | _ => None
  end.
End Loop.

(** streams.py 148-156 / run.py 159-164: first size and budget *)
Definition budget (adaptive_n : bool) (bound start_samples end_samples : Z) : Z * Z :=
  if adaptive_n then (bound - 1, bound) else (start_samples, end_samples).
