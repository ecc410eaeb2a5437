(** Model of interpolate_vectors, exps/tamp_environment/turtlebot_move/streams.py 215-230, over
    the reals; a point is the list of its coordinates. *)
From Coq Require Import Reals List ZArith.
Import ListNotations.
Open Scope R_scope.

Definition minus_vec (p q : list R) : list R := map (fun xy => fst xy - snd xy) (combine p q).
(** np.linalg.norm *)
Definition norm_vec (p : list R) : R := sqrt (fold_right (fun x s => x * x + s) 0 p).
(** np.ceil *)
Definition ceil (x : R) : Z := (- Int_part (- x))%Z.
(** np.linspace(start, end, num, endpoint=False), all num points *)
Definition linspace_open (p q : list R) (num : nat) : list (list R) :=
  map (fun k => map (fun xy => fst xy + INR k * ((snd xy - fst xy) / INR num)) (combine p q)) (seq 0 num).

(** body of the loop, streams.py 221-228: what one segment adds *)
Definition segment_points (threshold : R) (p q : list R) : list (list R) :=
  let dist := norm_vec (minus_vec q p) in
  (if Rlt_dec threshold dist then
     let steps := (ceil (dist / threshold) - 1)%Z in
     tl (linspace_open p q (Z.to_nat (steps + 2)))
   else []) ++ [q].

(** the loop over consecutive points *)
Fixpoint segments (threshold : R) (path : list (list R)) : list (list R) :=
  match path with
  | p :: (q :: _) as rest => segment_points threshold p q ++ segments threshold rest
  | _ => []
  end.

(** streams.py 215-230; vectors[0] of an empty path raises *)
Definition interpolate_vectors (threshold : R) (path : list (list R)) : option (list (list R)) :=
  match path with
  | [] => None
  | p :: _ => Some (p :: segments threshold path)
  end.
