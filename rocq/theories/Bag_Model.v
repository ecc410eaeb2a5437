(** Model of BagOfBoundingBoxes in exps/tamp_environment/turtlebot_move/streams.py, over the
    reals.  The constructor's polygons ([robot_verts], [obstacle_hulls]: the four flat vertices
    of a box, ordered counterclockwise by scipy's ConvexHull, streams.py 31-36, 51-52, 72-87)
    are parameters. *)
From Coq Require Import Reals List Bool Arith ZArith.
From Verif Require Import Plane Sat_Model.
Import ListNotations.
Open Scope R_scope.

Definition place (p v : rpt) : rpt := (fst v + fst p, snd v + snd p).
(** int(x) of a non-negative number *)
Definition trunc (x : R) : nat := Z.to_nat (Int_part x).

Section Bag.
Variable robot_verts : list rpt.
Variable obstacle_hulls : list (list rpt).

(** streams.py 92-95 *)
Definition robot_at (p : rpt) : list rpt := map (place p) robot_verts.

(** streams.py 96: the minimum is over the robot's vertices, the maximum over motions and
    coordinates.  The maximum of an empty batch raises (see [is_motion_valid]). *)
Definition spread (f : rpt -> R) (m : rpt * rpt) : R :=
  lmin (map (fun sg => Rabs (f (fst sg) - f (snd sg))) (combine (robot_at (fst m)) (robot_at (snd m)))).
Definition num_steps (batch : list (rpt * rpt)) : nat :=
  (trunc (lmax (flat_map (fun m => [spread fst m; spread snd m]) batch) / (8 / 100)) + 2)%nat.
(** np.linspace(0, 1, n), streams.py 97 *)
Definition alphas (n : nat) : list R := map (fun k => INR k / INR (n - 1)) (seq 0 n).
(** streams.py 99 *)
Definition interm (a : R) (m : rpt * rpt) : list rpt :=
  map (fun sg => (fst (fst sg) + a * (fst (snd sg) - fst (fst sg)), snd (fst sg) + a * (snd (snd sg) - snd (fst sg))))
      (combine (robot_at (fst m)) (robot_at (snd m))).

(** streams.py 98-100, one round *)
Definition check_round (batch : list (rpt * rpt)) (acc : option (list bool)) (ha : list rpt * R) : option (list bool) :=
  match acc with
  | None => None
  | Some valids =>
    match vec_separating_axis (length robot_verts) (length (fst ha)) (map (fun m => (interm (snd ha) m, fst ha)) batch) with
    | None => None
    | Some collides => Some (map (fun vc => fst vc && negb (snd vc)) (combine valids collides))
    end
  end.
(** is_motion_valid, streams.py 89-101; None is an exception *)
Definition is_motion_valid (batch : list (rpt * rpt)) : option (list bool) :=
  match batch with
  | [] => None
  | _ => fold_left (check_round batch) (list_prod obstacle_hulls (alphas (num_steps batch))) (Some (repeat true (length batch)))
  end.
End Bag.
