(** Model of nonasymptotic/util.py and of the environments StraightLine (envs.py 55-99,
    359-362) and NarrowPassage (envs.py 365-467).

    Coordinates are reals; comparisons are decided, rounding is idealised away.  Points are
    lists of coordinates (numpy vectors); the batched code is the row-wise application of
    these functions, as no row looks at another one. *)
From Coq Require Import Arith List Reals Bool.
Import ListNotations.
Open Scope R_scope.

Inductive geom_err := ValueError.
Inductive geom_res (A : Type) := Ok (a : A) | Err (e : geom_err).
Arguments Ok {A} a.
Arguments Err {A} e.

Definition Rleb (x y : R) : bool := if Rle_dec x y then true else false.
Definition Reqb (x y : R) : bool := if Req_EM_T x y then true else false.

(** ** util.py *)
Definition pt := (R * R)%type.
Definition psub (a b : pt) : pt := (fst a - fst b, snd a - snd b).

(** cross_2d, util.py 4-5. *)
Definition cross_2d (v w : pt) : R := fst v * snd w - snd v * fst w.

(** detect_intersect, util.py 8-54.  When cross_dir is zero the two divisions give an
    infinity or NaN, for which "0 <= x and x <= 1" is false. *)
Definition detect_intersect (s1e1 s1e2 s2e1 s2e2 : pt) : bool :=
  let s1_dir := psub s1e2 s1e1 in
  let s2_dir := psub s2e2 s2e1 in
  let cross_dir := cross_2d s1_dir s2_dir in
  let coeff_unnormed1 := cross_2d (psub s2e1 s1e1) s2_dir in
  let coeff_unnormed2 := cross_2d (psub s2e1 s1e1) s1_dir in
  let is_collinear := Reqb cross_dir 0 && Reqb coeff_unnormed2 0 in
  let is_clean :=
    if Reqb cross_dir 0 then false
    else let c1 := coeff_unnormed1 / cross_dir in
         let c2 := coeff_unnormed2 / cross_dir in
         Rleb 0 c1 && Rleb c1 1 && (Rleb 0 c2 && Rleb c2 1) in
  is_clean || is_collinear.

(** ** vectors *)
Definition vec := list R.
Definition vzip (f : R -> R -> R) (p q : vec) : vec := map (fun xy => f (fst xy) (snd xy)) (combine p q).
(** numpy subtraction of two vectors; unequal lengths other than 1 do not broadcast *)
Definition vsub_np (p q : vec) : geom_res vec :=
  if length p =? length q then Ok (vzip Rminus p q)
  else if length q =? 1 then Ok (map (fun x => x - nth 0 q 0) p)
  else if length p =? 1 then Ok (map (fun y => nth 0 p 0 - y) q)
  else Err ValueError.
Definition norm (p : vec) : R := sqrt (fold_right (fun x s => x * x + s) 0 p).
Definition prod (p : vec) : R := fold_right Rmult 1 p.
Definition clip (x lo hi : R) : R := Rmin (Rmax x lo) hi.
Definition all2 (f : R -> R -> bool) (p q : vec) : bool :=
  forallb (fun xy => f (fst xy) (snd xy)) (combine p q).
(** rng.uniform(lo, hi) with the generator's numbers u in [0, 1) *)
Definition uniform (lo hi u : vec) : vec :=
  map (fun t => fst (fst t) + snd t * (snd (fst t) - fst (fst t))) (combine (combine lo hi) u).

(** ** StraightLine *)
Section Line.
  Variable dim : nat.
  Variables delta length_ : R.

  (** envs.py 68-70. *)
  Definition line_lower : vec := - delta :: repeat (- delta) (dim - 1).
  Definition line_upper : vec := length_ + delta :: repeat delta (dim - 1).
  Definition line_dir : vec := 1 :: repeat 0 (dim - 1).

  (** envs.py 75-76. *)
  Definition line_sample (u : vec) : vec := uniform line_lower line_upper u.
  (** envs.py 78-82. *)
  Definition line_curve (t : R) : vec := clip t 0 1 * length_ :: repeat 0 (dim - 1).
  (** envs.py 84-95. *)
  Definition in_bounds (p : vec) : bool := all2 Rleb line_lower p && all2 Rleb p line_upper.
  Definition line_motion_valid (start goal : vec) : bool := in_bounds start && in_bounds goal.
  (** envs.py 97-99, one point. *)
  Definition line_distance (p : vec) : geom_res R :=
    let proj := clip (nth 0 p 0) 0 length_ in
    match vsub_np p (map (fun x => proj * x) line_dir) with
    | Ok v => Ok (norm v)
    | Err e => Err e
    end.
  (** envs.py 359-362. *)
  Definition line_volume : R := prod (map Rabs (vzip Rminus line_upper line_lower)).
End Line.

(** ** NarrowPassage *)
Section Narrow.
  Variable dim : nat.
  Variable c : R.      (* clearance *)

  (** envs.py 381-388. *)
  Definition left_lb : vec := - (3 / 2) :: repeat (- (1 / 2)) (dim - 1).
  Definition left_ub : vec := - (1 / 2) :: repeat (1 / 2) (dim - 1).
  Definition right_lb : vec := 1 / 2 :: repeat (- (1 / 2)) (dim - 1).
  Definition right_ub : vec := 3 / 2 :: repeat (1 / 2) (dim - 1).
  Definition hall_lb : vec := - (1 / 2) :: repeat (- c) (dim - 1).
  Definition hall_ub : vec := 1 / 2 :: repeat c (dim - 1).

  (** envs.py 390-397. *)
  Definition box_vol (lb ub : vec) : R := prod (map Rabs (vzip Rminus ub lb)).
  Definition left_vol := box_vol left_lb left_ub.
  Definition right_vol := box_vol right_lb right_ub.
  Definition hall_vol := box_vol hall_lb hall_ub.
  Definition narrow_volume : R := left_vol + right_vol + hall_vol.
  Definition p_left := left_vol / narrow_volume.
  Definition p_right := right_vol / narrow_volume.
  Definition p_hall := hall_vol / narrow_volume.
  (** envs.py 398-402. *)
  Definition lined_up_bounds : list (vec * vec) :=
    [(left_lb, left_ub); (right_lb, right_ub); (hall_lb, hall_ub)].

  (** envs.py 405. *)
  Definition narrow_line_dir : vec := 1 :: repeat 0 dim.

  (** envs.py 408-415. *)
  Definition coll_lines : list (pt * pt) :=
    [((- (1 / 2), c), (- (1 / 2), 1 / 2));
     ((- (1 / 2), - c), (- (1 / 2), - (1 / 2)));
     ((- (1 / 2), c), (1 / 2, c));
     ((- (1 / 2), - c), (1 / 2, - c));
     ((1 / 2, c), (1 / 2, 1 / 2));
     ((1 / 2, - c), (1 / 2, - (1 / 2)))].

  (** envs.py 417-422: the box chosen and the uniform numbers drawn. *)
  Definition narrow_sample (box : nat) (u : vec) : vec :=
    let b := nth box lined_up_bounds ([], []) in uniform (fst b) (snd b) u.

  (** envs.py 424-428. *)
  Definition narrow_curve (t : R) : vec := - (1 / 2) + clip t 0 1 :: repeat 0 dim.

  (** envs.py 449-450. *)
  Definition proj (i : nat) (p : vec) : pt := (nth 0 p 0, nth i p 0).

  (** envs.py 430-456, one row. *)
  Definition narrow_motion_valid (start goal : vec) : bool :=
    negb (fold_left (fun colliding i =>
            fold_left (fun colliding l =>
                         colliding || detect_intersect (proj i start) (proj i goal) (fst l) (snd l))
                      coll_lines colliding)
          (seq 1 (dim - 1)) false).

  (** envs.py 461-463, one point. *)
  Definition narrow_distance (p : vec) : geom_res R :=
    let pr := clip (nth 0 p 0) 0 1 in
    match vsub_np p (map (fun x => pr * x) narrow_line_dir) with
    | Ok v => Ok (norm v)
    | Err e => Err e
    end.
End Narrow.
