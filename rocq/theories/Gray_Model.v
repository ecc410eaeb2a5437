(** Model of GrayCodeWalls, nonasymptotic/envs.py 470-780.

    Coordinates are rationals (rounding is idealised away), cubes are integer tuples. *)
From Coq Require Import Arith ZArith QArith Qround List Bool.
Import ListNotations.
Open Scope Q_scope.

Inductive gray_err := NotInGraph | StopIteration | AssertionError | OutOfFuel.
Inductive gray_res (A : Type) := Ok (a : A) | Err (e : gray_err).
Arguments Ok {A} a.
Arguments Err {A} e.

Notation cube := (list Z).
Notation point := (list Q).

Definition Qltb (x y : Q) : bool := negb (Qle_bool y x).

(** sympy's GrayCode(n).generate_gray(), envs.py 480-483: the binary reflected Gray code,
    most significant bit first, each string turned into a tuple of integers. *)
Fixpoint gray (n : nat) : list cube :=
  match n with
  | O => [[]]
  | S n' => map (cons 0%Z) (gray n') ++ map (cons 1%Z) (rev (gray n'))
  end.

(** _prepend_coord, envs.py 761-768. *)
Definition prepend_coord (coord : Z) (l : list cube) : list cube := map (cons coord) l.

(** The corridor, envs.py 485-493: no_walls_linear_list. *)
Definition linear_list (dim len : nat) : list cube :=
  let gray_coords := gray (dim - 1) in
  let gray_coords_reversed := rev gray_coords in
  flat_map (fun i => prepend_coord (Z.of_nat i)
                       (if Nat.even i then gray_coords else gray_coords_reversed))
           (seq 0 len).

Definition cube_eqb (c d : cube) : bool := if list_eq_dec Z.eq_dec c d then true else false.
Definition has_cube (path : list cube) (c : cube) : bool := existsb (cube_eqb c) path.

(** The directed graph of envs.py 495-500; [predecessors] and [successors] list the other
    ends of the edges zip(path, path[1:]). *)
Definition edges (path : list cube) : list (cube * cube) := combine path (tl path).
Definition predecessors (path : list cube) (c : cube) : list cube :=
  map fst (filter (fun e => cube_eqb (snd e) c) (edges path)).
Definition successors (path : list cube) (c : cube) : list cube :=
  map snd (filter (fun e => cube_eqb (fst e) c) (edges path)).
Definition neighbors (path : list cube) (c : cube) : list cube :=
  predecessors path c ++ successors path c.

(** ** Sampling probabilities, envs.py 504-540 *)
Definition qprod (l : list Q) : Q := fold_right Qmult 1 l.
Definition cube_center_lengths (dim : nat) (th : Q) : list Q := repeat (1 - 2 * th) dim.
Definition open_wall_lengths (dim : nat) (th : Q) : list Q := th :: repeat (1 - 2 * th) (dim - 1).
Definition vol_center dim th := qprod (cube_center_lengths dim th).
Definition vol_open_wall dim th := qprod (open_wall_lengths dim th).
Definition vol_end_passage dim th := vol_center dim th + vol_open_wall dim th.
Definition vol_mid_passage dim th := vol_center dim th + 2 * vol_open_wall dim th.
Definition total_volume (n_nodes : nat) dim th : Q :=
  inject_Z (Z.of_nat n_nodes - 2) * vol_mid_passage dim th + 2 * vol_end_passage dim th.
Definition cuboid_pmf (n_nodes : nat) dim th : list Q :=
  [vol_end_passage dim th / total_volume n_nodes dim th]
  ++ repeat (vol_mid_passage dim th / total_volume n_nodes dim th) (n_nodes - 2)
  ++ [vol_end_passage dim th / total_volume n_nodes dim th].
Definition mid_passage_regions_pmf dim th : list Q :=
  [vol_open_wall dim th / vol_mid_passage dim th]
  ++ [vol_center dim th / vol_mid_passage dim th]
  ++ [vol_open_wall dim th / vol_mid_passage dim th].
Definition end_passage_regions_pmf dim th : list Q :=
  [vol_center dim th / vol_end_passage dim th] ++ [vol_open_wall dim th / vol_end_passage dim th].

(** envs.py 548-549. *)
Definition curve_arclength (n_nodes : nat) : Q :=
  (1#2) * (1 + 2 * (inject_Z (Z.of_nat n_nodes) - 2) + 1).

(** ** Distance to the walls *)
Definition center (c : cube) : point := map (fun z => inject_Z z + (1#2)) c.

(** A wall coordinate; None is the infinity that marks an open wall. *)
Definition walls := list (option Q * option Q).
Definition closed_walls (dim : nat) : walls := repeat (Some (-(1#2)), Some (1#2)) dim.

(** _unblock_wall, envs.py 747-758.  The code takes the only coordinate in which the cubes
    differ; here each differing coordinate is opened, which is the same for cubes that
    differ in one coordinate (proved of the corridor in gray_corridor). *)
Fixpoint unblock_wall (c nb : cube) (w : walls) : walls :=
  match c, nb, w with
  | x :: c', y :: nb', (lo, hi) :: w' =>
      (if (x <? y)%Z then (lo, None) else if (y <? x)%Z then (None, hi) else (lo, hi))
      :: unblock_wall c' nb' w'
  | _, _, _ => w
  end.

(** minimum with None as infinity *)
Definition omin (a b : option Q) : option Q :=
  match a, b with
  | Some x, Some y => Some (if Qle_bool x y then x else y)
  | Some x, None => Some x
  | None, _ => b
  end.

(** _distance_to_wall_in_cube, envs.py 559-577. *)
Definition distance_in_cube (path : list cube) (th : Q) (c : cube) (x : point) : gray_res (option Q) :=
  if has_cube path c then
    let x_c := map (fun p => fst p - (inject_Z (snd p) + (1#2))) (combine x c) in
    let w := fold_left (fun w nb => unblock_wall c nb w) (neighbors path c) (closed_walls (length c)) in
    let low_dists := map (fun p => option_map (fun l => fst p - l) (fst (snd p))) (combine x_c w) in
    let high_dists := map (fun p => option_map (fun h => h - fst p) (snd (snd p))) (combine x_c w) in
    let d := omin (fold_right omin None low_dists) (fold_right omin None high_dists) in
    Ok (option_map (fun v => v - th) d)
  else Err NotInGraph.

(** distance_to_wall, envs.py 551-557. *)
Definition floor_cube (x : point) : cube := map Qfloor x.
Definition distance_to_wall (dim : nat) (path : list cube) (th : Q) (x : point) : gray_res (option Q) :=
  if Nat.eqb (length x) dim then distance_in_cube path th (floor_cube x) x else Err AssertionError.

Definition oneg (d : option Q) : bool := match d with Some v => Qltb v 0 | None => false end.

(** ** Sampling, envs.py 579-600 and 706-740 *)
Inductive region := EndPassage | EndCenter | MidPassage1 | MidCenter | MidPassage2.
Definition is_center (r : region) : bool :=
  match r with EndCenter | MidCenter => true | _ => false end.

(** the region chosen in a cube, given the index drawn, envs.py 585-594 *)
Definition sampled_region (path : list cube) (c : cube) (ix : nat) : region :=
  if cube_eqb c (hd [] path) || cube_eqb c (last path []) then nth ix [EndCenter; EndPassage] EndCenter
  else nth ix [MidPassage1; MidCenter; MidPassage2] MidCenter.

(** np.where(d): the indices with a non-zero entry; the code relies on there being one *)
Fixpoint where_nonzero (d : list Z) : nat :=
  match d with
  | [] => O
  | x :: d' => if (x =? 0)%Z then S (where_nonzero d') else O
  end.
Definition zsub (c d : cube) : list Z := map (fun p => (fst p - snd p)%Z) (combine c d).
Definition set_nth {A} (i : nat) (v : A) (l : list A) : list A := firstn i l ++ v :: skipn (S i) l.
Definition swap0 (i : nat) (l : list Q) : list Q :=
  let a := nth 0 l 0 in let b := nth i l 0 in set_nth i a (set_nth 0 b l).
Definition qadd (p q : list Q) : list Q := map (fun r => fst r + snd r) (combine p q).
Definition qmul (p q : list Q) : list Q := map (fun r => fst r * snd r) (combine p q).

(** _transform_sample_to_global_frame, envs.py 706-740. *)
Definition transform_sample (dim : nat) (path : list cube) (th : Q)
    (unit_sample : list Q) (c : cube) (r : region) : point :=
  let region_sample :=
    if is_center r then
      map (fun s => s - (1 - 2 * th) / 2) (qmul unit_sample (cube_center_lengths dim th))
    else
      let ix := match r with EndPassage | MidPassage1 => 0%nat | _ => 1%nat end in
      let adjoined := nth ix (neighbors path c) [] in
      let dir := zsub adjoined c in
      let k := where_nonzero dir in
      let s := swap0 k (qmul unit_sample (open_wall_lengths dim th)) in
      let translation := set_nth k (if (0 <? nth k dir 0)%Z then (1#2) - th else - (1#2))
                                 (repeat (- (1#2) + th) dim) in
      qadd s translation in
  map (fun p => fst p + inject_Z (snd p) + (1#2)) (combine region_sample c).

(** sample_from_env, envs.py 579-600, given the indices drawn and the unit cube sample. *)
Definition sample_from_env (dim : nat) (path : list cube) (th : Q) (cube_ix region_ix : nat)
    (unit_sample : list Q) : point :=
  let c := nth cube_ix path [] in
  transform_sample dim path th unit_sample c (sampled_region path c region_ix).

(** ** The reference curve, envs.py 602-642 *)
Definition start_point (dim : nat) : point := repeat (1#2) dim.
Definition end_point (path : list cube) : point := center (last path []).

Definition qclip (x lo hi : Q) : Q := if Qle_bool x lo then lo else if Qle_bool hi x then hi else x.
(** t_point[-1] += v *)
Definition add_last (p : point) (v : Q) : point :=
  set_nth (length p - 1) (nth (length p - 1) p 0 + v) p.
(** t_point += v * d *)
Definition add_dir (p : point) (v : Q) (d : list Z) : point :=
  map (fun r => fst r + v * inject_Z (snd r)) (combine p d).

Definition curve_point (dim : nat) (path : list cube) (t_normed : Q) : gray_res point :=
  let n := length path in
  let t := qclip t_normed 0 1 * curve_arclength n in
  let t_leg := if Qle_bool t 0 then 1%Z else Qceiling (t / (1#2)) in
  let into_leg := t - (inject_Z t_leg - 1) * (1#2) in
  if (t_leg =? 1)%Z then Ok (add_last (start_point dim) t)
  else if (t_leg =? 1 + 2 * (Z.of_nat n - 2) + 1)%Z then
    Ok (add_last (center (last path [])) ((1#2) - into_leg))
  else
    let c := nth (Z.to_nat (t_leg / 2)) path [] in
    if (t_leg mod 2 =? 0)%Z then
      match predecessors path c with
      | [] => Err StopIteration
      | pred :: _ => Ok (add_dir (center c) ((1#2) - into_leg) (zsub pred c))
      end
    else
      match successors path c with
      | [] => Err StopIteration
      | succ :: _ => Ok (add_dir (center c) into_leg (zsub succ c))
      end.

(** ** Motion check, envs.py 647-698 *)

(** the cubes after c on the path: the nodes a depth-first search from c reaches *)
Fixpoint after (c : cube) (path : list cube) : list cube :=
  match path with
  | [] => []
  | d :: path' => if cube_eqb d c then path' else after c path'
  end.

Section Motion.
  Variables (dim : nat) (path : list cube) (th : Q).

  Definition next_cube (forward : bool) (c : cube) : option cube :=
    hd_error (if forward then successors path c else predecessors path c).

  (** envs.py 698 *)
  Definition ends_clear (start goal : point) : gray_res bool :=
    match distance_to_wall dim path th start with
    | Err e => Err e
    | Ok d => if oneg d then Ok false
              else match distance_to_wall dim path th goal with
                   | Err e => Err e
                   | Ok d' => Ok (negb (oneg d'))
                   end
    end.

  (** The while loop, envs.py 661-695.  [t] is num/den.  A zero den gives minus infinity or
      NaN (the motion is rejected) or plus infinity.  After plus infinity the motion point
      has a NaN coordinate and only NaN and infinite ones, its wall distance is NaN and so
      is not negative; the next round, if there is one, computes a NaN [t] and rejects, and
      if there is none floor(NaN) names a cube outside the graph. *)
  Fixpoint motion_loop (fuel : nat) (forward : bool) (goal_cube : cube) (goal : point)
      (start_cube : cube) (start : point) : gray_res bool :=
    if cube_eqb start_cube goal_cube then ends_clear start goal else
    match fuel with
    | O => Err OutOfFuel
    | S fuel' =>
      match next_cube forward start_cube with
      | None => Err StopIteration
      | Some nc =>
          let k := where_nonzero (zsub nc start_cube) in
          let between := (nth k (center start_cube) 0 + nth k (center goal_cube) 0) / 2 in
          let num := between - nth k start 0 in
          let den := nth k goal 0 - nth k start 0 in
          match distance_in_cube path th start_cube start with
          | Err e => Err e
          | Ok d_start =>
              if Qeq_bool den 0 then
                if Qle_bool num 0 then Ok false
                else if oneg d_start then Ok false
                else if cube_eqb nc goal_cube then Err NotInGraph
                else match next_cube forward nc with None => Err StopIteration | Some _ => Ok false end
              else
                let t := num / den in
                if Qle_bool t 0 then Ok false else
                let opening := map (fun p => (snd p - fst p) * t + fst p) (combine start goal) in
                if oneg d_start then Ok false else
                match distance_in_cube path th start_cube opening with
                | Err e => Err e
                | Ok d_open =>
                    if oneg d_open then Ok false
                    else motion_loop fuel' forward goal_cube goal nc opening
                end
          end
      end
    end.

  Definition is_motion_valid (start goal : point) : gray_res bool :=
    let start_cube := floor_cube start in
    let goal_cube := floor_cube goal in
    if has_cube path start_cube then
      let forward := has_cube (after start_cube path) goal_cube in
      motion_loop (length path) forward goal_cube goal start_cube start
    else Err NotInGraph.
End Motion.

(** the worked corridor of envs.py 783-784: dim 2, length 2 *)
Example linear_list_2_2 : linear_list 2 2 = [[0; 0]; [0; 1]; [1; 1]; [1; 0]]%Z.
Proof. reflexivity. Qed.
