(** Model of the bodies that exps/tamp_environment/kuka_carry/run.py makes and of what it tells the planner of them:
    create_link_body (432-494), create_hollow (498-506), SHAPE_INDICES (423-430), load_world (508-562), get_fixed (294-297),
    and the parts of pddlstream_from_problem that read them: sinks (333), the pairs of line 359, body_obstacle_map (402).

    The simulator gives a new body a number that no body has ([new_id]).  createMultiBody puts link [i] with parent 0 at
    its position relative to the base and with parent k > 0 relative to link k - 1; all joints are fixed and nothing is
    rotated.  Left out: masses, the camera, the placement of the objects on the stove (Prim_Model.v). *)
From Coq Require Import Reals List Bool Arith ZArith String Ascii.
From Verif Require Import Box_Model Bin_Model Submit_Model.
Import ListNotations.
Open Scope string_scope.

Inductive error := KeyError | ValueError | IndexError | AssertionFailed.
Inductive res (A : Type) := Ok (a : A) | Err (e : error).
Arguments Ok {A} a. Arguments Err {A} e.

(** ** Bodies with links *)
Definition colour := (R * R * R * R)%type.
Record link := mkLink { lk_half : vec; lk_point : vec; lk_parent : nat; lk_colour : colour }.

(** lines 464-474: one turn of the loop for each geometry *)
Fixpoint make_links (geoms poses : list vec) (colors : list colour) : res (list link) :=
  match geoms, poses with
  | g :: geoms', p :: poses' =>
    match colors with
    | [] => Err IndexError
    | c :: colors' =>
      match make_links geoms' poses' colors' with
      | Ok ls => Ok (mkLink g p 0 c :: ls)
      | Err e => Err e
      end
    end
  | _, _ => Ok []
  end.
(** lines 441-443 and 464-494 *)
Definition default_colour : colour := (1 / 2, 1 / 2, 1 / 2, 1)%R.
Definition create_link_body (geoms poses : list vec) (colors : option (list colour)) : res (list link) :=
  if (List.length geoms =? List.length poses)%nat then
    make_links geoms poses (match colors with Some c => c | None => repeat default_colour (List.length geoms) end)
  else Err AssertionFailed.

(** where the simulator has link [i] when the base is at [base]; [None]: no such link, or a parent that is its own ancestor *)
Definition vadd (a b : vec) : vec := fun i => (a i + b i)%R.
Fixpoint link_origin (fuel : nat) (links : list link) (base : vec) (i : nat) : option vec :=
  match nth_error links i with
  | None => None
  | Some l =>
    match lk_parent l, fuel with
    | O, _ => Some (vadd base (lk_point l))
    | S _, O => None
    | S j, S f => option_map (fun o => vadd o (lk_point l)) (link_origin f links base j)
    end
  end.
(** the box of link [i] *)
Definition link_box (links : list link) (base : vec) (i : nat) : option oobb :=
  match nth_error links i, link_origin (List.length links) links base i with
  | Some l, Some o => Some (mkOobb (fun k => - lk_half l k)%R (lk_half l) o)
  | _, _ => None
  end.

(** ** Hollow bodies *)
(** lines 423-430 *)
Definition shape_indices : list (string * list (list Z)) :=
  [("tray", [[-1; 1]; [-1; 1]; [-1]]); ("bin", bin_indices); ("cubby", cubby_indices); ("fence", fence_indices);
   ("x_walls", [[-1; 1]; []; [-1]]); ("y_walls", [[]; [-1; 1]; [-1]])]%Z.
Fixpoint lookup {A} (k : string) (d : list (string * A)) : option A :=
  match d with [] => None | (k', v) :: d' => if String.eqb k k' then Some v else lookup k d' end.
(** lines 498-506: zip(star shapes) of no shapes cannot be unpacked; [colors] of line 503 is not used *)
Definition create_hollow (category : string) (color : colour) (width length_ height thickness : R) : res (list link * list oobb) :=
  match lookup category shape_indices with
  | None => Err KeyError
  | Some indices =>
    match create_hollow_shapes indices width length_ height thickness with
    | None => Err AssertionFailed
    | Some [] => Err ValueError
    | Some shapes =>
      match create_link_body (map o_upper shapes) (map o_point shapes) None with
      | Ok links => Ok (links, shapes)
      | Err e => Err e
      end
    end
  end.

(** ** The world *)
Inductive solid := Robot | Floor | Stove | Block (w l h : R) | Linked (links : list link).
Record body := mkBody { b_solid : solid; b_at : vec }.
Notation world := (list (nat * body)).

(** dictionaries *)
Fixpoint nset {A} (k : nat) (v : A) (d : list (nat * A)) : list (nat * A) :=
  match d with
  | [] => [(k, v)]
  | (k', w) :: d' => if (k' =? k)%nat then (k', v) :: d' else (k', w) :: nset k v d'
  end.
Fixpoint nget {A} (k : nat) (d : list (nat * A)) : option A :=
  match d with [] => None | (k', v) :: d' => if (k' =? k)%nat then Some v else nget k d' end.
(** {k: v, ...} and a | b *)
Definition update {A} (d items : list (nat * A)) : list (nat * A) := fold_left (fun d x => nset (fst x) (snd x) d) items d.
(** sub in s *)
Fixpoint contains (sub s : string) : bool :=
  (String.prefix sub s || match s with "" => false | String _ r => contains sub r end)%bool.

Section Load.
Variable new_id : list nat -> nat.
Definition add (w : world) (b : body) : nat * world := let i := new_id (map fst w) in (i, (w ++ [(i, b)])%list).
Fixpoint add_all (w : world) (bs : list body) : list nat * world :=
  match bs with
  | [] => ([], w)
  | b :: bs' => let (i, w1) := add w b in let (is_, w2) := add_all w1 bs' in (i :: is_, w2)
  end.

(** lines 511-524: the widths of the objects; the number drawn for the smaller ones is not used *)
Definition num_radish : nat := 8.
Definition radish_width (i : nat) : R := if (0 <? i)%nat then 1 / 1000 else 6 / 100.
Definition radish (i : nat) : body := mkBody (Block (radish_width i) (radish_width i) (2 / 10)) (vec3 0 0 0).

Record loaded := mkLoaded {
  robot : nat; floor : nat; stove : nat; movable : list nat; bins : list nat;
  obstacles : list (list oobb);                       (* sink_obstacle_oobbs *)
  names : list (nat * string); links : list (nat * option nat); fixed : list nat; bodies : world }.

(** lines 508-562; create_hollow is called with the default colour, pbu.GREY *)
Definition load_world (grey : colour) (w0 : world) (min_gap : R) : res loaded :=
  let (robot, w1) := add w0 (mkBody Robot (vec3 0 0 0)) in
  let (floor, w2) := add w1 (mkBody Floor (vec3 0 0 0)) in
  let (stove, w3) := add w2 (mkBody Stove (vec3 (1 / 2) 0 0)) in
  let (radishes, w4) := add_all w3 (map radish (seq 0 num_radish)) in
  let c := container_size min_gap in
  match create_hollow "bin" grey c c container_height thickness with
  | Err e => Err e
  | Ok (ls, oobbs) =>
    let (bins, w5) := add_all w4 (map (fun at_ => mkBody (Linked ls) (vec3 (fst at_) (snd at_) 0)) (bin_positions min_gap)) in
    let sink_obstacle_oobbs := map (fun at_ => map (place at_) oobbs) (bin_positions min_gap) in
    let body_names := update (update (update [] (map (fun b => (b, "sink_" ++ show (Z.of_nat b))) bins))
                                     (update [] [(stove, "stove"); (floor, "floor")]))
                             (update [] (map (fun r => (r, "radish_" ++ show (Z.of_nat r))) radishes)) in
    let placement_links := map (fun x => (fst x, if negb (contains "sink" (snd x)) then None else Some 4%nat)) body_names in
    Ok (mkLoaded robot floor stove radishes bins sink_obstacle_oobbs body_names placement_links (stove :: bins) w5)
  end.
End Load.

(** lines 294-297; [present]: pbu.get_bodies() *)
Definition get_fixed (present : list nat) (robot : nat) (movable : list nat) : list nat :=
  let rigid := filter (fun b => negb (b =? robot)%nat) present in
  filter (fun b => negb (existsb (Nat.eqb b) movable)) rigid.

(** line 333; a body without a name raises KeyError *)
Fixpoint sinks (names : list (nat * string)) (fixed : list nat) : res (list nat) :=
  match fixed with
  | [] => Ok []
  | s :: rest =>
    match nget s names with
    | None => Err KeyError
    | Some n => match sinks names rest with Ok l => Ok (if contains "sink" n then s :: l else l) | Err e => Err e end
    end
  end.
(** line 402 *)
Definition body_obstacle_map (L : loaded) : list (nat * list oobb) := update [] (combine (movable L) (obstacles L)).
