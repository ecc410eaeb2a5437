(** Notions used to state the corridor properties. *)
From Coq Require Import ZArith QArith Qround List.
Import ListNotations.
Open Scope Q_scope.

(** d comes directly after c in l *)
Definition consecutive {A} (l : list A) (c d : A) : Prop := exists l1 l2, l = l1 ++ c :: d :: l2.

(** the cubes differ by exactly one in exactly one coordinate *)
Definition one_step (c d : list Z) : Prop :=
  length c = length d /\
  exists i, (i < length c)%nat /\ Z.abs (nth i c 0%Z - nth i d 0%Z) = 1%Z /\
            forall j, j <> i -> nth j c 0%Z = nth j d 0%Z.

(** cubes of the length x 2 x ... x 2 grid *)
Definition in_grid (dim len : nat) (c : list Z) : Prop :=
  length c = dim /\ (0 <= nth 0 c 0 < Z.of_nat len)%Z /\
  forall i, (1 <= i < dim)%nat -> nth i c 0%Z = 0%Z \/ nth i c 0%Z = 1%Z.

(** A snake through space: pairwise distinct cubes of one dimension, each sharing a face
    with the next. *)
Definition corridor (dim : nat) (path : list (list Z)) : Prop :=
  NoDup path /\ (forall c, In c path -> length c = dim) /\
  (forall c d, consecutive path c d -> one_step c d).

(** The face of cube c on the low (s = -1) or high (s = 1) side of axis i leads to the
    previous or next cube of the path, and so is open. *)
Definition opens (path : list (list Z)) (c : list Z) (i : nat) (s : Z) : Prop :=
  exists d, (consecutive path c d \/ consecutive path d c) /\ nth i d 0%Z = (nth i c 0 + s)%Z.

(** The point keeps the distance m to every closed face of the cube. *)
Definition margin (path : list (list Z)) (c : list Z) (m : Q) (x : list Q) : Prop :=
  forall i, (i < length c)%nat ->
    (nth i x 0 < inject_Z (nth i c 0%Z) + m -> opens path c i (-1)) /\
    (inject_Z (nth i c 0%Z) + 1 - m < nth i x 0 -> opens path c i 1).

(** c is the half-open unit cube containing the point *)
Definition cube_of (x : list Q) (c : list Z) : Prop :=
  length c = length x /\
  forall i, (i < length x)%nat -> inject_Z (nth i c 0%Z) <= nth i x 0 < inject_Z (nth i c 0%Z) + 1.

(** The free space: in a cube of the path and at least th from its closed faces. *)
Definition corridor_free (path : list (list Z)) (th : Q) (x : list Q) : Prop :=
  exists c, In c path /\ cube_of x c /\ margin path c th x.

(** point of the straight motion at parameter t *)
Definition at_time (t : Q) (p q : list Q) : list Q :=
  map (fun r => fst r + t * (snd r - fst r)) (combine p q).

(** a possibly infinite distance is at least v *)
Definition at_least (v : Q) (d : option Q) : Prop := match d with Some q => v <= q | None => True end.

(** equal coordinates *)
Definition same_point (p q : list Q) : Prop :=
  length p = length q /\ forall i, (i < length p)%nat -> nth i p 0 == nth i q 0.

(** centre of a cube *)
Definition centre (c : list Z) : list Q := map (fun z => inject_Z z + (1#2)) c.

Definition unit_draws (dim : nat) (u : list Q) : Prop :=
  length u = dim /\ forall i, (i < dim)%nat -> 0 <= nth i u 0 < 1.

Definition total (l : list Q) : Q := fold_right Qplus 0 l.

Fixpoint qpow (x : Q) (n : nat) : Q := match n with O => 1 | S m => x * qpow x m end.

(** Volume of the free part of the corridor in n cubes: each has a central box of side
    1 - 2 th, and each of the 2 (n - 1) open sides adds a box of depth th. *)
Definition centre_volume (dim : nat) (th : Q) : Q := qpow (1 - 2 * th) dim.
Definition passage_volume (dim : nat) (th : Q) : Q := th * qpow (1 - 2 * th) (dim - 1).
Definition free_volume (n dim : nat) (th : Q) : Q :=
  inject_Z (Z.of_nat n) * centre_volume dim th + 2 * (inject_Z (Z.of_nat n) - 1) * passage_volume dim th.

(** the box of side 1 - 2 th around the centre of c *)
Definition in_centre (th : Q) (c : list Z) (x : list Q) : Prop :=
  forall i, (i < length c)%nat -> inject_Z (nth i c 0%Z) + th <= nth i x 0 < inject_Z (nth i c 0%Z) + 1 - th.

(** the box of depth th that joins the central box of c to the face shared with d *)
Definition in_opening (th : Q) (c d : list Z) (x : list Q) : Prop :=
  exists k, (k < length c)%nat /\
    (forall j, (j < length c)%nat -> j <> k -> inject_Z (nth j c 0%Z) + th <= nth j x 0 < inject_Z (nth j c 0%Z) + 1 - th) /\
    ((nth k d 0 = nth k c 0 + 1)%Z /\ inject_Z (nth k c 0%Z) + 1 - th <= nth k x 0 < inject_Z (nth k c 0%Z) + 1 \/
     (nth k d 0 = nth k c 0 - 1)%Z /\ inject_Z (nth k c 0%Z) <= nth k x 0 < inject_Z (nth k c 0%Z) + th).
