(** Model of animate_knn_prm, nonasymptotic/prm.py 636-716, and of the gif that
    turtlebot_move/streams.py 183-206 saves with it.

    Coordinates are rationals.  matplotlib is modelled as follows: FuncAnimation calls
    [update] on the first frame once (its initial draw) and then on every frame in order;
    saving stores the canvas after each of the latter calls (FuncAnimation.save without
    blitting, so what [update] returns is not used).  A canvas is the set of points shown and
    their colour, and the line segments in the order in which they were plotted.  int(a / b)
    of two integers is the quotient rounded to zero, without rounding error. *)
From Coq Require Import Arith ZArith QArith List Bool.
Import ListNotations.

Inductive anim_err := ZeroDivisionError | IndexError | ValueError.
Inductive anim_res (A : Type) := Ok (a : A) | Err (e : anim_err).
Arguments Ok {A} a.
Arguments Err {A} e.

Notation pt := (list Q).
Inductive colour := Blue | Lime | Red.

(** The frames, prm.py 655-680. *)
Inductive frame :=
| Sampling (n : Z)                    (* ("sampling", n) *)
| Connecting (es : list (nat * nat))  (* ("connecting", edges) *)
| Pathing (i : nat)                   (* ("pathing", i) *)
| NonPathing                          (* ("non-pathing", None) *)
| Hold.                               (* ('hold', None) *)

(** The figure: offsets and colour of vert_artist, edge_artists in order (prm.py 682-683). *)
Record line := mkLine { l_from : pt; l_to : pt; l_col : colour }.
Record canvas := mkCanvas { shown : list pt; dots : colour; lines : list line }.
Definition blank : canvas := mkCanvas [] Blue [].

(** l[:z] and l[a:b] of Python, 0 <= a *)
Definition upto {A} (l : list A) (z : Z) : list A :=
  if (z <? 0)%Z then firstn (length l - Z.to_nat (- z)) l else firstn (Z.to_nat z) l.
Definition slice {A} (l : list A) (a b : Z) : list A :=
  if (a <? 0)%Z then skipn (length l - Z.to_nat (- a)) (upto l b) else skipn (Z.to_nat a) (upto l b).

(** range(n) *)
Definition range (n : Z) : list Z := map Z.of_nat (seq 0 (Z.to_nat n)).

(** prm.py 655-657 *)
Definition sampling_frames (n_verts node_batches : Z) : anim_res (list frame) :=
  if (node_batches =? 0)%Z then Err ZeroDivisionError
  else Ok (map (fun i => Sampling ((i + 1) * node_batches)) (range (Z.quot n_verts node_batches + 1))).

(** prm.py 660-664 *)
Definition edge_frames (all_edges : list (nat * nat)) (edge_batches : Z) : anim_res (list frame) :=
  if (edge_batches =? 0)%Z then Err ZeroDivisionError
  else Ok (map (fun i => Connecting (slice all_edges (i * edge_batches) ((i + 1) * edge_batches)))
               (range (Z.quot (Z.of_nat (length all_edges)) edge_batches + 1))).

(** prm.py 667-673 *)
Definition path_frames (sol : list pt) : list frame :=
  match sol with
  | [] => repeat NonPathing 10
  | _ => map Pathing (seq 0 (length sol - 1))
  end.

(** prm.py 642-650: the limits of both axes, int(min) - 1 and int(max) + 1.  A column that
    does not exist or an empty array raises. *)
Definition trunc (x : Q) : Z := Z.quot (Qnum x) (Zpos (Qden x)).
Definition qmin (x y : Q) : Q := if Qle_bool x y then x else y.
Definition qmax (x y : Q) : Q := if Qle_bool x y then y else x.
Definition limits (samples : list pt) (axis : nat) : anim_res (Z * Z) :=
  match samples with
  | [] => Err ValueError
  | s :: rest =>
      if Nat.ltb axis (length s) then
        let x := nth axis s 0%Q in
        let lo := fold_left (fun m p => qmin m (nth axis p 0%Q)) rest x in
        let hi := fold_left (fun m p => qmax m (nth axis p 0%Q)) rest x in
        Ok ((trunc lo - 1)%Z, (trunc hi + 1)%Z)
      else Err IndexError
  end.

(** update, prm.py 685-714.  ux, uy = samples[e] needs a point of two coordinates. *)
Fixpoint plot_edges (samples : list pt) (es : list (nat * nat)) (c : canvas) : anim_res canvas :=
  match es with
  | [] => Ok c
  | e :: es' =>
      match nth_error samples (fst e), nth_error samples (snd e) with
      | Some [ux; uy], Some [vx; vy] =>
          plot_edges samples es' (mkCanvas (shown c) (dots c) (lines c ++ [mkLine [ux; uy] [vx; vy] Blue]))
      | None, _ => Err IndexError
      | Some [ux; uy], None => Err IndexError
      | _, _ => Err ValueError
      end
  end.

Definition redden (l : line) : line := mkLine (l_from l) (l_to l) Red.

Definition update (samples sol : list pt) (c : canvas) (f : frame) : anim_res canvas :=
  match f with
  | Sampling n => Ok (mkCanvas (upto samples n) (dots c) (lines c))
  | Connecting es => plot_edges samples es c
  | Pathing i =>
      match nth_error sol i, nth_error sol (S i) with
      | Some (ux :: uy :: _), Some (vx :: vy :: _) =>
          Ok (mkCanvas (shown c) (dots c) (lines c ++ [mkLine [ux; uy] [vx; vy] Lime]))
      | _, _ => Err IndexError
      end
  | NonPathing => Ok (mkCanvas (shown c) Red (map redden (lines c)))
  | Hold => Ok c
  end.

(** The images after each frame, and the canvas that is left. *)
Fixpoint play (samples sol : list pt) (c : canvas) (fs : list frame) : anim_res (list canvas) :=
  match fs with
  | [] => Ok []
  | f :: fs' =>
      match update samples sol c f with
      | Err e => Err e
      | Ok c' => match play samples sol c' fs' with Err e => Err e | Ok imgs => Ok (c' :: imgs) end
      end
  end.

(** prm.py 651-680 *)
Definition all_frames (n_verts : nat) (edges : list (nat * nat)) (sol : list pt) (node_batches edge_batches : Z)
  : anim_res (list frame) :=
  match sampling_frames (Z.of_nat n_verts) node_batches with
  | Err e => Err e
  | Ok sf =>
    match edge_frames edges edge_batches with
    | Err e => Err e
    | Ok ef => Ok (sf ++ ef ++ path_frames sol ++ repeat Hold 20)
    end
  end.

(** animate_knn_prm(...).save(...): limits, initial draw, then [rounds] passes over the
    frames.  Saving makes one pass; an animation that is shown repeats (the default of
    FuncAnimation), on the same artists. *)
Fixpoint play_rounds (samples sol : list pt) (rounds : nat) (c : canvas) (fs : list frame) : anim_res (list canvas) :=
  match rounds with
  | O => Ok []
  | S r =>
      match play samples sol c fs with
      | Err e => Err e
      | Ok imgs => match play_rounds samples sol r (last imgs c) fs with
                   | Err e => Err e
                   | Ok imgs' => Ok (imgs ++ imgs')
                   end
      end
  end.

Record movie := mkMovie { x_limits : Z * Z; y_limits : Z * Z; images : list canvas }.

Definition animate (rounds : nat) (samples : list pt) (n_verts : nat) (edges : list (nat * nat)) (sol : list pt)
    (node_batches edge_batches : Z) : anim_res movie :=
  match limits samples 0, limits samples 1 with
  | Ok xl, Ok yl =>
      match all_frames n_verts edges sol node_batches edge_batches with
      | Err e => Err e
      | Ok fs =>
        match update samples sol blank (hd Hold fs) with
        | Err e => Err e
        | Ok c0 => match play_rounds samples sol rounds c0 fs with
                   | Err e => Err e
                   | Ok imgs => Ok (mkMovie xl yl imgs)
                   end
        end
      end
  | Err e, _ => Err e
  | _, Err e => Err e
  end.

Example animate_demo :
  match animate 1 [[0;0];[1;0];[1;1]]%Q 3 [(0,1);(1,2)]%nat [[0;0];[1;0];[1;1]]%Q 2 1 with
  | Ok m => (length (images m), x_limits m, last (images m) blank)
  | Err _ => (0%nat, (0, 0)%Z, blank)
  end = (27%nat, (-1, 2)%Z,
    mkCanvas [[0;0];[1;0];[1;1]]%Q Blue
      [mkLine [0;0]%Q [1;0]%Q Blue; mkLine [1;0]%Q [1;1]%Q Blue; mkLine [0;0]%Q [1;0]%Q Lime; mkLine [1;0]%Q [1;1]%Q Lime]).
Proof. vm_compute. reflexivity. Qed.
