(** Model of nonasymptotic/ann.py, class KGraphANN (lines 38-92).

    A data row is a list of reals.  Rounding to float32 is an arbitrary function [f32]; the
    kgraph library is an arbitrary function [kg] from the embedded rows and K to the lines of
    the text file it saves, each already split into tokens; [to_int] and [to_float] read a
    token.  The float32 rounding of the returned distances is idealised away. *)
From Coq Require Import Arith List Reals.
Import ListNotations.

Inductive ann_err := ValueError | RuntimeError.
Inductive ann_res (A : Type) := Ok (a : A) | Err (e : ann_err).
Arguments Ok {A} a.
Arguments Err {A} e.

(** l[0::2]; l[1::2] is [evens (tl l)], l[2::2] is [evens (tl (tl l))]. *)
Fixpoint evens {A} (l : list A) : list A :=
  match l with
  | a :: _ :: l' => a :: evens l'
  | [a] => [a]
  | [] => []
  end.

Fixpoint map_opt {A B} (f : A -> option B) (l : list A) : option (list B) :=
  match l with
  | [] => Some []
  | a :: l' => match f a, map_opt f l' with Some b, Some bs => Some (b :: bs) | _, _ => None end
  end.

(** np.array of a list of lists: ragged lists raise ValueError. *)
Definition rectangular {A} (l : list (list A)) : bool :=
  match l with
  | [] => true
  | r :: l' => forallb (fun r' => Nat.eqb (length r') (length r)) l'
  end.

Section Ann.
  Variable tok : Type.
  Variable to_int : tok -> option nat.
  Variable to_float : tok -> option R.
  Variable f32 : R -> R.
  Variable kg : list (list R) -> nat -> list (list tok).

  (** ann.py 51: np.ceil(given_dim / 4).astype(int) * 4. *)
  Definition embedded_dim (d : nat) : nat := (d + 3) / 4 * 4.

  (** ann.py 52-53: a row of zeros with the rounded data written over its start. *)
  Definition embed_row (w : nat) (row : list R) : list R :=
    map f32 row ++ repeat 0%R (w - length row).

  (** ann.py 71-74: one line of the file, without the conversion to numbers. *)
  Definition parse_line (k : nat) (line : list tok) : list tok * list tok :=
    (firstn k (evens (tl line)), firstn k (evens (tl (tl line)))).

  (** ann.py 78: np.array(..., dtype=...) *)
  Definition to_array {B} (f : tok -> option B) (l : list (list tok)) : ann_res (list (list B)) :=
    if rectangular l
    then match map_opt (map_opt f) l with Some r => Ok r | None => Err ValueError end
    else Err ValueError.

  Record ann_state := mkAnn { a_k : option nat; a_embedded : list (list R) }.
  (** ann.py 39-43. *)
  Definition ann_new : ann_state := mkAnn None [].

  (** new_graph_from_data, ann.py 45-78.  [dim] is data.shape[1]. *)
  Definition new_graph (dim : nat) (data : list (list R)) (k : nat)
    : ann_res (list (list nat) * list (list R)) * ann_state :=
    let emb := map (embed_row (embedded_dim dim)) data in
    let st := mkAnn (Some k) emb in
    let lines := tl (kg emb k) in
    let parsed := map (parse_line k) lines in
    match to_array to_int (map fst parsed), to_array to_float (map snd parsed) with
    | Ok e, Ok d => (Ok (e, map (map (fun x => sqrt (x * 2))) d), st)
    | Err x, _ => (Err x, st)
    | _, Err x => (Err x, st)
    end.

  (** update_graph_with_data, ann.py 80-92.  The zero block of the old width is filled with
      the old embedded rows and the fresh rows; fresh rows that are too wide do not fit. *)
  Definition update_graph (dim_old dim_fresh : nat) (st : ann_state) (fresh : list (list R))
    : ann_res (list (list nat) * list (list R)) * ann_state :=
    match a_k st with
    | None => (Err RuntimeError, st)
    | Some k =>
        if dim_old <? dim_fresh then (Err ValueError, st)
        else
          let new_data := a_embedded st ++ map (fun r => r ++ repeat 0%R (dim_old - length r)) fresh in
          new_graph dim_old new_data k
    end.
End Ann.
