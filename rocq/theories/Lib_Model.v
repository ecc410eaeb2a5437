(** Model of the choice of the neighbour library, nonasymptotic/ann.py 122-138, and of what a roadmap receives from
    pynndescent (ann.py 95-119) in place of kgraph (ann.py 38-92): NNDescent.neighbor_graph names every sample itself first, at
    distance 0, and counts it as one of the n_neighbors.

    [near] are the neighbour lists without the sample itself; the approximation of the libraries is not modelled. *)
From Coq Require Import Arith List QArith Bool String.
From Verif Require Import NkGraph_Model Prm_Model.
Import ListNotations.
Close Scope Q_scope.
Close Scope string_scope.

Inductive library := KGraph | PyNNDescent.

(** ann.py 122-138; [available]: KGRAPH_AVAILABLE *)
Definition get_ann (available : bool) (name : string) : res library :=
  if String.eqb name "pynndescent" then Ok PyNNDescent
  else if String.eqb name "kgraph" then (if available then Ok KGraph else Ok PyNNDescent)
  else Err NotImplementedError.

Section Lib.
  Context {P : Type}.
  Variable near : list P -> nat -> rows.

  (** new_graph_from_data of PyNNDescentANN, ann.py 99-110, for at most n - 1 neighbours (prm.py 392) *)
  Definition pynn (ss : list P) (k : nat) : rows :=
    match Nat.min k (List.length ss - 1) with
    | 0 => map (fun _ => []) ss
    | S k' => map (fun ur => (fst ur, 0%Q) :: snd ur) (combine (seq 0 (List.length ss)) (near ss k'))
    end.

  (** prm.py 395-396, 543: get_ann("kgraph") *)
  Definition neighbours (available : bool) : list P -> nat -> rows :=
    match get_ann available "kgraph" with
    | Ok PyNNDescent => pynn
    | _ => near
    end.
End Lib.
