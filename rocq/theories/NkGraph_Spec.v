(** What it means to be an edge and to be a well-formed simple weighted graph. *)
From Coq Require Import Arith List QArith Bool.
From Verif Require Import NkGraph_Model.
Import ListNotations.
Close Scope Q_scope.

(** Edge relation of a graph. *)
Definition edge (g : graph) (u v : nat) (w : Q) : Prop := In (v, w) (g_out g u).

(** Well-formed graph: symmetric, no parallel edges, edges between live vertices. *)
Record wf (g : graph) : Prop := mkWf {
  wf_sym : forall u v w, edge g u v w -> edge g v u w;
  wf_nodup : forall u, NoDup (map fst (g_out g u));
  wf_alive : forall u v w, edge g u v w -> g_alive g u = true /\ g_alive g v = true;
  wf_upper : forall u, g_alive g u = true -> u < g_upper g }.

(** A trail: a nonempty list of vertices, consecutive ones joined by edges, with the
    sum of the edge weights. *)
Inductive trail (E : nat -> nat -> Q -> Prop) : list nat -> Q -> Prop :=
| trail_one : forall i, trail E [i] 0%Q
| trail_cons : forall i j l w c, E i j w -> trail E (j :: l) c -> trail E (i :: j :: l) (w + c)%Q.

(** Two graphs show the same vertices, edges, weights and adjacency order. *)
Definition same_graph (g g' : graph) : Prop :=
  (forall u, g_alive g u = g_alive g' u) /\ (forall u, g_out g u = g_out g' u).

(** Specification of a shortest path routine on graphs with non-negative weights, for
    two different vertices: it answers with the interior vertices of a simple path of
    least weight, or with nothing when the two are not connected. *)
Definition sp_correct (sp : graph -> nat -> nat -> option (Q * list nat)) : Prop :=
  forall g s t, wf g -> (forall u v w, edge g u v w -> (0 <= w)%Q) -> s <> t ->
    match sp g s t with
    | Some (d, mid) =>
        NoDup (s :: mid ++ [t]) /\
        (exists c, trail (edge g) (s :: mid ++ [t]) c /\ (d == c)%Q) /\
        forall l c, trail (edge g) (s :: l ++ [t]) c -> (d <= c)%Q
    | None => forall l c, ~ trail (edge g) (s :: l ++ [t]) c
    end.
