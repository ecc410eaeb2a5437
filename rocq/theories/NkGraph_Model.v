(** Model of the part of networkit.Graph (weighted, undirected) that
    nonasymptotic/prm.py uses (prm.py 71-90, 147-158, 252-262, 433-440, 459-464, 581-585).
    networkit is an external library: this file is an assumption about it, taken
    from its documented adjacency-array implementation, not a model of code in /repo. *)
From Coq Require Import Arith List QArith Bool.
Import ListNotations.
Close Scope Q_scope.

(** Adjacency array of one vertex: neighbour ids with weights, in storage order. *)
Definition adj := list (nat * Q).

(** A graph: upper bound of the ids ever allocated, which ids are live, and the
    adjacency array of every id. *)
Record graph := mkGraph {
  g_upper : nat;
  g_alive : nat -> bool;
  g_out : nat -> adj }.

(** nk.Graph(n, weighted=True): n isolated vertices (prm.py 147, 252). *)
Definition new_graph (n : nat) : graph :=
  mkGraph n (fun u => u <? n) (fun _ => []).

Definition upd {A} (f : nat -> A) (u : nat) (a : A) : nat -> A :=
  fun x => if x =? u then a else f x.

(** Graph.addNodes(k) (prm.py 71, 581): k fresh ids at the end; returns the last. *)
Definition add_nodes (g : graph) (k : nat) : graph * nat :=
  (mkGraph (g_upper g + k)
           (fun u => (g_alive g u || ((g_upper g <=? u) && (u <? g_upper g + k)))%bool)
           (g_out g),
   g_upper g + k - 1).

(** Graph.hasEdge(u, v) (prm.py 439). *)
Definition has_edge (g : graph) (u v : nat) : bool :=
  existsb (fun e => fst e =? v) (g_out g u).

(** Graph.addEdge(u, v, w) (prm.py 77, 80): push on both arrays, once for a self loop. *)
Definition add_edge (g : graph) (u v : nat) (w : Q) : graph :=
  let o1 := upd (g_out g) u (g_out g u ++ [(v, w)]) in
  let o2 := if u =? v then o1 else upd o1 v (o1 v ++ [(u, w)]) in
  mkGraph (g_upper g) (g_alive g) o2.

(** Graph.addEdge(u, v, w, checkMultiEdge=True) (prm.py 158, 257). *)
Definition add_edge_check (g : graph) (u v : nat) (w : Q) : graph :=
  if has_edge g u v then g else add_edge g u v w.

(** Removal inside an adjacency array: the first entry for [v] is overwritten by the
    last entry, which is popped. *)
Fixpoint swap_del (v : nat) (l : adj) : adj :=
  match l with
  | [] => []
  | e :: l' =>
      if fst e =? v
      then match l' with
           | [] => []
           | _ :: _ => last l' e :: removelast l'
           end
      else e :: swap_del v l'
  end.

(** Graph.removeEdge(u, v) (prm.py 440, 464).  networkit throws if the edge does not
    exist; all callers have just seen the edge. *)
Definition remove_edge (g : graph) (u v : nat) : graph :=
  let o1 := upd (g_out g) u (swap_del v (g_out g u)) in
  let o2 := if u =? v then o1 else upd o1 v (swap_del u (o1 v)) in
  mkGraph (g_upper g) (g_alive g) o2.

(** Graph.removeNode(v) (prm.py 89-90): while the array of v is nonempty, remove the
    edge to its front entry; then mark v dead.  Its id is not reused. *)
Fixpoint drain (fuel : nat) (g : graph) (v : nat) : graph :=
  match fuel with
  | O => g
  | S fuel' =>
      match g_out g v with
      | [] => g
      | (u, _) :: _ => drain fuel' (remove_edge g v u) v
      end
  end.

Definition remove_node (g : graph) (v : nat) : graph :=
  let g' := drain (length (g_out g v)) g v in
  mkGraph (g_upper g') (upd (g_alive g') v false) (g_out g').

(** Graph.iterEdgesWeights (prm.py 462) with the loop body of prm.py 462-464: a live
    cursor.  For the node [u], index [i] runs while it is below the current degree;
    only entries with u <= v are reported.  The body may remove the reported edge, in
    which case the entry moved into position [i] is not looked at again. *)
Fixpoint prune_row (r : Q) (u : nat) (n i : nat) (g : graph) : graph :=
  match n with
  | O => g
  | S n' =>
      match nth_error (g_out g u) i with
      | None => g
      | Some (v, w) =>
          let g' := if ((u <=? v) && Qle_bool r w)%bool then remove_edge g u v else g in
          prune_row r u n' (S i) g'
      end
  end.

Definition prune_live (r : Q) (g : graph) : graph :=
  fold_left (fun g u => if g_alive g u then prune_row r u (length (g_out g u)) 0 g else g)
            (seq 0 (g_upper g)) g.

(** All edges (u, v, w) with u <= v, in iteration order: iterEdgesWeights without
    interference, also iterEdges (prm.py 662). *)
Definition edge_list (g : graph) : list (nat * nat * Q) :=
  flat_map (fun u => map (fun e => (u, fst e, snd e))
                         (filter (fun e => u <=? fst e) (g_out g u)))
           (filter (g_alive g) (seq 0 (g_upper g))).

(** The same removal loop run over a snapshot of the edges (not what the code does). *)
Definition prune_snapshot (r : Q) (g : graph) : graph :=
  fold_left (fun g e => match e with (u, v, w) =>
               if Qle_bool r w then remove_edge g u v else g end) (edge_list g) g.

(** Graph.numberOfNodes / numberOfEdges (prm.py 163, 166). *)
Definition number_of_nodes (g : graph) : nat :=
  length (filter (g_alive g) (seq 0 (g_upper g))).
Definition number_of_edges (g : graph) : nat := length (edge_list g).

(** GraphTools.merge(G, G1) (prm.py 585): every vertex of G1 becomes live in G (ids are
    kept), then every edge of G1 that G lacks is added. *)
Definition merge (g g1 : graph) : graph :=
  let g0 := mkGraph (Nat.max (g_upper g) (g_upper g1))
                    (fun u => (g_alive g u || g_alive g1 u)%bool) (g_out g) in
  fold_left (fun g e => match e with (u, v, w) => add_edge_check g u v w end)
            (edge_list g1) g0.
