(** Specifications for the roadmap properties, in terms of samples, distances and
    motion checks only. *)
From Coq Require Import Arith List QArith Bool Sorted.
From Verif Require Import NkGraph_Model NkGraph_Spec.
Import ListNotations.
Close Scope Q_scope.

Section Spec.
  Context {P : Type}.
  Variable dist : P -> P -> Q.
  Variable check : P -> P -> bool.

  (** The samples i and j are within r of each other and the motion i -> j is valid. *)
  Definition near_valid (ss : list P) (r : Q) (i j : nat) : Prop :=
    exists p q, nth_error ss i = Some p /\ nth_error ss j = Some q /\
                (dist p q <= r)%Q /\ check p q = true.

  (** Vertices are exactly the sample indices. *)
  Definition vertices_are_samples (ss : list P) (g : graph) : Prop :=
    forall i, g_alive g i = true <-> i < length ss.

  (** The r-disc roadmap over the samples. *)
  Definition exact_roadmap (ss : list P) (r : Q) (g : graph) : Prop :=
    wf g /\ vertices_are_samples ss g /\
    (forall i j, (exists w, edge g i j w) <-> near_valid ss r i j \/ near_valid ss r j i) /\
    (forall i j w, edge g i j w -> exists p q,
        nth_error ss i = Some p /\ nth_error ss j = Some q /\ (w == dist p q)%Q).

  (** Sample i can be entered from the query point q. *)
  Definition entry (ss : list P) (r : Q) (q : P) (i : nat) (d : Q) : Prop :=
    exists p, nth_error ss i = Some p /\ d = dist p q /\ (dist p q <= r)%Q /\ check q p = true.

  (** A solution: a nonempty list of sample indices, entered from the start, left to
      the goal, joined by roadmap edges [E], and its total length. *)
  Definition solution (ss : list P) (r : Q) (E : nat -> nat -> Q -> Prop) (s t : P)
      (ids : list nat) (cost : Q) : Prop :=
    exists a z c ds dt, hd_error ids = Some a /\ last ids a = z /\ trail E ids c /\
      entry ss r s a ds /\ entry ss r t z dt /\ (cost == ds + c + dt)%Q.

  (** The points visited by a list of indices. *)
  Definition visits (ss : list P) (ids : list nat) (ps : list P) : Prop :=
    Forall2 (fun i p => nth_error ss i = Some p) ids ps.

  (** A query answer (distance or infinity, path) is right. *)
  Definition right_answer (ss : list P) (r : Q) (E : nat -> nat -> Q -> Prop) (s t : P)
      (d : option Q) (path : list P) : Prop :=
    match d with
    | Some d =>
        (exists ids, solution ss r E s t ids d /\ visits ss ids path) /\
        (forall ids c, solution ss r E s t ids c -> (d <= c)%Q)
    | None => path = [] /\ forall ids c, ~ solution ss r E s t ids c
    end.

  (** * Neighbour lists *)

  (** Row u of the neighbour array lists v at position i with distance d. *)
  Definition lists_at (nn : list (list (nat * Q))) (u v i : nat) (d : Q) : Prop :=
    exists row, nth_error nn u = Some row /\ nth_error row i = Some (v, d).

  (** Shape of a neighbour array: one row per sample, with k entries each, naming other
      samples and their distances. *)
  Definition nn_shape (ss : list P) (k : nat) (nn : list (list (nat * Q))) : Prop :=
    length nn = length ss /\
    (forall row, In row nn -> length row = k) /\
    (forall u v i d, lists_at nn u v i d -> v < length ss) /\
    (forall u v i d, lists_at nn u v i d -> exists p q,
        nth_error ss u = Some p /\ nth_error ss v = Some q /\ (d == dist p q)%Q).

  (** Exact k nearest neighbours: besides the shape, a row names no sample twice and not
      itself, is sorted, and every sample it omits is at least as far as its last one. *)
  Definition exact_nn (ss : list P) (k : nat) (nn : list (list (nat * Q))) : Prop :=
    nn_shape ss k nn /\
    (forall u row, nth_error nn u = Some row ->
        NoDup (map fst row) /\ ~ In u (map fst row) /\
        Sorted (fun a b => (snd a <= snd b)%Q) row /\
        forall v p q, nth_error ss u = Some p -> nth_error ss v = Some q -> u <> v ->
          ~ In v (map fst row) -> forall x d, In (x, d) row -> (d <= dist p q)%Q).

  (** Row u (at or after [start]) lists v with distance d within the threshold, and the
      motion from sample u to sample v is valid. *)
  Definition nn_link (ss : list P) (nn : list (list (nat * Q))) (start : nat) (thr : option Q)
      (u v : nat) (d : Q) : Prop :=
    start <= u /\ (exists i, lists_at nn u v i d) /\
    (forall t, thr = Some t -> (d <= t)%Q) /\
    exists p q, nth_error ss u = Some p /\ nth_error ss v = Some q /\ check p q = true.

  (** The roadmap described by a neighbour array. *)
  Definition nn_roadmap (ss : list P) (nn : list (list (nat * Q))) (start : nat) (thr : option Q)
      (g : graph) : Prop :=
    wf g /\ vertices_are_samples ss g /\
    (forall u v, (exists w, edge g u v w) <->
                 exists d, nn_link ss nn start thr u v d \/ nn_link ss nn start thr v u d) /\
    (forall u v w, edge g u v w -> nn_link ss nn start thr u v w \/ nn_link ss nn start thr v u w).

  (** A nearest neighbour routine that answers with arrays of the right shape / exactly.
      With k neighbours requested it gives min(k, n-1). *)
  Definition ann_shape (ann : list P -> nat -> list (list (nat * Q))) : Prop :=
    forall ss k, nn_shape ss (Nat.min k (length ss - 1)) (ann ss k).
  Definition ann_exact (ann : list P -> nat -> list (list (nat * Q))) : Prop :=
    forall ss k, exact_nn ss (Nat.min k (length ss - 1)) (ann ss k).
End Spec.

(** Every edge of g, with its weight, is an edge of g'. *)
Definition subgraph (g g' : graph) : Prop := forall u v w, edge g u v w -> edge g' u v w.

(** Every two samples closer than r whose motion is valid both ways are linked. *)
Definition complete_within {P} (dist : P -> P -> Q) (check : P -> P -> bool) (ss : list P) (r : Q)
    (g : graph) : Prop :=
  forall i j p q, nth_error ss i = Some p -> nth_error ss j = Some q -> i <> j ->
    (dist p q < r)%Q -> check p q = true -> check q p = true -> exists w, edge g i j w.

(** The neighbour lists reach: no list stops before the radius r. *)
Definition reaches (nn : list (list (nat * Q))) (r : Q) : Prop :=
  forall row, In row nn -> exists l x d, row = l ++ [(x, d)] /\ (r <= d)%Q.
