(** Model of nonasymptotic/prm.py.

    Parameters: the type [P] of configurations; [dist a b], the float returned by
    np.linalg.norm on the difference of two configurations; [check a b], the motion
    checker applied to one motion (the code calls it on whole arrays: the model
    assumes it answers row by row); [smp i], the i-th state drawn from the sampler.
    Weights and radii are rationals (every finite float is one). *)
From Coq Require Import Arith List QArith Bool.
From Verif Require Import NkGraph_Model.
Import ListNotations.
Close Scope Q_scope.

(** Python exceptions that prm.py can raise. *)
Inductive pyerr :=
| ArithmeticError | AttributeError | TypeError | IndexError | FileError
| NotImplementedError | RuntimeError.

Inductive res (A : Type) : Type :=
| Ok (a : A)
| Err (e : pyerr).
Arguments Ok {A} a.
Arguments Err {A} e.

(** numpy [a >= b] on rationals *)
Definition Qgeb (a b : Q) : bool := Qle_bool b a.
(** numpy [a > b] *)
Definition Qgtb (a b : Q) : bool := negb (Qle_bool a b).

Section Prm.
  Context {P : Type}.
  Variable dist : P -> P -> Q.
  Variable check : P -> P -> bool.
  Variable smp : nat -> P.

  (** Distance and motion check between two sample indices; indices out of range do
      not occur where these are used (guarded by the callers). *)
  Definition dist_ids (samples : list P) (u v : nat) : Q :=
    match nth_error samples u, nth_error samples v with
    | Some p, Some q => dist p q
    | _, _ => 0%Q
    end.
  Definition check_ids (samples : list P) (u v : nat) : bool :=
    match nth_error samples u, nth_error samples v with
    | Some p, Some q => check p q
    | _, _ => false
    end.

  (** prm.py 218-219, 231-234, 371-372, 384-387, 560-561, 572-575: draw [k] states
      starting at stream position [pos]. *)
  Definition draw (pos k : nat) : list P := map smp (seq pos k).

  (** Adding a list of (start, goal, weight) triples in order with checkMultiEdge
      (prm.py 155-158 and 254-257). *)
  Definition add_all (es : list (nat * nat * Q)) (g : graph) : graph :=
    fold_left (fun g e => match e with (u, v, w) => add_edge_check g u v w end) es g.

  (** * Queries (SimplePRM) *)

  (** _query_samples: prm.py 298-308, 490-501, 599-610 with connection radius [r]:
      indices in ascending order of the samples within [r] of the query whose motion
      from the query is valid, with their distances. *)
  Definition query_samples (samples : list P) (r : Q) (q : P) : list (nat * Q) :=
    let idx := combine (seq 0 (length samples)) samples in
    let within := filter (fun ip => Qle_bool (dist (snd ip) q) r) idx in
    let valid := filter (fun ip => check q (snd ip)) within in
    map (fun ip => (fst ip, dist (snd ip) q)) valid.

  (** The shortest path routine (nk.distance.BidirectionalDijkstra, prm.py 82-86): given
      the graph, source and target, the distance and the vertices strictly between, or
      [None] for an infinite distance (and an empty path). *)
  Definition sp_oracle := graph -> nat -> nat -> option (Q * list nat).

  (** prm.py 71-80: insert start and goal. *)
  Definition loop_in (g : graph) (ss gs : list (nat * Q)) : graph * nat * nat :=
    let (g1, i_goal) := add_nodes g 2 in
    let i_start := i_goal - 1 in
    let g2 := fold_left (fun g e => add_edge g i_start (fst e) (snd e)) ss g1 in
    let g3 := fold_left (fun g e => add_edge g i_goal (fst e) (snd e)) gs g2 in
    (g3, i_start, i_goal).

  (** samples[path] with a list of indices (prm.py 86): IndexError when one is out of
      range. *)
  Fixpoint take_rows (samples : list P) (ids : list nat) : res (list P) :=
    match ids with
    | [] => Ok []
    | i :: ids' =>
        match nth_error samples i, take_rows samples ids' with
        | Some p, Ok ps => Ok (p :: ps)
        | _, _ => Err IndexError
        end
    end.

  (** query_best_solution, prm.py 62-92, on a roadmap with graph [g], samples and
      connection radius [r].  The result pairs the distance ([None] = infinity) with the
      path.  If line 86 raises, lines 89-90 are not executed and the two query vertices
      stay in the graph. *)
  Definition query_best (sp : sp_oracle) (g : graph) (samples : list P) (r : Q)
      (start goal : P) : res (option Q * list P) * graph :=
    let ss := query_samples samples r start in
    let gs := query_samples samples r goal in
    match loop_in g ss gs with
    | (g3, i_start, i_goal) =>
        let (sol_dist, path) :=
          match sp g3 i_start i_goal with
          | Some (d, mid) => (Some d, mid)
          | None => (None, [])
          end in
        match take_rows samples path with
        | Err e => (Err e, g3)
        | Ok sol_path => (Ok (sol_dist, sol_path), remove_node (remove_node g3 i_start) i_goal)
        end
    end.

  (** query_all_graph_connections, prm.py 94-115: the id pairs of lines 101-104.
      np.tile(starts, |goals|) paired with np.repeat(goals, |starts|). *)
  Definition tile {A} (l : list A) (k : nat) : list A := concat (repeat l k).
  Definition repeat_each {A} (l : list A) (k : nat) : list A := flat_map (fun x => repeat x k) l.
  Definition in_and_outs (starts goals : list nat) : list (nat * nat) :=
    combine (tile starts (length goals)) (repeat_each goals (length starts)).

  (** the whole method, with [lookup] standing for self._distance_in_graph *)
  Definition query_all (samples : list P) (r : Q) (start goal : P)
      (lookup : nat -> nat -> res (option Q))
    : list (option (P * P) * res (option Q) * (nat * nat)) :=
    let io := in_and_outs (map fst (query_samples samples r start))
                          (map fst (query_samples samples r goal)) in
    map (fun st => (match nth_error samples (fst st), nth_error samples (snd st) with
                    | Some p, Some q => Some (p, q)
                    | _, _ => None
                    end, lookup (fst st) (snd st), st)) io.

  (** * Shortest path table (_compute_spsp, prm.py 180-194) *)

  (** sample_to_lookup_ind: [n] everywhere except at the tabulated ids (lines 189-192). *)
  Definition lookup_index (n : nat) (ids : list nat) : list nat :=
    fold_left (fun t ic => firstn (snd ic) t ++ [fst ic] ++ skipn (S (snd ic)) t)
              (combine (seq 0 (length ids)) ids) (repeat n n).

  (** g_sp_lookup[sample_to_lookup_ind[s], sample_to_lookup_ind[t]] (prm.py 507-510,
      617-620): numpy raises IndexError when an index is not below the table size. *)
  Definition table_lookup (table : list (list (option Q))) (ind : list nat) (s t : nat)
    : res (option Q) :=
    match nth_error ind s, nth_error ind t with
    | Some i, Some j =>
        match nth_error table i with
        | Some row => match nth_error row j with Some d => Ok d | None => Err IndexError end
        | None => Err IndexError
        end
    | _, _ => Err IndexError
    end.

  (** SPSP over the ids to tabulate: the matrix of pairwise distances, [dg] being the
      graph distance networkit computes (lines 183-188). *)
  Definition spsp_table (dg : nat -> nat -> option Q) (ids : list nat)
    : list (list (option Q)) := map (fun a => map (fun b => dg a b) ids) ids.

  (** ids whose distance to the path is at most [r] (prm.py 414-415, 447-448, 471-472, 595-596) *)
  Definition ids_near_path (dist_to_path : P -> Q) (samples : list P) (r : Q) : list nat :=
    map fst (filter (fun ip => Qle_bool (dist_to_path (snd ip)) r)
                    (combine (seq 0 (length samples)) samples)).

  (** * SimpleFullConnRadiusPRM (prm.py 197-319) *)

  Record fc_state := mkFc {
    fc_conn_r : Q;                     (* self.conn_r *)
    fc_samples : option (list P);      (* self._samples *)
    fc_graph : option graph;           (* self._g_prm *)
    fc_next : nat }.                   (* number of states drawn so far *)

  (** prm.py 198-211; line 209 draws one state.  The cache file (211, 260, 294-296) is
      written but never read, and max_conn_r (205) never used: both omitted. *)
  Definition fc_new (r : Q) (pos : nat) : fc_state := mkFc r None None (S pos).

  (** prm.py 236-257: outer index repeated, inner index tiled; pairs within the
      radius with valid motion, in row-major order. *)
  Definition fc_edges (samples : list P) (r : Q) : list (nat * nat * Q) :=
    let n := length samples in
    let pairs := list_prod (seq 0 n) (seq 0 n) in
    let within := filter (fun uv => Qle_bool (dist_ids samples (fst uv) (snd uv)) r) pairs in
    let valid := filter (fun uv => check_ids samples (fst uv) (snd uv)) within in
    map (fun uv => (fst uv, snd uv, dist_ids samples (fst uv) (snd uv))) valid.

  Definition fc_build (samples : list P) (r : Q) : graph :=
    add_all (fc_edges samples r) (new_graph (length samples)).

  (** grow_to_n_samples, prm.py 213-265 (n_samples >= 0); returns valid_dists_in_range. *)
  Definition fc_grow (st : fc_state) (n : nat) : res (list Q) * fc_state :=
    match fc_samples st with
    | None =>
        let samples := draw (fc_next st) n in
        (Ok (map snd (fc_edges samples (fc_conn_r st))),
         mkFc (fc_conn_r st) (Some samples) (Some (fc_build samples (fc_conn_r st)))
              (fc_next st + n))
    | Some old =>
        if n <? length old then (Err ArithmeticError, st)
        else
          let k := n - length old in
          let samples := old ++ draw (fc_next st) k in
          (Ok (map snd (fc_edges samples (fc_conn_r st))),
           mkFc (fc_conn_r st) (Some samples) (Some (fc_build samples (fc_conn_r st)))
                (fc_next st + k))
    end.

  (** set_connection_radius, prm.py 267-274: the radius is stored before
      [self._samples.shape] is evaluated. *)
  Definition fc_set_radius (st : fc_state) (r : Q) : res unit * fc_state :=
    let st1 := mkFc r (fc_samples st) (fc_graph st) (fc_next st) in
    match fc_samples st with
    | None => (Err AttributeError, st1)
    | Some s =>
        match fc_grow st1 (length s) with
        | (Ok _, st2) => (Ok tt, st2)
        | (Err e, st2) => (Err e, st2)
        end
    end.

  (** reset, prm.py 290-296. *)
  Definition fc_reset (st : fc_state) : fc_state := mkFc (fc_conn_r st) None None (fc_next st).

  (** query_best_solution on this class. *)
  Definition fc_query (sp : sp_oracle) (st : fc_state) (start goal : P)
    : res (option Q * list P) * fc_state :=
    match fc_samples st, fc_graph st with
    | Some samples, Some g =>
        let (out, g') := query_best sp g samples (fc_conn_r st) start goal in
        (out, mkFc (fc_conn_r st) (Some samples) (Some g') (fc_next st))
    | _, _ => (Err TypeError, st)
    end.

  (** * Neighbour arrays to graph (prm.py 117-160)

      The two arrays _edge_arr and _dist_arr, always of the same shape, are kept as one
      array of (id, distance) rows. *)
  Definition rows := list (list (nat * Q)).

  (** the triples of lines 130-138: rows from include_starting on, in C order, kept when
      the distance is at most the threshold ([None] = np.inf). *)
  Definition row_edges (nn : rows) (start : nat) (thr : option Q) : list (nat * nat * Q) :=
    filter (fun e => match thr with None => true | Some t => Qle_bool (snd e) t end)
      (flat_map (fun ur => map (fun vd => (fst ur, fst vd, snd vd)) (snd ur))
                (combine (seq start (length nn - start)) (skipn start nn))).

  (** lines 140-160; indexing the samples raises IndexError for an id out of range. *)
  Definition nn_to_graph (samples : list P) (nn : rows) (start : nat) (thr : option Q) : res graph :=
    let es := row_edges nn start thr in
    if forallb (fun e => (fst (fst e) <? length samples) && (snd (fst e) <? length samples)) es
    then Ok (add_all (filter (fun e => check_ids samples (fst (fst e)) (snd (fst e))) es)
                     (new_graph (length nn)))
    else Err IndexError.

  (** * SimpleNearestNeighborRadiusPRM (prm.py 322-510)

      [ann samples k] is the neighbour array computed by the approximate nearest
      neighbour library for [k] neighbours (prm.py 395-396), one row per sample.
      The shortest path table of in_mp_exp_mode (lines 412-416, 444-449, 468-473) is
      a function of the state and is modelled by [lookup_index] and [spsp_table]. *)
  Variable ann : list P -> nat -> rows.

  Record nn_state := mkNn {
    nn_max_k : nat;                    (* self.max_k_neighbors *)
    nn_k : nat;                        (* self.k_neighbors *)
    nn_conn_r : option Q;              (* self.conn_r *)
    nn_trunc : bool;                   (* self.truncate_to_eff_rad *)
    nn_cert : option Q;                (* self.certified_max_conn_r *)
    nn_samples : option (list P);      (* self._samples *)
    nn_graph : option graph;           (* self._g_prm *)
    nn_master : option rows;           (* self.master_edges, self.master_dists *)
    nn_cache : option graph;           (* the graph file at self.tmp_graph_cache_path *)
    nn_next : nat }.                   (* number of states drawn so far *)

  (** prm.py 331-354; line 335 draws one state. *)
  Definition nn_new (k : nat) (trunc : bool) (pos : nat) : nn_state :=
    mkNn k k None trunc None None None None None (S pos).

  (** np.min(self.master_dists[:, -1]) (prm.py 406-407); IndexError when the rows are
      empty, ValueError (here also IndexError) when there is no row. *)
  Definition last_dist (row : list (nat * Q)) : option Q :=
    match row with [] => None | e :: l => Some (snd (last l e)) end.
  Fixpoint min_last (nn : rows) : option Q :=
    match nn with
    | [] => None
    | [row] => last_dist row
    | row :: nn' =>
        match last_dist row, min_last nn' with
        | Some a, Some b => Some (if Qle_bool a b then a else b)
        | _, _ => None
        end
    end.

  (** set_connection_radius, prm.py 451-466. *)
  Definition nn_set_radius (st : nn_state) (r : Q) : res unit * nn_state :=
    match nn_cert st with
    | None => (Err TypeError, st)                             (* line 453: r > None *)
    | Some _ =>
        let reload := match nn_conn_r st with None => false | Some c => Qgtb r c end in
        match (if reload then nn_cache st else nn_graph st) with
        | None => (Err (if reload then FileError else AttributeError), st)
        | Some g =>
            (Ok tt,
             mkNn (nn_max_k st) (nn_k st) (Some r) (nn_trunc st) (nn_cert st) (nn_samples st)
                  (Some (prune_live r g)) (nn_master st) (nn_cache st) (nn_next st))
        end
    end.

  (** the part of grow_to_n_samples after sampling, prm.py 389-425 (line 366 has cleared
      the radius).  Returns whether the certified radius was returned (line 425). *)
  Definition nn_rebuild (st : nn_state) (samples : list P) (next : nat) (n : nat)
    : res (option Q) * nn_state :=
    let st1 := mkNn (nn_max_k st) (nn_k st) None (nn_trunc st) (nn_cert st) (Some samples)
                    (nn_graph st) (nn_master st) (nn_cache st) next in
    let effective_k := Nat.min (n - 1) (nn_k st) in
    let nn := ann samples effective_k in
    let st2 := mkNn (nn_max_k st) (nn_k st) None (nn_trunc st) (nn_cert st) (Some samples)
                    (nn_graph st) (Some nn) (nn_cache st) next in
    match nn_to_graph samples nn 0 None with
    | Err e => (Err e, st2)
    | Ok g =>
        let st3 := mkNn (nn_max_k st) (nn_k st) None (nn_trunc st) (nn_cert st) (Some samples)
                        (Some g) (Some nn) (Some g) next in
        match min_last nn with
        | None => (Err IndexError, st3)
        | Some cert =>
            let st4 := mkNn (nn_max_k st) (nn_k st) None (nn_trunc st) (Some cert) (Some samples)
                            (Some g) (Some nn) (Some g) next in
            if nn_trunc st
            then match nn_set_radius st4 cert with
                 | (Ok _, st5) => (Ok (Some cert), st5)
                 | (Err e, st5) => (Err e, st5)
                 end
            else (Ok None, st4)
        end
    end.

  (** grow_to_n_samples, prm.py 364-425. *)
  Definition nn_grow (st : nn_state) (n : nat) : res (option Q) * nn_state :=
    let st0 := mkNn (nn_max_k st) (nn_k st) None (nn_trunc st) (nn_cert st) (nn_samples st)
                    (nn_graph st) (nn_master st) (nn_cache st) (nn_next st) in
    match nn_samples st with
    | None => nn_rebuild st0 (draw (nn_next st) n) (nn_next st + n) n
    | Some old =>
        if n <=? length old then (Err ArithmeticError, st0)
        else
          let k := n - length old in
          nn_rebuild st0 (old ++ draw (nn_next st) k) (nn_next st + k) n
    end.

  (** prm.py 437-440: for every row u and every discarded entry v, drop the edge if
      present. *)
  Definition throw_away (nn : rows) (k : nat) : list (nat * nat) :=
    flat_map (fun ur => map (fun vd => (fst ur, fst vd)) (skipn k (snd ur)))
             (combine (seq 0 (length nn)) nn).
  Definition drop_edges (es : list (nat * nat)) (g : graph) : graph :=
    fold_left (fun g e => if has_edge g (fst e) (snd e) then remove_edge g (fst e) (snd e) else g)
              es g.

  (** set_nearest_neighbors, prm.py 427-442. *)
  Definition nn_set_k (st : nn_state) (k : nat) : res unit * nn_state :=
    if nn_max_k st <? k then (Err ArithmeticError, st)
    else
      let reload := nn_k st <? k in
      match (if reload then match nn_cache st with None => Err FileError | Some g => Ok (Some g) end
             else Ok (nn_graph st)) with
      | Err e => (Err e, st)
      | Ok go =>
          let st1 := mkNn (nn_max_k st) (nn_k st) (nn_conn_r st) (nn_trunc st) (nn_cert st)
                          (nn_samples st) go (nn_master st) (nn_cache st) (nn_next st) in
          match nn_master st with
          | None => (Err TypeError, st1)                      (* line 436: None[...] *)
          | Some nn =>
              match throw_away nn k, go with
              | _ :: _, None => (Err AttributeError, st1)     (* line 439 *)
              | es, _ =>
                  (Ok tt,
                   mkNn (nn_max_k st) k (nn_conn_r st) (nn_trunc st) (nn_cert st)
                        (nn_samples st) (option_map (drop_edges es) go)
                        (nn_master st) (nn_cache st) (nn_next st))
              end
          end
      end.

  (** reset, prm.py 475-488. *)
  Definition nn_reset (st : nn_state) : nn_state :=
    mkNn (nn_max_k st) (nn_k st) None (nn_trunc st) None None None (nn_master st) None
         (nn_next st).

  (** query_best_solution on this class; the radius used is conn_r, or the certified
      one when conn_r is None (lines 492-493). *)
  Definition nn_query (sp : sp_oracle) (st : nn_state) (start goal : P)
    : res (option Q * list P) * nn_state :=
    match nn_samples st, (match nn_conn_r st with Some r => Some r | None => nn_cert st end) with
    | Some samples, Some r =>
        match nn_graph st with
        | None => (Err AttributeError, st)
        | Some g =>
            let (out, g') := query_best sp g samples r start goal in
            (out, mkNn (nn_max_k st) (nn_k st) (nn_conn_r st) (nn_trunc st) (nn_cert st)
                       (Some samples) (Some g') (nn_master st) (nn_cache st) (nn_next st))
        end
    | _, _ => (Err TypeError, st)
    end.

  (** * SimpleRadiusPRM (prm.py 513-633) *)

  (** [ann_upd fresh k] would be the neighbour array after an incremental update; it is
      taken to be the array for all the samples indexed so far (the KGraph class
      rebuilds, ann.py 81-92; pynndescent updates its index). *)
  Record rp_state := mkRp {
    rp_conn_r : Q;
    rp_k : nat;                        (* self.k_neighbors *)
    rp_max_k : nat;
    rp_samples : option (list P);
    rp_graph : option graph;
    rp_ann_k : nat;                    (* neighbours the current index was built with *)
    rp_next : nat }.

  (** prm.py 514-538. *)
  Definition rp_new (r : Q) (max_k pos : nat) : rp_state :=
    mkRp r 16 max_k None None 0 (S pos).

  (** prm.py 549, 580: np.all(dists[:, -1] >= conn_r) / (... > conn_r). *)
  Definition all_last (test : Q -> bool) (nn : rows) : bool :=
    forallb (fun row => match last_dist row with Some d => test d | None => false end) nn.

  (** _build_threshold_index, prm.py 542-554: the doubling loop.  [None] = out of fuel. *)
  Fixpoint build_index (fuel : nat) (samples : list P) (n max_k : nat) (r : Q) (k : nat)
    : option (rows * nat) :=
    match fuel with
    | O => None
    | S fuel' =>
        let nn := ann samples k in
        if ((max_k <=? k) || (n <=? k) || all_last (fun d => Qgeb d r) nn)%bool
        then Some (nn, k)
        else build_index fuel' samples n max_k r (k * 2)
    end.

  (** grow_to_n_samples, prm.py 540-597.  Shrinking requests make np.zeros raise
      ValueError (here ArithmeticError); [None] = out of fuel. *)
  Definition rp_grow (fuel : nat) (st : rp_state) (n : nat) : option (res unit * rp_state) :=
    match rp_samples st with
    | None =>
        let samples := draw (rp_next st) n in
        match build_index fuel samples n (rp_max_k st) (rp_conn_r st) (rp_k st) with
        | None => None
        | Some (nn, k) =>
            let st1 g := mkRp (rp_conn_r st) k (rp_max_k st) (Some samples) g k (rp_next st + n) in
            match nn_to_graph samples nn 0 None with
            | Ok g => Some (Ok tt, st1 (Some g))
            | Err e => Some (Err e, st1 (rp_graph st))
            end
        end
    | Some old =>
        if n <? length old then Some (Err ArithmeticError, st)
        else
          let m_new := n - length old in
          let samples := old ++ draw (rp_next st) m_new in
          let nn := ann samples (rp_ann_k st) in
          if (all_last (fun d => Qgtb d (rp_conn_r st)) nn || (rp_max_k st <=? rp_k st))%bool
          then
            let st1 g := mkRp (rp_conn_r st) (rp_k st) (rp_max_k st) (Some samples) g
                              (rp_ann_k st) (rp_next st + m_new) in
            match rp_graph st with
            | None => Some (Err AttributeError, st1 None)
            | Some g =>
                let g1 := fst (add_nodes g m_new) in
                match nn_to_graph samples nn (length old) (Some (rp_conn_r st)) with
                | Ok gn => Some (Ok tt, st1 (Some (merge g1 gn)))
                | Err e => Some (Err e, st1 (Some g1))
                end
            end
          else
            let k := rp_k st * 2 in
            let nn' := ann samples k in
            let st1 g := mkRp (rp_conn_r st) k (rp_max_k st) (Some samples) g k
                              (rp_next st + m_new) in
            match nn_to_graph samples nn' 0 (Some (rp_conn_r st)) with
            | Ok g => Some (Ok tt, st1 (Some g))
            | Err e => Some (Err e, st1 (rp_graph st))
            end
    end.

  (** reset, prm.py 622-625: k_neighbors and the shortest path table are kept. *)
  Definition rp_reset (st : rp_state) : rp_state :=
    mkRp (rp_conn_r st) (rp_k st) (rp_max_k st) None None 0 (rp_next st).

  (** query_best_solution on this class. *)
  Definition rp_query (sp : sp_oracle) (st : rp_state) (start goal : P)
    : res (option Q * list P) * rp_state :=
    match rp_samples st, rp_graph st with
    | Some samples, Some g =>
        let (out, g') := query_best sp g samples (rp_conn_r st) start goal in
        (out, mkRp (rp_conn_r st) (rp_k st) (rp_max_k st) (Some samples) (Some g')
                   (rp_ann_k st) (rp_next st))
    | _, _ => (Err TypeError, st)
    end.

  (** * Client histories: any sequence of public calls, ignoring what they return *)

  Inductive fc_op := FGrow (n : nat) | FRadius (r : Q) | FQuery (s t : P) | FReset.
  Definition fc_step (sp : sp_oracle) (st : fc_state) (op : fc_op) : fc_state :=
    match op with
    | FGrow n => snd (fc_grow st n)
    | FRadius r => snd (fc_set_radius st r)
    | FQuery s t => snd (fc_query sp st s t)
    | FReset => fc_reset st
    end.
  Definition fc_run (sp : sp_oracle) (ops : list fc_op) (st : fc_state) : fc_state :=
    fold_left (fc_step sp) ops st.

  Inductive nn_op := NGrow (n : nat) | NRadius (r : Q) | NK (k : nat) | NQuery (s t : P) | NReset.
  Definition nn_step (sp : sp_oracle) (st : nn_state) (op : nn_op) : nn_state :=
    match op with
    | NGrow n => snd (nn_grow st n)
    | NRadius r => snd (nn_set_radius st r)
    | NK k => snd (nn_set_k st k)
    | NQuery s t => snd (nn_query sp st s t)
    | NReset => nn_reset st
    end.
  Definition nn_run (sp : sp_oracle) (ops : list nn_op) (st : nn_state) : nn_state :=
    fold_left (nn_step sp) ops st.

  Inductive rp_op := RGrow (n : nat) | RQuery (s t : P) | RReset.
  Definition rp_step (sp : sp_oracle) (fuel : nat) (st : rp_state) (op : rp_op) : option rp_state :=
    match op with
    | RGrow n => option_map snd (rp_grow fuel st n)
    | RQuery s t => Some (snd (rp_query sp st s t))
    | RReset => Some (rp_reset st)
    end.
  Fixpoint rp_run (sp : sp_oracle) (fuel : nat) (ops : list rp_op) (st : rp_state) : option rp_state :=
    match ops with
    | [] => Some st
    | op :: ops' => match rp_step sp fuel st op with
                    | None => None
                    | Some st' => rp_run sp fuel ops' st'
                    end
    end.
End Prm.
