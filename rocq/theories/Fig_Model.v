(** Model of the figures of two notebooks: notebooks/vis_narrow_passages.ipynb, cells 5 and 6, and
    notebooks/vis_straight_line_env.ipynb, cells 1 and 3.  A figure is its lists of red and blue segments; marks, projections and the
    window are not modelled.  Lines of prm.py are those of Prm_Model.v. *)
From Coq Require Import Arith List QArith Bool.
From Verif Require Import NkGraph_Model Prm_Model.
Import ListNotations.
Close Scope Q_scope.

Section Fig.
  Context {P : Type}.
  Variable dist : P -> P -> Q.
  Variable check : P -> P -> bool.
  Variable smp : nat -> P.
  Variable ann : list P -> nat -> rows.
  Variable sp : sp_oracle.

  Record figure := mkFigure { reds : list (P * P); blues : list (P * P) }.
  Definition bind {A B} (x : res A) (f : A -> res B) : res B := match x with Ok a => f a | Err e => Err e end.

  (** for u, v in prm.prm_graph.iterEdges(): plt.plot(prm_samples[u], prm_samples[v], 'ro-') *)
  Fixpoint draw_edges (ss : list P) (l : list (nat * nat * Q)) : res (list (P * P)) :=
    match l with
    | [] => Ok []
    | (u, v, _) :: l' =>
        match nth_error ss u, nth_error ss v with
        | Some p, Some q => bind (draw_edges ss l') (fun r => Ok ((p, q) :: r))
        | _, _ => Err IndexError
        end
    end.
  Definition red_segments (og : option graph) (os : option (list P)) : res (list (P * P)) :=
    match og, os with
    | Some g, Some ss => draw_edges ss (edge_list g)
    | None, _ => Err AttributeError
    | _, None => Err TypeError
    end.
  (** for i in range(len(path) - 1): plt.plot(path[i], path[i+1], 'bo-') *)
  Definition blue_segments (path : list P) : list (P * P) := combine path (tl path).
  (** num_vertices and num_edges, prm.py 162-166 *)
  Definition counts (og : option graph) : nat * nat :=
    match og with Some g => (number_of_nodes g, number_of_edges g) | None => (0, 0) end.

  (** one figure of vis_narrow_passages.ipynb: the query, the segments, the printed counts *)
  Definition fc_figure (st : fc_state) (start goal : P) : res (figure * option Q * (nat * nat)) * fc_state :=
    match fc_query dist check sp st start goal with
    | (Err e, st') => (Err e, st')
    | (Ok (d, path), st') =>
        (bind (red_segments (fc_graph st') (fc_samples st')) (fun r => Ok (mkFigure r (blue_segments path), d, counts (fc_graph st'))), st')
    end.
  (** cell 5, with its numbers 1.0, 100, 0.5 and 1000 *)
  Definition narrow_cell5 (r0 : Q) (n1 : nat) (r : Q) (n2 : nat) (pos : nat) (start goal : P) :=
    let prm := fc_new r0 pos in
    match fc_grow dist check smp prm n1 with
    | (Err e, _) => Err e
    | (Ok _, prm) =>
    match fc_set_radius dist check smp prm r with
    | (Err e, _) => Err e
    | (Ok _, prm) =>
    match fc_figure prm start goal with
    | (Err e, _) => Err e
    | (Ok first, prm) =>
    match fc_grow dist check smp prm n2 with
    | (Err e, _) => Err e
    | (Ok _, prm) =>
    match fc_figure prm start goal with
    | (Err e, _) => Err e
    | (Ok second, _) => Ok (first, second)
    end end end end end.

  Definition nn_figure (st : nn_state) (start goal : P) : res (figure * option Q * (nat * nat)) * nn_state :=
    match nn_query dist check sp st start goal with
    | (Err e, st') => (Err e, st')
    | (Ok (d, path), st') =>
        (bind (red_segments (nn_graph st') (nn_samples st')) (fun r => Ok (mkFigure r (blue_segments path), d, counts (nn_graph st'))), st')
    end.
  (** cell 6, with its numbers 16, 100, 8 and 1000; the second counts are not printed *)
  Definition narrow_cell6 (k0 n1 k1 n2 : nat) (pos : nat) (start goal : P) :=
    let prm := nn_new k0 false pos in
    match nn_grow check smp ann prm n1 with
    | (Err e, _) => Err e
    | (Ok _, prm) =>
    match nn_set_k prm k1 with
    | (Err e, _) => Err e
    | (Ok _, prm) =>
    match nn_figure prm start goal with
    | (Err e, _) => Err e
    | (Ok first, prm) =>
    match nn_grow check smp ann prm n2 with
    | (Err e, _) => Err e
    | (Ok _, prm) =>
    match nn_figure prm start goal with
    | (Err e, _) => Err e
    | (Ok (f, d, _), _) => Ok (first, (f, d))
    end end end end end.

  (** vis_straight_line_env.ipynb, cell 1, with 16, 1000 and 2: the two figures and the roadmap that is left *)
  Definition line_cell1 (k0 n k1 : nat) (pos : nat) : res (list (P * P) * list (P * P) * nn_state) :=
    match nn_grow check smp ann (nn_new k0 false pos) n with
    | (Err e, _) => Err e
    | (Ok _, prm) =>
        bind (red_segments (nn_graph prm) (nn_samples prm)) (fun first =>
        match nn_set_k prm k1 with
        | (Err e, _) => Err e
        | (Ok _, prm) => bind (red_segments (nn_graph prm) (nn_samples prm)) (fun second => Ok (first, second, prm))
        end)
    end.
  (** cell 3: path[0, 0] and path[-1, 0] raise IndexError on an empty path *)
  Definition line_cell3 (prm : nn_state) (start goal : P) : res figure :=
    match nn_query dist check sp prm start goal with
    | (Err e, _) => Err e
    | (Ok (_, path), prm) =>
        bind (red_segments (nn_graph prm) (nn_samples prm)) (fun r =>
        match path with
        | [] => Err IndexError
        | p :: l => Ok (mkFigure r (blue_segments path ++ [(start, p); (goal, last l p)]))
        end)
    end.
End Fig.
