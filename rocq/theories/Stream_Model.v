(** The motion stream of the turtlebot planner: get_anytime_motion_fn with the roadmap and the
    motion check that it uses

    exps/tamp_environment/turtlebot_move/streams.py   lines 121-213
    nonasymptotic/prm.py                              lines 62-92, 117-160, 331-425, 490-501

    Prm_Model assumes that the motion checker answers row by row.  The checker of streams.py
    (Bag_Model) does not: it chooses the number of checked points from the whole array and
    raises on an empty one.  Here the roadmap calls a checker of arrays, once for the neighbour
    lists and once for each end of a query, as the code does.

    Left out: printing, animation, and the radius and neighbour settings, which the stream
    never changes (conn_r stays None, truncate_to_eff_rad is False, in_mp_exp_mode is False).
    An exception leaves the stream, so the roadmap it leaves behind is not kept. *)
From Coq Require Import Arith List QArith ZArith Bool Reals Qreals.
From Verif Require Import NkGraph_Model Prm_Model Anytime_Model Plane World_Model Interp_Model.
Import ListNotations.
Close Scope Q_scope.
Local Open Scope nat_scope.

(** numpy selection with a boolean array *)
Definition mask {A} (l : list A) (bs : list bool) : list A := map fst (filter snd (combine l bs)).

Section Roadmap.
  Context {P : Type}.
  Variable dist : P -> P -> Q.
  (** the motion checker on an array of motions; None is an exception *)
  Variable verdicts : list (P * P) -> option (list bool).
  Variable smp : nat -> P.
  Variable ann : list P -> nat -> rows.
  Variable sp : sp_oracle.

  (** _query_samples, prm.py 490-501, with the certified radius [r] *)
  Definition batch_query_samples (samples : list P) (r : Q) (q : P) : res (list (nat * Q)) :=
    let idx := combine (seq 0 (length samples)) samples in
    let within := filter (fun ip => Qle_bool (dist (snd ip) q) r) idx in
    match verdicts (map (fun ip => (q, snd ip)) within) with
    | None => Err RuntimeError
    | Some vs => Ok (map (fun ip => (fst ip, dist (snd ip) q)) (mask within vs))
    end.

  (** _nn_edge_list_and_dist_list_to_nk_prm_graph, prm.py 117-160, without threshold *)
  Definition sample_pair (samples : list P) (e : nat * nat * Q) : option (P * P) :=
    match nth_error samples (fst (fst e)), nth_error samples (snd (fst e)) with
    | Some p, Some q => Some (p, q)
    | _, _ => None
    end.
  Fixpoint sample_pairs (samples : list P) (es : list (nat * nat * Q)) : option (list (P * P)) :=
    match es with
    | [] => Some []
    | e :: es' =>
      match sample_pair samples e, sample_pairs samples es' with
      | Some m, Some ms => Some (m :: ms)
      | _, _ => None
      end
    end.
  Definition batch_to_graph (samples : list P) (nn : rows) : res graph :=
    let es := row_edges nn 0 None in
    match sample_pairs samples es with
    | None => Err IndexError
    | Some ms =>
      match verdicts ms with
      | None => Err RuntimeError
      | Some vs => Ok (add_all (mask es vs) (new_graph (length nn)))
      end
    end.

  (** self._samples, self._g_prm, self.certified_max_conn_r and the number of states drawn *)
  Record prm_state := mkPrm {
    ps_samples : option (list P);
    ps_graph : option graph;
    ps_cert : option Q;
    ps_next : nat }.

  (** the constructor, prm.py 331-354: line 335 draws one state *)
  Definition prm_new (pos : nat) : prm_state := mkPrm None None None (S pos).

  (** grow_to_n_samples, prm.py 389-410, after sampling *)
  Definition prm_rebuild (k : nat) (samples : list P) (next n : nat) : res prm_state :=
    let nn := ann samples (Nat.min (n - 1) k) in
    match batch_to_graph samples nn with
    | Err e => Err e
    | Ok g =>
      match min_last nn with
      | None => Err IndexError
      | Some cert => Ok (mkPrm (Some samples) (Some g) (Some cert) next)
      end
    end.

  (** grow_to_n_samples, prm.py 364-410 *)
  Definition prm_grow (k : nat) (st : prm_state) (n : nat) : res prm_state :=
    match ps_samples st with
    | None => prm_rebuild k (draw smp (ps_next st) n) (ps_next st + n) n
    | Some old =>
        if n <=? length old then Err ArithmeticError
        else prm_rebuild k (old ++ draw smp (ps_next st) (n - length old)) (ps_next st + (n - length old)) n
    end.

  (** query_best_solution, prm.py 62-92 *)
  Definition prm_query (st : prm_state) (start goal : P) : res (option Q * list P * prm_state) :=
    match ps_samples st, ps_cert st, ps_graph st with
    | Some samples, Some r, Some g =>
      match batch_query_samples samples r start with
      | Err e => Err e
      | Ok ss =>
        match batch_query_samples samples r goal with
        | Err e => Err e
        | Ok gs =>
          match loop_in g ss gs with
          | (g3, i_start, i_goal) =>
            let (sol_dist, path) :=
              match sp g3 i_start i_goal with
              | Some (d, mid) => (Some d, mid)
              | None => (None, [])
              end in
            match take_rows samples path with
            | Err e => Err e
            | Ok sol_path =>
                Ok (sol_dist, sol_path,
                    mkPrm (Some samples) (Some (remove_node (remove_node g3 i_start) i_goal)) (Some r) (ps_next st))
            end
          end
        end
      end
    | _, _, _ => Err TypeError
    end.

  (** How the stream ends; [sizes] are the sample counts tried. *)
  Inductive stream_end :=
  | StartInCollision                                  (* streams.py 167 *)
  | GoalInCollision                                   (* streams.py 168 *)
  | Unbound                                           (* the loop body never ran *)
  | Raised (e : pyerr) (sizes : list Z)
  | NoPath (sizes : list Z)                           (* return None, streams.py 192 *)
  | Found (sizes : list Z) (path : list P).           (* streams.py 197 *)

  (** streams.py 167-168: is_motion_valid on a single motion *)
  Definition conf_ok (p : P) : res bool :=
    match verdicts [(p, p)] with
    | Some [b] => Ok b
    | _ => Err RuntimeError
    end.

  Variable max_samples : Z.
  Variable factor : Q.
  Variables start goal : P.
  Variable k : nat.

  (** streams.py 171-178, then 183-197.  A negative first count raises in np.zeros, a first count
      of zero in the neighbour library; a later one raises because the roadmap is not smaller. *)
  Fixpoint attempts (fuel : nat) (num_samples : Q) (st : prm_state) (sizes : list Z) : option stream_end :=
    match fuel with
    | O => None
    | S fuel' =>
      if Qlt_bool num_samples (inject_Z (max_samples + 1)) then
        let n := Qint num_samples in
        if (n <=? 0)%Z && match sizes with [] => true | _ => false end then Some (Raised RuntimeError sizes)
        else
          match prm_grow k st (Z.to_nat n) with
          | Err e => Some (Raised e sizes)
          | Ok st1 =>
            match prm_query st1 start goal with
            | Err e => Some (Raised e (sizes ++ [n]))
            | Ok (_, path, st2) =>
              match path with
              | [] => attempts fuel' (num_samples * factor)%Q st2 (sizes ++ [n])
              | _ => Some (Found (sizes ++ [n]) ([start] ++ path ++ [goal]))
              end
            end
          end
      else match sizes with [] => Some Unbound | _ => Some (NoPath sizes) end
    end.

  (** streams.py 160-197 *)
  Definition motion_stream (fuel : nat) (pos : nat) (min_samples : Z) : option stream_end :=
    let st := prm_new pos in
    match conf_ok start with
    | Err e => Some (Raised e [])
    | Ok false => Some StartInCollision
    | Ok true =>
      match conf_ok goal with
      | Err e => Some (Raised e [])
      | Ok false => Some GoalInCollision
      | Ok true => attempts fuel (inject_Z min_samples) st []
      end
    end.
End Roadmap.

(** ** The turtlebot: float coordinates are rationals *)
Definition qpt := (Q * Q)%type.
Definition real (p : qpt) : rpt := (Q2R (fst p), Q2R (snd p)).
Definition coords (p : qpt) : list R := [Q2R (fst p); Q2R (snd p)].

(** prm_env_2d.is_motion_valid (streams.py 89-101) for the obstacles' boxes and a robot, or held
    object, of extents [ex], [ey] (lines 137-146, 158) *)
Definition bag_verdicts (obstacles : list obox) (ex ey : R) (batch : list (qpt * qpt)) : option (list bool) :=
  check_motions obstacles ex ey (map (fun m => (real (fst m), real (snd m))) batch).

(** streams.py 207-211: the configurations of the trajectory *)
Definition trajectory (teleport : bool) (path : list qpt) : option (list (list R)) :=
  if teleport then Some (map coords path) else interpolate_vectors (25/1000)%R (map coords path).
