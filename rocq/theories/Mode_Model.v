(** Model of the shortest path table of a roadmap and of saving it, nonasymptotic/prm.py:
    the switch in_mp_exp_mode (20-36), query_all_graph_connections (94-115), save (168-178), _compute_spsp (180-194), where the
    table is made (412-416, 444-449, 468-473) and read (310-311, 503-510, 612-620).

    networkit's SPSP is the parameter [dg]; the text of the files is not modelled. *)
From Coq Require Import Arith List QArith Bool String.
From Verif Require Import NkGraph_Model Prm_Model.
Import ListNotations.
Close Scope Q_scope.
Close Scope string_scope.

Section Mode.
  Context {P : Type}.
  Variable dist : P -> P -> Q.
  Variable check : P -> P -> bool.
  Variable smp : nat -> P.
  Variable ann : list P -> nat -> rows.
  Variable sp : sp_oracle.
  Variable dist_to_path : P -> Q.                        (* self.dist_points_to_path *)
  Variable dg : graph -> nat -> nat -> option Q.

  (** prm.py 180-194: self.g_sp_lookup and self.sample_to_lookup_ind *)
  Definition table : Type := list (list (option Q)) * list nat.
  Definition compute_spsp (g : graph) (samples : list P) (r : Q) : table :=
    let ids := ids_near_path dist_to_path samples r in
    (spsp_table (dg g) ids, lookup_index (List.length samples) ids).

  (** SimpleNearestNeighborRadiusPRM with its switch and table *)
  Record mode_state := mkMode {
    m_on : bool;                                         (* self.in_mp_exp_mode *)
    m_nn : nn_state (P := P);
    m_table : option table }.

  (** prm.py 331-354 with 20-36: line 333 leaves in_mp_exp_mode at its default *)
  Definition m_new (k : nat) (trunc : bool) (pos : nat) : mode_state := mkMode false (nn_new k trunc pos) None.

  (** prm.py 412-416, 444-449, 468-473; [r] is what the distances are compared with, None raises *)
  Definition retable (on : bool) (old : option table) (st : nn_state) (r : option Q) : res (option table) :=
    if on then
      match r, nn_samples st, nn_graph st with
      | Some r, Some samples, Some g => Ok (Some (compute_spsp g samples r))
      | _, _, _ => Err TypeError
      end
    else Ok old.
  Definition after {A} (st : mode_state) (out : res A * nn_state) (r : nn_state -> option Q) : res A * mode_state :=
    match out with
    | (Err e, s) => (Err e, mkMode (m_on st) s (m_table st))
    | (Ok x, s) =>
        match retable (m_on st) (m_table st) s (r s) with
        | Ok t => (Ok x, mkMode (m_on st) s t)
        | Err e => (Err e, mkMode (m_on st) s (m_table st))
        end
    end.

  (** prm.py 364-425: the table is made for the certified radius and, with truncation, made again by
      set_connection_radius for the same radius on the graph that is left *)
  Definition m_grow (st : mode_state) (n : nat) := after st (nn_grow check smp ann (m_nn st) n) nn_cert.
  (** prm.py 427-449 *)
  Definition m_set_k (st : mode_state) (k : nat) := after st (nn_set_k (m_nn st) k) nn_conn_r.
  (** prm.py 451-473 *)
  Definition m_set_radius (st : mode_state) (r : Q) := after st (nn_set_radius (m_nn st) r) nn_conn_r.
  (** prm.py 475-488 *)
  Definition m_reset (st : mode_state) : mode_state := mkMode (m_on st) (nn_reset (m_nn st)) None.
  (** prm.py 62-92 *)
  Definition m_query (st : mode_state) (s t : P) :=
    let (out, nn) := nn_query dist check sp (m_nn st) s t in (out, mkMode (m_on st) nn (m_table st)).

  (** prm.py 94-115: the rows of the three arrays; the first lookup that fails raises *)
  Definition answer : Type := (P * P) * option Q * (nat * nat).
  Fixpoint gather (l : list (option (P * P) * res (option Q) * (nat * nat))) : res (list answer) :=
    match l with
    | [] => Ok []
    | (Some pq, Ok d, ij) :: l' => match gather l' with Ok a => Ok ((pq, d, ij) :: a) | Err e => Err e end
    | (_, Err e, _) :: _ => Err e
    | (None, _, _) :: _ => Err IndexError
    end.
  (** prm.py 503-510, 612-620 *)
  Definition table_answers (on : bool) (tab : option table) (samples : list P) (r : Q) (s t : P) : res (list answer) :=
    if on then
      match tab with
      | None => Err TypeError
      | Some (lookup, ind) => gather (query_all dist check samples r s t (table_lookup lookup ind))
      end
    else Err NotImplementedError.
  Definition m_query_all (st : mode_state) (s t : P) : res (list answer) :=
    match nn_samples (m_nn st), (match nn_conn_r (m_nn st) with Some r => Some r | None => nn_cert (m_nn st) end) with
    | Some samples, Some r => table_answers (m_on st) (m_table st) samples r s t
    | _, _ => Err TypeError
    end.

  (** histories; [MMode]: the attribute is assigned from outside, which no file of the repository does *)
  Inductive m_op := MMode (on : bool) | MGrow (n : nat) | MRadius (r : Q) | MK (k : nat) | MQuery (s t : P) | MReset.
  Definition m_step (st : mode_state) (op : m_op) : mode_state :=
    match op with
    | MMode on => mkMode on (m_nn st) (m_table st)
    | MGrow n => snd (m_grow st n)
    | MRadius r => snd (m_set_radius st r)
    | MK k => snd (m_set_k st k)
    | MQuery s t => snd (m_query st s t)
    | MReset => m_reset st
    end.
  Definition m_run (ops : list m_op) (st : mode_state) : mode_state := fold_left m_step ops st.

  (** SimpleRadiusPRM, prm.py 514-538 and 612-620: the switch is False here too *)
  Definition rp_query_all (on : bool) (tab : option table) (st : rp_state) (s t : P) : res (list answer) :=
    match rp_samples st with
    | Some samples => table_answers on tab samples (rp_conn_r st) s t
    | None => Err TypeError
    end.

  (** SimpleFullConnRadiusPRM, prm.py 310-311: the exception is returned and becomes the second array *)
  Inductive distances := Distances (l : list (option Q)) | TheException (e : pyerr).
  Definition fc_query_all (st : fc_state) (s t : P) : res (list (P * P) * distances * list (nat * nat)) :=
    match fc_samples st with
    | Some samples =>
        match gather (query_all dist check samples (fc_conn_r st) s t (fun _ _ => Ok None)) with
        | Ok l => Ok (map (fun a => fst (fst a)) l, TheException NotImplementedError, map snd l)
        | Err e => Err e
        end
    | None => Err TypeError
    end.

  (** prm.py 168-178: two files beside each other *)
  Inductive file := GraphFile (g : graph) | SamplesFile (l : list P).
  Definition disk : Type := string -> option file.
  Definition write (name : string) (f : file) (d : disk) : disk := fun x => if String.eqb x name then Some f else d x.
  Inductive saved := Saved | RuntimeWarning.
  Definition save (g : option graph) (samples : option (list P)) (filepath : string) (d : disk) : saved * disk :=
    match g with
    | None => (RuntimeWarning, d)
    | Some g =>
        let d1 := write (filepath ++ ".nkb") (GraphFile g) d in
        (Saved, match samples with Some l => write (filepath ++ ".npy") (SamplesFile l) d1 | None => d1 end)
    end.
End Mode.
