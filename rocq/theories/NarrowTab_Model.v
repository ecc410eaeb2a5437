(** Model of notebooks/narrow_clearance_exps_results.ipynb: the success rates (cells 4 and 7), the table of rates and
    predicted sample counts (cell 10) and the tables printed for the paper (cell 15).

    Floats are reals; nan is [None].  A configuration holds the lists read from config.json, a row the columns of
    out*.csv that are used.  float(str(x)) = x.  The plots, the LaTeX around the tables and the Blumer bound that
    cell 15 computes and does not print are left out. *)
From Coq Require Import ZArith Reals List Bool Arith.
From Verif Require Import Search_Model Bound_Model Geom_Model.
Import ListNotations.
Open Scope R_scope.

Inductive exn := IndexError | ValueError | NameError | OverflowError | ArithmeticError | NoFuel.
Inductive res (A : Type) := Ok (a : A) | Err (e : exn).
Arguments Ok {A} a. Arguments Err {A} e.
Definition bind {A B} (x : res A) (f : A -> res B) : res B := match x with Ok a => f a | Err e => Err e end.

Inductive prm := RadiusPrm | KnnPrm.
Definition prm_eqb (a b : prm) : bool := match a, b with RadiusPrm, RadiusPrm | KnnPrm, KnnPrm => true | _, _ => false end.
Definition Rleb (a b : R) : bool := if Rle_dec a b then true else false.
(** np.isclose(a, b) *)
Definition isclose (a b : R) : bool := Rleb (Rabs (a - b)) (1 / 10 ^ 8 + 1 / 10 ^ 5 * Rabs b).

Record row := mkRow { r_type : prm; r_dim : nat; r_clear : R; r_n : nat; r_ub : option R }.
Record config := mkConfig { deltas : list R; radius_dims : list nat; radius_ns : list nat; knn_dims : list nat; knn_ns : list nat; max_knn : nat }.

(** cell 4 *)
Definition rads (c : config) : list R := map (fun x => x * 2) (deltas c).
(** what the thresholds are compared with, cell 7: np.arange(max_knn) or rads *)
Definition conns (c : config) (t : prm) : list R := match t with KnnPrm => map INR (seq 0 (max_knn c)) | RadiusPrm => rads c end.

(** ** Cell 7 *)
Record key := mkKey { k_type : prm; k_clear : R; k_dim : nat; k_n : nat }.
Definition trials (c : config) (t : prm) : list key :=
  flat_map (fun x => flat_map (fun d => map (fun n => mkKey t x d n) (match t with RadiusPrm => radius_ns c | KnnPrm => knn_ns c end))
    (match t with RadiusPrm => radius_dims c | KnnPrm => knn_dims c end)) (deltas c).
Definition all_trials (c : config) : list key := trials c RadiusPrm ++ trials c KnnPrm.
Definition key_eqb (a b : key) : bool :=
  (prm_eqb (k_type a) (k_type b) && (if Req_EM_T (k_clear a) (k_clear b) then true else false) && (k_dim a =? k_dim b)%nat && (k_n a =? k_n b)%nat)%bool.
(** the keys of a dictionary: each once, where it was first set (a key always gets the same value) *)
Fixpoint keys_from (seen l : list key) : list key :=
  match l with
  | [] => []
  | k :: l' => if existsb (key_eqb k) seen then keys_from seen l' else k :: keys_from (k :: seen) l'
  end.
Definition mc_trial_rows (out : list row) (k : key) : list row :=
  filter (fun r => (prm_eqb (r_type r) (k_type k) && (r_dim r =? k_dim k)%nat && isclose (r_clear r) (k_clear k) && (r_n r =? k_n k)%nat)%bool) out.
(** comparisons with nan are false *)
Definition above (x : R) (r : row) : bool := match r_ub r with Some u => Rleb u x | None => false end.
(** [None]: all nan *)
Definition estimates (c : config) (out : list row) (k : key) : option (list R) :=
  match mc_trial_rows out k with
  | [] => None
  | sel => Some (map (fun x => INR (length (filter (above x) sel)) / INR (length sel)) (conns c (k_type k)))
  end.

(** ** Cell 10 *)
Record entry := mkEntry { e_p : R; e_conn : R; e_theory : bool; e_n : nat; e_pred : Z; e_type : prm; e_clear : R; e_dim : nat }.
Definition machine_eps : R := 1 / 10 ^ 6.
Definition search (f : Z -> R) (success_prob : R) (fuel : nat) : res Z :=
  match doubling_sample_search_over_log2_prob_bound f success_prob fuel with
  | Ret z => Ok z | ErrOverflow => Err OverflowError | ErrArith => Err ArithmeticError | OutOfFuel => Err NoFuel
  end.
Fixpoint search_all (fs : list (Z -> R)) (sps : list R) (fuel : nat) : res (list Z) :=
  match fs, sps with
  | f :: fs', sp :: sps' => bind (search f (sp - machine_eps) fuel) (fun z => bind (search_all fs' sps' fuel) (fun l => Ok (z :: l)))
  | _, _ => Ok []
  end.
(** [lambda _ns: ...(_ns, _rho, dim + 1) for _rho in rhos]: the functions read _rho when they are called, after the
    comprehension has ended, and so all read its last value *)
Definition ss_log2_bound_funcs (rhos : list R) (dim : nat) : list (Z -> R) :=
  map (fun _ => fun ns => compute_sauer_shelah_bound_log2 ns (last rhos 0) (dim + 1)) rhos.
Definition rho_of (dim : nat) (clearance net_rad : R) : R := compute_vol_unit_sphere dim / narrow_volume dim clearance * net_rad ^ dim.
Definition entries (k : key) (theory : bool) (ps xs : list R) (preds : list Z) : list entry :=
  map (fun a => mkEntry (fst (fst a)) (snd (fst a)) theory (k_n k) (snd a) (k_type k) (k_clear k) (k_dim k)) (combine (combine ps xs) preds).
Definition key_frame (c : config) (out : list row) (fuel : nat) (k : key) : res (list entry) :=
  match conns c (k_type k) with
  | [] => Err IndexError                                            (* estimates[-1] *)
  | (_ :: _) as xs =>
      match estimates c out k with
      | None => Ok []
      | Some es =>
          let estimated := entries k false es xs (repeat (Z.of_nat (k_n k)) (length xs)) in
          if (k_dim k <=? 7)%nat then
            match k_type k with
            | RadiusPrm =>
                let net_rads := map (fun r => Rmin (r / 4) (k_clear k / 2)) (rads c) in
                let rhos := map (rho_of (k_dim k) (k_clear k)) net_rads in
                let ss_probs := map (fun rho => Rpower 2 (compute_sauer_shelah_bound_log2 (Z.of_nat (k_n k)) rho (k_dim k + 1))) rhos in
                bind (search_all (ss_log2_bound_funcs rhos (k_dim k)) es fuel) (fun preds => Ok (estimated ++ entries k true ss_probs xs preds))
            | KnnPrm =>
                let rho := rho_of (k_dim k) (k_clear k) (k_clear k / 2) in
                let ss_prob := Rpower 2 (compute_sauer_shelah_bound_log2 (Z.of_nat (k_n k)) rho (k_dim k + 1)) in
                bind (search (fun ns => compute_sauer_shelah_bound_log2 ns rho (k_dim k + 1)) (99 / 100) fuel)
                  (fun pred => Ok (estimated ++ entries k true (repeat ss_prob (length xs)) xs (repeat pred (length xs))))
            end
          else Ok estimated
      end
  end.
Fixpoint frames (c : config) (out : list row) (fuel : nat) (ks : list key) : res (list (list entry)) :=
  match ks with
  | [] => Ok []
  | k :: ks' => bind (key_frame c out fuel k) (fun f => bind (frames c out fuel ks') (fun fs => Ok (f :: fs)))
  end.
(** skipped keys append nothing; pd.concat of no frames raises ValueError *)
Definition plot_df (c : config) (out : list row) (fuel : nat) : res (list entry) :=
  bind (frames c out fuel (keys_from [] (all_trials c))) (fun fs =>
    if forallb (fun f => match f with [] => true | _ => false end) fs then Err ValueError else Ok (concat fs)).

(** ** Cell 15 *)
Inductive cell := Shown (p : R) (samples : Z) | Dash.
Definition first {A} (l : list A) : res A := match l with [] => Err IndexError | x :: _ => Ok x end.
Definition box_items (df : list entry) (t : prm) (d n : nat) (conn delta : R) : list entry :=
  filter (fun e => (prm_eqb (e_type e) t && (e_dim e =? d)%nat && (e_n e =? n)%nat && isclose (e_conn e) conn && isclose (e_clear e) delta)%bool) df.
(** [bound_d]: whether the loop variable _d of the radius tables, which the Blumer bound of the knn tables reads too, has
    a value *)
Fixpoint row_cells (bound_d : bool) (df : list entry) (t : prm) (d : nat) (delta conn : R) (ns : list nat) (seen_a_full_score : bool) : res (list cell) :=
  match ns with
  | [] => Ok []
  | n :: ns' =>
      let box := box_items df t d n conn delta in
      bind (first (filter (fun e => negb (e_theory e)) box)) (fun est =>
      bind (first (filter e_theory box)) (fun th =>
        if (negb seen_a_full_score && negb bound_d)%bool then Err NameError else
        let seen := (seen_a_full_score || isclose (e_p est) 1)%bool in
        bind (row_cells bound_d df t d delta conn ns' seen) (fun cells =>
          Ok ((if seen_a_full_score then Dash else Shown (e_p est) (e_pred th)) :: cells))))
  end.
Fixpoint table_rows (bound_d : bool) (df : list entry) (t : prm) (d : nat) (conn_of : R -> R) (ns : list nat) (ds : list R) : res (list (R * list cell)) :=
  match ds with
  | [] => Ok []
  | delta :: ds' => bind (row_cells bound_d df t d delta (conn_of delta) ns false) (fun cs => bind (table_rows bound_d df t d conn_of ns ds') (fun t' => Ok ((delta, cs) :: t')))
  end.
(** the table of a dimension *)
Definition K_to_table : R := 32.
Definition table_ns : list nat := [100; 1000]%nat.                  (* knn_sample_schedule of cell 15 *)
Definition radius_table (c : config) (df : list entry) (d : nat) := table_rows true df RadiusPrm d (fun delta => delta * 2) (radius_ns c) (deltas c).
Definition knn_table (c : config) (df : list entry) (d : nat) := table_rows (match radius_dims c with [] => false | _ => true end) df KnnPrm d (fun _ => K_to_table) table_ns (deltas c).
(** the numbers of samples printed above the columns of table [it]; both loops read sample_schedules[it] *)
Definition sample_schedules (c : config) : list (list nat) :=
  repeat (radius_ns c) (length (radius_dims c)) ++ repeat table_ns (length (knn_dims c)).
Definition radius_header (c : config) (it : nat) : option (list nat) := if (it <? length (radius_dims c))%nat then nth_error (sample_schedules c) it else None.
Definition knn_header (c : config) (it : nat) : option (list nat) := if (it <? length (knn_dims c))%nat then nth_error (sample_schedules c) it else None.
