(** Model of notebooks/designing_tractable_experiments.ipynb, cells 23 and 27: the effective connection radii listed
    beside the experiments and the ratios of connection to net radius.

    Floats are reals, or rationals where the radius search halves intervals; the ends of its intervals are given as the
    rationals they are.  Reading the results and the plots are left out. *)
From Coq Require Import ZArith QArith Reals List Bool Arith.
From Verif Require Import Search_Model Bound_Model Tail_Props.
Import ListNotations.
Open Scope R_scope.

Inductive exn := IndexError | ValueError | ArithmeticError | AssertionError | NoFuel.
Inductive res (A : Type) := Ok (a : A) | Err (e : exn).
Arguments Ok {A} a. Arguments Err {A} e.
Definition bind {A B} (x : res A) (f : A -> res B) : res B := match x with Ok a => f a | Err e => Err e end.

(** bound.py 265-290: halving_radius_search_over_log_prob_bound with the Kullback-Leibler bound of lines 236-262;
    [NoFuel] is excluded by the theorems *)
Definition kl_search (n k : Z) (dim : nat) (vol : R) (union : bool) (lb ub tol : Q) (success_prob : R) (fuel : nat) : res Q :=
  match halving_search ext_geb ext_gtb (fun r => compute_tail_knn_radius_log_prob_chernoff_kl n k (Q2R r) dim vol union) (Some (ln (1 - success_prob))) tol fuel lb ub with
  | None => Err AssertionError
  | Some (Ret r) => Ok r
  | Some ErrOverflow | Some ErrArith => Err ArithmeticError
  | Some OutOfFuel => Err NoFuel
  end.

(** ** Cell 23 *)
(** designing_tractable_experiments.ipynb, cell 23: np.searchsorted(ds, _d, side='left') on an increasing array *)
Definition searchsorted (ds : list nat) (d : nat) : nat := length (filter (fun x => (x <? d)%nat) ds).
(** cell 23: a record, and the ends and tolerance of its search *)
Record entry := mkEntry { e_dim : nat; e_n : Z; e_k : Z; e_numer : Q; e_theory : R }.
Definition numer_lb : Q := 1 # 100.
Definition numer_ub : Q := 14 # 10.
Definition numer_tol : Q := 1 # 1000000.
(** cell 23: one turn of the loop of _exp_name_to_radius_df; [None]: continue *)
Definition radius_entry (ds : list nat) (vols_env : list R) (p : R) (fuel : nat) (t : nat * (Z * Z)) : res (option entry) :=
  let '(d, (n, k)) := t in
  if (n <? k)%Z then Ok None
  else match nth_error vols_env (searchsorted ds d) with
       | None => Err IndexError
       | Some vol =>
           bind (kl_search n k d vol true numer_lb numer_ub numer_tol p fuel) (fun numer =>
             match compute_eff_conn_rad_bound n k d vol (1 - p) with
             | None => Err ValueError
             | Some theory => Ok (Some (mkEntry d n k numer theory))
             end)
       end.
(** cell 23: the loop *)
Fixpoint radius_entries (ds : list nat) (vols_env : list R) (p : R) (fuel : nat) (l : list (nat * (Z * Z))) : res (list entry) :=
  match l with
  | [] => Ok []
  | t :: l' => bind (radius_entry ds vols_env p fuel t) (fun o => bind (radius_entries ds vols_env p fuel l') (fun es =>
      Ok (match o with None => es | Some e => e :: es end)))
  end.
(** cell 23: _exp_name_to_radius_df over itertools.product of the three schedules *)
Definition exp_name_to_radius_df (ds : list nat) (vols_env : list R) (p : R) (fuel : nat) (dims : list nat) (ns ks : list Z) : res (list entry) :=
  radius_entries ds vols_env p fuel (list_prod dims (list_prod ns ks)).

(** ** Cell 27 *)
(** designing_tractable_experiments.ipynb, cell 27: failure_prob and k *)
Definition failure_prob : R := 1 / 10.
Definition k_256 : Z := 256.
(** cell 27: the entries of a count and a dimension: smallest net radius and largest connection radius, in the unit cube; [ub] is
    np.sqrt(20) *)
Definition ratio_tol : Q := 1 # 1000000.
Definition ratio_lb : Q := 1 # 10000000000.
Definition net_and_conn (ub : Q) (fuel : nat) (n : Z) (d : nat) : res (R * Q) :=
  bind (kl_search n k_256 d 1 true ratio_lb ub ratio_tol (1 - failure_prob) fuel) (fun c => Ok (compute_net_radius_from_prob d n failure_prob 1, c)).
(** cell 27: the two loops *)
Fixpoint fill_row (ub : Q) (fuel : nat) (n : Z) (ds : list nat) : res (list (R * Q)) :=
  match ds with
  | [] => Ok []
  | d :: ds' => bind (net_and_conn ub fuel n d) (fun x => bind (fill_row ub fuel n ds') (fun l => Ok (x :: l)))
  end.
Fixpoint fill (ub : Q) (fuel : nat) (ns : list Z) (ds : list nat) : res (list (list (R * Q))) :=
  match ns with
  | [] => Ok []
  | n :: ns' => bind (fill_row ub fuel n ds) (fun r => bind (fill ub fuel ns' ds) (fun m => Ok (r :: m)))
  end.
(** cell 27: rads_ratio.flatten(order='C') under pd.MultiIndex.from_product([n_samples, ds]) *)
Definition ratio_df (ub : Q) (fuel : nat) (ns : list Z) (ds : list nat) : res (list ((Z * nat) * R)) :=
  bind (fill ub fuel ns ds) (fun m => Ok (combine (list_prod ns ds) (map (fun x => Q2R (snd x) / fst x) (concat m)))).
