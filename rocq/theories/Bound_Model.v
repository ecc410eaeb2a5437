(** Model of the formulas of nonasymptotic/bound.py over exact real arithmetic
    (float64 rounding is idealised away; exceptions are values). *)
From Coq Require Import ZArith Reals List.
From Verif Require Import Search_Model.
Import ListNotations.
Open Scope R_scope.

(** math.log2 on positive arguments (bound.py 60, 75, 97). *)
Definition log2R (x : R) : R := ln x / ln 2.

(** Python comparisons [a >= b], [a > b] and [a <= b] on real values. *)
Definition Rgeb (a b : R) : bool := if Rle_dec b a then true else false.
Definition Rgtb (a b : R) : bool := if Rlt_dec b a then true else false.
Definition Rleb (a b : R) : bool := if Rle_dec a b then true else false.

(** scipy.special.gamma at half-integers: [gamma_half n] is Gamma(n/2), by
    Gamma(1/2) = sqrt(pi), Gamma(1) = 1 and Gamma(x+1) = x Gamma(x).  Used by
    bound.py 10, which calls it at [_dim / 2 + 1 = (_dim + 2) / 2].
    [gamma_half 0] (a pole) is never used. *)
Fixpoint gamma_half (n : nat) : R :=
  match n with
  | O => 0
  | S O => sqrt PI
  | S (S O) => 1
  | S (S m) => INR m / 2 * gamma_half m
  end.

(** bound.py 9-10: compute_vol_unit_sphere. *)
Definition compute_vol_unit_sphere (dim : nat) : R :=
  Rpower PI (INR dim / 2) / gamma_half (dim + 2).

(** bound.py 20 and 149: the [alpha] shared by compute_epsilon_net_radius and
    compute_numerical_bound; [None] is Python's None. *)
Definition alpha_of_tol (tol : option R) : R :=
  match tol with
  | Some t => t / sqrt (1 + t ^ 2)
  | None => 1
  end.

(** bound.py 13-21: compute_epsilon_net_radius. *)
Definition compute_epsilon_net_radius (clearance : R) (tol : option R) : R :=
  alpha_of_tol tol * clearance.

(** bound.py 24-33: compute_rho. *)
Definition compute_rho (clearance : R) (tol : option R) (dim : nat) (vol_env : R) : R :=
  let measures_unit_sphere := compute_vol_unit_sphere dim / vol_env in
  measures_unit_sphere * (compute_epsilon_net_radius clearance tol) ^ dim.

(** scipy.special.comb(n, k, exact=True) (bound.py 41): the binomial coefficient,
    zero when k > n. *)
Fixpoint comb (n k : nat) : Z :=
  match n, k with
  | _, O => 1%Z
  | O, S _ => 0%Z
  | S n', S k' => (comb n' k' + comb n' (S k'))%Z
  end.

(** bound.py 35-42: compute_ss_comb_sum, sum over _d in range(vc_dim + 1). *)
Definition compute_ss_comb_sum (m_samples : Z) (vc_dim : nat) : Z :=
  fold_right Z.add 0%Z
    (map (fun d => comb (Z.to_nat (2 * m_samples)) d) (seq 0 (vc_dim + 1))).

(** bound.py 44-61: compute_sauer_shelah_bound_log2. *)
Definition compute_sauer_shelah_bound_log2 (m_samples : Z) (rho : R) (vc_dim : nat) : R :=
  log2R (IZR (compute_ss_comb_sum m_samples vc_dim)) + (- rho * IZR m_samples / 2) + 1.

(** bound.py 63-76: compute_net_radius_from_prob with ad_hoc_magnitude_correction = 1
    (then np.ceil does nothing on an integer count).  [Rpower] is Python's [**] on a
    positive base. *)
Definition compute_net_radius_from_prob (dim : nat) (n_samples : Z) (failure_prob vol_env : R) : R :=
  let ss_comb_sum := compute_ss_comb_sum n_samples (dim + 1) in
  let measure_unit_sphere := compute_vol_unit_sphere dim / vol_env in
  Rpower ((2 / IZR n_samples / measure_unit_sphere)
          * (log2R (IZR ss_comb_sum) - log2R failure_prob)) (1 / INR dim).

(** bound.py 79-84: compute_blumer_bound. *)
Definition compute_blumer_bound (net_rad : R) (dim : nat) (gamma vol_env : R) : R :=
  let vol_net_ball := compute_vol_unit_sphere dim * net_rad ^ dim in
  let measure_vol_net_ball := vol_net_ball / vol_env in
  let vc_dim := INR (dim + 1) in
  Rmax (4 / measure_vol_net_ball * log2R (2 / gamma))
       (8 * vc_dim / measure_vol_net_ball * log2R (13 / measure_vol_net_ball)).

(** bound.py 87-133 on real values: line 97 and the two loops. *)
Definition doubling_sample_search_over_log2_prob_bound
    (samples_to_log2_prob : Z -> R) (success_prob : R) (fuel : nat) : sres Z :=
  doubling_search Rgeb Rgtb samples_to_log2_prob (log2R (1 - success_prob)) fuel.

(** bound.py 136-162: compute_numerical_bound.  [None] is the ArithmeticError of
    line 147; otherwise the outcome of the sample search and the connection radius. *)
Definition compute_numerical_bound (clearance success_prob coll_free_volume : R)
    (dim : nat) (tol : option R) (fuel : nat) : option (sres Z * R) :=
  if (Rleb success_prob 0 || Rgeb success_prob 1)%bool then None
  else
    let alpha := alpha_of_tol tol in
    let conn_r := 2 * (alpha + sqrt (1 - alpha ^ 2)) * clearance in
    let rho := compute_rho clearance tol dim coll_free_volume in
    let vc_dim := (dim + 1)%nat in
    Some (doubling_sample_search_over_log2_prob_bound
            (fun m => compute_sauer_shelah_bound_log2 m rho vc_dim) success_prob fuel,
          conn_r).

(** bound.py 165-171: compute_connection_radius. *)
Definition compute_connection_radius (clearance tol : R) : R :=
  2 * clearance * (tol + 1) / sqrt (1 + tol ^ 2).

(** bound.py 174-194: compute_tail_knn_radius_log_prob_hoeffding. *)
Definition compute_tail_knn_radius_log_prob_hoeffding
    (m_samples k_neighbors : Z) (conn_rad : R) (dim : nat) (vol_env : R) : R :=
  let measures_unit_sphere := compute_vol_unit_sphere dim / vol_env in
  let p_r_ball := measures_unit_sphere * conn_rad ^ dim in
  let tail_val := IZR k_neighbors / (IZR m_samples - 1) - p_r_ball in
  let tail_val := Rmax tail_val 0 in
  ln (IZR m_samples) - 2 * (IZR m_samples - 1) * tail_val ^ 2.

(** bound.py 197-216: compute_tail_knn_radius_log_prob_hoeffding_mean_variant. *)
Definition compute_tail_knn_radius_log_prob_hoeffding_mean_variant
    (m_samples k_neighbors : Z) (conn_rad : R) (dim : nat) (vol_env : R) : R :=
  let measures_unit_sphere := compute_vol_unit_sphere dim / vol_env in
  let p_r_ball := measures_unit_sphere * conn_rad ^ dim in
  let tail_val := IZR k_neighbors / (IZR m_samples - 1) / p_r_ball - 1 in
  let tail_val := Rmax tail_val 0 in
  ln (IZR m_samples) - 2 * (IZR m_samples - 1) * tail_val ^ 2 / (p_r_ball ^ 2).

(** bound.py 219-235: compute_tail_knn_radius_log_prob_chernoff_generic. *)
Definition compute_tail_knn_radius_log_prob_chernoff_generic
    (m_samples k_neighbors : Z) (conn_rad : R) (dim : nat) (vol_env : R) : R :=
  let measures_unit_sphere := compute_vol_unit_sphere dim / vol_env in
  let p_r_ball := Rmin (measures_unit_sphere * conn_rad ^ dim) 1 in
  let mu := (IZR m_samples - 1) * p_r_ball in
  let tail_val := IZR k_neighbors in
  ln (IZR m_samples) - mu + tail_val * (1 + ln mu - ln tail_val).

(** scipy.stats.entropy([a, 1-a], qk=[b, 1-b]) on normalised pairs (bound.py 258-260):
    the relative entropy, each term by scipy's rel_entr: x*log(x/y) if x > 0 and
    y > 0, 0 if x = 0 and y >= 0, infinity otherwise ([None] here). *)
Definition rel_entr (x y : R) : option R :=
  if Rlt_dec 0 x then
    if Rlt_dec 0 y then Some (x * ln (x / y)) else None
  else if Req_EM_T x 0 then if Rle_dec 0 y then Some 0 else None
  else None.

Definition entropy2 (a b : R) : option R :=
  match rel_entr a b, rel_entr (1 - a) (1 - b) with
  | Some u, Some v => Some (u + v)
  | _, _ => None
  end.

(** bound.py 238-262: compute_tail_knn_radius_log_prob_chernoff_kl with the union
    bound factor; [None] stands for minus infinity (infinite relative entropy). *)
Definition compute_tail_knn_radius_log_prob_chernoff_kl
    (m_samples k_neighbors : Z) (conn_rad : R) (dim : nat) (vol_env : R)
    (enable_union_bound_factor : bool) : option R :=
  let measures_unit_sphere := compute_vol_unit_sphere dim / vol_env in
  let p_r_ball := Rmin (measures_unit_sphere * conn_rad ^ dim) 1 in
  let tail_val := Rmax (IZR k_neighbors / IZR m_samples - p_r_ball) 0 in
  match entropy2 (p_r_ball + tail_val) p_r_ball with
  | Some h =>
      Some (if enable_union_bound_factor
            then ln (IZR m_samples) - h * (IZR m_samples - 1)
            else - h * (IZR m_samples - 1))
  | None => None
  end.

(** bound.py 292-299: compute_eff_conn_rad_bound.  [None] is the ValueError of
    math.pow for a negative base with a fractional exponent, and of division by a
    zero denominator. *)
Definition compute_eff_conn_rad_bound
    (m_samples k_neighbors : Z) (dim : nat) (vol_env failure_prob : R) : option R :=
  let measure_unit_sphere := Rmin (compute_vol_unit_sphere dim / vol_env) 1 in
  let numer := IZR k_neighbors
               - sqrt (2 * IZR k_neighbors * (ln (IZR m_samples) - ln failure_prob)) in
  let denom := (IZR m_samples - 1) * measure_unit_sphere in
  if Rlt_dec 0 (numer / denom) then Some (Rpower (numer / denom) (1 / INR dim))
  else if Req_EM_T (numer / denom) 0 then Some 0
  else None.
