(** The tolerance computed from a radius by the straight-line trial,
    exps/run_straight_line_optimality_trial.py 97-100, against
    compute_connection_radius of nonasymptotic/bound.py. *)
From Coq Require Import Reals Lra Psatz.
From Verif Require Import Bound_Model.
Open Scope R_scope.

(** lines 98-100: rad_normed = rad_test / 2 / delta_clear and
    (1 - sqrt(2 y^2 - y^4)) / (y^2 - 1); [None] is nan (square root of a negative
    number, or 0 / 0 at y = 1). *)
Definition epsilon_tol (rad_test delta_clear : R) : option R :=
  let y := rad_test / 2 / delta_clear in
  if Rlt_dec (2 * y ^ 2 - y ^ 4) 0 then None
  else if Req_EM_T (y ^ 2 - 1) 0 then None
  else Some ((1 - sqrt (2 * y ^ 2 - y ^ 4)) / (y ^ 2 - 1)).

Lemma normed_radius : forall delta x, 0 < delta ->
  compute_connection_radius delta x / 2 / delta = (1 + x) / sqrt (1 + x ^ 2).
Proof.
  intros delta x Hd. unfold compute_connection_radius.
  assert (0 < sqrt (1 + x ^ 2)) by (apply sqrt_lt_R0; nra). field. split; lra.
Qed.

Lemma normed_square : forall x, ((1 + x) / sqrt (1 + x ^ 2)) ^ 2 = (1 + x) ^ 2 / (1 + x ^ 2).
Proof.
  intro x. assert (0 < 1 + x ^ 2) by nra. assert (0 < sqrt (1 + x ^ 2)) by (apply sqrt_lt_R0; auto).
  unfold Rdiv. rewrite Rpow_mult_distr. f_equal.
  rewrite pow_inv by lra. f_equal. rewrite <- Rsqr_pow2. apply Rsqr_sqrt. lra.
Qed.

Lemma under_root : forall x y, y ^ 2 = (1 + x) ^ 2 / (1 + x ^ 2) ->
  2 * y ^ 2 - y ^ 4 = ((1 - x ^ 2) / (1 + x ^ 2)) ^ 2.
Proof.
  intros x y H. assert (0 < 1 + x ^ 2) by nra.
  replace (y ^ 4) with ((y ^ 2) ^ 2) by ring. rewrite H. field. lra.
Qed.

(** Tolerances up to 1 are recovered; a larger one gives its reciprocal. *)
Theorem tolerance_recovered : forall delta x, 0 < delta -> 0 < x ->
  epsilon_tol (compute_connection_radius delta x) delta = Some (if Rle_dec x 1 then x else / x).
Proof.
  intros delta x Hd Hx. unfold epsilon_tol. rewrite normed_radius by auto.
  set (y := (1 + x) / sqrt (1 + x ^ 2)). assert (Y := normed_square x). fold y in Y.
  assert (P : 0 < 1 + x ^ 2) by nra.
  rewrite (under_root x y Y).
  assert (Y1 : y ^ 2 - 1 = 2 * x / (1 + x ^ 2)) by (rewrite Y; field; lra).
  destruct (Rlt_dec (((1 - x ^ 2) / (1 + x ^ 2)) ^ 2) 0) as [L|_].
  { exfalso. assert (A := pow2_ge_0 ((1 - x ^ 2) / (1 + x ^ 2))). lra. }
  destruct (Req_EM_T (y ^ 2 - 1) 0) as [E|_].
  { exfalso. rewrite Y1 in E. assert (0 < 2 * x / (1 + x ^ 2)) by (apply Rdiv_lt_0_compat; lra). lra. }
  f_equal. rewrite Y1. replace (((1 - x ^ 2) / (1 + x ^ 2)) ^ 2) with (Rsqr ((1 - x ^ 2) / (1 + x ^ 2)))
    by (unfold Rsqr; ring). rewrite sqrt_Rsqr_abs.
  destruct (Rle_dec x 1) as [L|L].
  - rewrite Rabs_right; [field; split; lra|].
    apply Rle_ge. apply Rmult_le_pos; [nra|]. apply Rlt_le, Rinv_0_lt_compat; lra.
  - rewrite Rabs_left; [field; split; lra|].
    apply Ropp_lt_cancel. rewrite Ropp_0.
    replace (- ((1 - x ^ 2) / (1 + x ^ 2))) with ((x ^ 2 - 1) / (1 + x ^ 2)) by (field; lra).
    apply Rdiv_lt_0_compat; nra.
Qed.
Print Assumptions tolerance_recovered.

(** Conversely the radius is the connection radius of the tolerance, for radii
    between 2 delta (exclusive) and 2 sqrt 2 delta. *)
Theorem radius_recovered : forall delta r, 0 < delta -> 2 * delta < r <= 2 * sqrt 2 * delta ->
  exists t, epsilon_tol r delta = Some t /\ 0 < t <= 1 /\ compute_connection_radius delta t = r.
Proof.
  intros delta r Hd [H1 H2]. unfold epsilon_tol. set (y := r / 2 / delta).
  assert (R2 : sqrt 2 * sqrt 2 = 2) by (apply sqrt_sqrt; lra).
  assert (R0 : 0 < sqrt 2) by (apply sqrt_lt_R0; lra).
  assert (E : r = 2 * delta * y) by (unfold y; field; lra).
  assert (Y1 : 1 < y) by nra.
  assert (Y2 : y <= sqrt 2) by nra.
  assert (Y3 : y ^ 2 <= 2) by nra.
  assert (Y4 : 1 < y ^ 2) by nra.
  set (u := 2 * y ^ 2 - y ^ 4).
  assert (U : u = y ^ 2 * (2 - y ^ 2)) by (unfold u; ring).
  assert (U0 : 0 <= u) by (rewrite U; apply Rmult_le_pos; lra).
  assert (U1 : u < 1) by (rewrite U; nra).
  destruct (Rlt_dec u 0) as [L|_]; [lra|].
  destruct (Req_EM_T (y ^ 2 - 1) 0) as [F|_]; [lra|].
  set (s := sqrt u). set (w := y ^ 2 - 1).
  assert (S0 : 0 <= s) by apply sqrt_pos.
  assert (SS : s * s = u) by (apply sqrt_sqrt; auto).
  assert (S1 : s < 1) by (destruct (Rlt_le_dec s 1); auto; nra).
  (* u = 1 - w^2 *)
  assert (UW : s * s = 1 - w * w) by (rewrite SS; unfold u, w; ring).
  assert (W0 : 0 < w <= 1) by (unfold w; lra).
  exists ((1 - s) / w). split; [reflexivity|].
  assert (T0 : 0 < (1 - s) / w) by (apply Rdiv_lt_0_compat; lra).
  assert (T1 : (1 - s) / w <= 1).
  { apply Rmult_le_reg_r with w; [lra|]. replace ((1 - s) / w * w) with (1 - s) by (field; lra). nra. }
  split; [split; auto|].
  set (t := (1 - s) / w) in *.
  (* t solves (1 + t)^2 = (1 + w)(1 + t^2) *)
  assert (TW : t * w = 1 - s) by (unfold t; field; lra).
  assert (K : 2 * t = w * (1 + t ^ 2)).
  { apply Rmult_eq_reg_r with w; [|lra].
    replace (w * (1 + t ^ 2) * w) with (w * w + (t * w) * (t * w)) by ring.
    replace (2 * t * w) with (2 * (t * w)) by ring. rewrite TW. nra. }
  unfold compute_connection_radius.
  assert (Q : sqrt (1 + t ^ 2) * y = t + 1).
  { apply Rsqr_inj.
    - apply Rmult_le_pos; [apply sqrt_pos|lra].
    - lra.
    - rewrite Rsqr_mult, Rsqr_sqrt by nra. rewrite !Rsqr_pow2.
      replace (y ^ 2) with (1 + w) by (unfold w; ring).
      replace ((1 + t ^ 2) * (1 + w)) with (1 + t ^ 2 + w * (1 + t ^ 2)) by ring. rewrite <- K. ring. }
  assert (Z : 0 < sqrt (1 + t ^ 2)) by (apply sqrt_lt_R0; nra).
  rewrite <- Q, E. field. lra.
Qed.
Print Assumptions radius_recovered.

(** Radii below 2 delta give a negative tolerance, radii above 2 sqrt 2 delta
    none at all. *)
Theorem tolerance_outside : forall delta r, 0 < delta -> 0 < r ->
  (r < 2 * delta -> exists t, epsilon_tol r delta = Some t /\ t < 0) /\
  (2 * sqrt 2 * delta < r -> epsilon_tol r delta = None).
Proof.
  intros delta r Hd Hr. unfold epsilon_tol. set (y := r / 2 / delta).
  assert (E : r = 2 * delta * y) by (unfold y; field; lra).
  assert (Y0 : 0 < y) by nra.
  split; intro H.
  - assert (Y1 : y < 1) by nra. assert (Y2 : 0 < y ^ 2 < 1) by nra.
    set (u := 2 * y ^ 2 - y ^ 4).
    assert (U : u = y ^ 2 * (2 - y ^ 2)) by (unfold u; ring).
    assert (U0 : 0 <= u) by (rewrite U; apply Rmult_le_pos; lra).
    assert (U1 : u < 1) by (rewrite U; nra).
    destruct (Rlt_dec u 0) as [L|_]; [lra|].
    destruct (Req_EM_T (y ^ 2 - 1) 0) as [F|_]; [lra|].
    eexists. split; [reflexivity|].
    assert (S1 : sqrt u < 1) by (rewrite <- sqrt_1; apply sqrt_lt_1; lra).
    apply Ropp_lt_cancel. rewrite Ropp_0.
    replace (- ((1 - sqrt u) / (y ^ 2 - 1))) with ((1 - sqrt u) / (1 - y ^ 2)) by (field; lra).
    apply Rdiv_lt_0_compat; lra.
  - assert (R2 : sqrt 2 * sqrt 2 = 2) by (apply sqrt_sqrt; lra).
    assert (R0 : 0 < sqrt 2) by (apply sqrt_lt_R0; lra).
    assert (Y1 : sqrt 2 < y) by nra. assert (Y2 : 2 < y ^ 2) by nra.
    destruct (Rlt_dec (2 * y ^ 2 - y ^ 4) 0) as [L|L]; auto.
    exfalso. apply L. replace (2 * y ^ 2 - y ^ 4) with (- (y ^ 2 * (y ^ 2 - 2))) by ring.
    assert (0 < y ^ 2 * (y ^ 2 - 2)) by (apply Rmult_lt_0_compat; lra). lra.
Qed.
Print Assumptions tolerance_outside.

(** A tolerance above 1 is not recovered. *)
Theorem large_tolerance_refuted : exists delta x, 0 < delta /\ 0 < x /\
  epsilon_tol (compute_connection_radius delta x) delta <> Some x.
Proof.
  exists 1, 2. split; [lra|]. split; [lra|]. rewrite tolerance_recovered by lra.
  destruct (Rle_dec 2 1) as [L|_]; [lra|]. intro E. injection E. lra.
Qed.
Print Assumptions large_tolerance_refuted.

Example tolerance_ex : epsilon_tol (compute_connection_radius (1 / 2) (3 / 4)) (1 / 2) = Some (3 / 4).
Proof. rewrite tolerance_recovered by lra. destruct (Rle_dec (3 / 4) 1); auto. lra. Qed.

Example radius_ex : 2 * (1 / 2) < 7 / 5 <= 2 * sqrt 2 * (1 / 2).
Proof.
  split; [lra|]. assert (7 / 5 <= sqrt 2); [|lra].
  rewrite <- (sqrt_square (7 / 5)) by lra. apply sqrt_le_1; lra.
Qed.
