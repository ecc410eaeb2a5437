(** Theorems about the sample bound of nonasymptotic/bound.py
    (C01, C02, C03, C06, C07, C09, C10, C66, C67). *)
From Coq Require Import ZArith Reals Lia Lra.
From Verif Require Import Search_Model Bound_Model Bound_Spec Bound_Proofs Bound_Proofs2 Bound_Proofs3.
Open Scope R_scope.

(** A concrete instance used below: the unit segment direction of a line of volume 2,
    clearance 1, no stretch requirement, success probability one half. *)
Lemma demo_rho : ball_measure 1 None 1 2 = 1.
Proof. unfold ball_measure. simpl. field. Qed.

Lemma demo_bound_30 : net_failure_bound (ball_measure 1 None 1 2) (1 + 1) 30 <= 1 - 1 / 2.
Proof.
  rewrite demo_rho. unfold net_failure_bound. rewrite <- psum_spec.
  replace (psum (2 * 30) (1 + 1)) with 1831%Z by (vm_compute; reflexivity).
  replace (- (1) * INR 30 / 2) with (- INR 15) by (simpl; field).
  rewrite Rpower_Ropp, Rpower_pow by lra. simpl pow. lra.
Qed.

Lemma demo_returns : exists m r, compute_numerical_bound 1 (1 / 2) 2 1 None 1000 = Some (Ret m, r).
Proof.
  destruct (numerical_bound_outcomes_proof 1 (1 / 2) 2 1 None 1000 ltac:(lra) (le_n _)) as [[_ H] _].
  destruct H as [m Hm]; [exists 30%nat; split; [lia|apply demo_bound_30]|].
  destruct (compute_numerical_bound 1 (1 / 2) 2 1 None 1000) as [[s r]|]; [|discriminate].
  simpl in Hm. injection Hm as ->. exists m, r. reflexivity.
Qed.

(** C01.  ArithmeticError exactly outside the open unit interval. *)
Theorem numerical_bound_error_iff : forall c p v dim tol fuel,
  compute_numerical_bound c p v dim tol fuel = None <-> (p <= 0 \/ 1 <= p).
Proof. exact numerical_bound_none. Qed.
Print Assumptions numerical_bound_error_iff.

(** C01.  A returned count is the least m >= 2 whose failure bound is at most 1-p. *)
Theorem numerical_bound_least : forall c p v dim tol fuel z r,
  compute_numerical_bound c p v dim tol fuel = Some (Ret z, r) ->
  let rho := ball_measure c tol dim v in
  exists m, z = Z.of_nat m /\ (2 <= m)%nat /\ (z <= 2 ^ 53)%Z /\
    net_failure_bound rho (dim + 1) m <= 1 - p /\
    forall m', (2 <= m' < m)%nat -> net_failure_bound rho (dim + 1) m' > 1 - p.
Proof. exact numerical_bound_least_proof. Qed.
Print Assumptions numerical_bound_least.

Example numerical_bound_least_case : exists m r,
  compute_numerical_bound 1 (1 / 2) 2 1 None 1000 = Some (Ret m, r) /\ (2 <= m <= 30)%Z.
Proof.
  destruct demo_returns as (m & r & E). exists m, r. split; [exact E|].
  apply numerical_bound_least in E. destruct E as (n & -> & Hn & _ & _ & Hl).
  destruct (le_lt_dec n 30); [lia|]. specialize (Hl 30%nat ltac:(lia)).
  pose proof demo_bound_30. lra.
Qed.

(** C01.  Which outcome occurs (with enough fuel for the loops): a count is returned exactly
    when some count up to 2^53 is good enough; OverflowError exactly when even 2^996 is
    not; the internal "Something wrong happened" error never. *)
Theorem numerical_bound_outcomes : forall c p v dim tol fuel,
  0 < p < 1 -> (1000 <= fuel)%nat ->
  let B := net_failure_bound (ball_measure c tol dim v) (dim + 1) in
  let out := option_map fst (compute_numerical_bound c p v dim tol fuel) in
  ((exists m, out = Some (Ret m)) <-> exists m, (Z.of_nat m <= 2 ^ 53)%Z /\ B m <= 1 - p) /\
  (out = Some ErrOverflow <-> B (Z.to_nat (2 ^ 996)) > 1 - p) /\
  (out <> Some ErrArith).
Proof. exact numerical_bound_outcomes_proof. Qed.
Print Assumptions numerical_bound_outcomes.

(** C01/C05.  Between 2^53 and 2^996 the call never returns (float midpoint). *)
Theorem numerical_bound_diverges : forall c p v dim tol,
  0 < p < 1 ->
  let B := net_failure_bound (ball_measure c tol dim v) (dim + 1) in
  B (Z.to_nat (2 ^ 53)) > 1 - p -> B (Z.to_nat (2 ^ 996)) <= 1 - p ->
  forall fuel, option_map fst (compute_numerical_bound c p v dim tol fuel) = Some OutOfFuel.
Proof. exact numerical_bound_diverges_proof. Qed.
Print Assumptions numerical_bound_diverges.

(** C01.  For every positive ball measure some count is good enough. *)
Theorem certified_count_exists : forall rho vc gam, 0 < rho -> 0 < gam ->
  exists m, (2 <= m)%nat /\ net_failure_bound rho vc m <= gam.
Proof. exact exists_certified. Qed.
Print Assumptions certified_count_exists.

(** C01.  For zero (or negative) ball measure none is, and the call overflows. *)
Theorem zero_clearance_overflows : forall p v dim tol fuel,
  0 < p < 1 -> (1 <= dim)%nat -> (1000 <= fuel)%nat ->
  option_map fst (compute_numerical_bound 0 p v dim tol fuel) = Some ErrOverflow.
Proof.
  intros p v dim tol fuel Hp Hd Hf.
  apply (numerical_bound_outcomes 0 p v dim tol fuel Hp Hf).
  pose proof (nfb_rho_nonpos (ball_measure 0 tol dim v) (dim + 1) (Z.to_nat (2 ^ 996))) as H.
  assert (E : ball_measure 0 tol dim v = 0).
  { unfold ball_measure. rewrite Rmult_0_r, pow_i by lia. unfold Rdiv. ring. }
  rewrite E in *. specialize (H ltac:(lra)). lra.
Qed.
Print Assumptions zero_clearance_overflows.

(** C02.  The guarantee is permanent and the failure bound keeps falling. *)
Theorem numerical_bound_permanent : forall c p v dim tol fuel z r,
  compute_numerical_bound c p v dim tol fuel = Some (Ret z, r) ->
  let B := net_failure_bound (ball_measure c tol dim v) (dim + 1) in
  forall m1 m2, (Z.to_nat z <= m1)%nat -> (m1 <= m2)%nat -> B m1 <= 1 - p /\ B m2 <= B m1.
Proof. exact numerical_bound_permanent_proof. Qed.
Print Assumptions numerical_bound_permanent.

Example numerical_bound_permanent_case : forall k,
  net_failure_bound 1 2 (30 + k) <= 1 / 2.
Proof.
  intros k. destruct numerical_bound_least_case as (m & r & E & Hm).
  pose proof (numerical_bound_permanent _ _ _ _ _ _ _ _ E (30 + k) (30 + k) ltac:(lia) ltac:(lia)) as [H _].
  rewrite demo_rho in H. simpl (1 + 1)%nat in H. lra.
Qed.

(** C03.  Easier inputs never need more samples (and never fail where harder ones succeed). *)
Theorem numerical_bound_monotone : forall c1 c2 p1 p2 v1 v2 t1 t2 dim fuel fuel' z1 r1,
  0 <= c1 <= c2 -> 0 < p2 <= p1 -> 0 < v2 <= v1 -> tol_easier t1 t2 -> (1000 <= fuel')%nat ->
  compute_numerical_bound c1 p1 v1 dim t1 fuel = Some (Ret z1, r1) ->
  exists z2 r2, compute_numerical_bound c2 p2 v2 dim t2 fuel' = Some (Ret z2, r2) /\ (z2 <= z1)%Z.
Proof. exact numerical_bound_monotone_proof. Qed.
Print Assumptions numerical_bound_monotone.

Example numerical_bound_monotone_case : exists z r,
  compute_numerical_bound 2 (1 / 4) 1 1 None 1000 = Some (Ret z, r) /\ (z <= 30)%Z.
Proof.
  destruct numerical_bound_least_case as (m & r & E & Hm).
  destruct (numerical_bound_monotone 1 2 (1/2) (1/4) 2 1 None None 1 1000 1000 m r) as (z & r2 & E2 & Hz);
    try lra; try exact I; try exact E; [apply le_n|].
  exists z, r2. split; [exact E2|lia].
Qed.

(** C06.  The two connection-radius formulas agree; ranges. *)
Theorem connection_radius_formulas_agree : forall c p v dim t fuel s r,
  compute_numerical_bound c p v dim (Some t) fuel = Some (s, r) ->
  r = compute_connection_radius c t.
Proof. exact conn_radius_agree. Qed.
Print Assumptions connection_radius_formulas_agree.

Theorem connection_radius_without_tolerance : forall c p v dim fuel s r,
  compute_numerical_bound c p v dim None fuel = Some (s, r) -> r = 2 * c.
Proof. exact conn_radius_none. Qed.
Print Assumptions connection_radius_without_tolerance.

Theorem connection_radius_range : forall c t, 0 <= c -> 0 <= t ->
  2 * c <= compute_connection_radius c t <= 2 * sqrt 2 * c.
Proof. exact conn_radius_range. Qed.
Print Assumptions connection_radius_range.

Theorem net_radius_at_most_clearance : forall c tol, 0 <= c -> compute_epsilon_net_radius c tol <= c.
Proof. exact net_radius_le_clearance. Qed.
Print Assumptions net_radius_at_most_clearance.

Example connection_radius_case : compute_connection_radius 1 1 = 4 / sqrt 2.
Proof. unfold compute_connection_radius. replace (1 + 1 ^ 2) with 2 by ring. field. pose proof (sqrt_lt_R0 2). lra. Qed.

(** C07.  The net radius computed from a failure probability gives exactly twice that
    probability in the failure bound ... *)
Theorem net_radius_from_prob_gives_twice : forall dim n failure_prob vol,
  (1 <= dim)%nat -> (1 <= n)%nat -> 0 < failure_prob < 2 -> 0 < vol ->
  let r := compute_net_radius_from_prob dim (Z.of_nat n) failure_prob vol in
  net_failure_bound (unit_ball_volume dim * r ^ dim / vol) (dim + 1) n = 2 * failure_prob.
Proof. exact net_radius_twice_proof. Qed.
Print Assumptions net_radius_from_prob_gives_twice.

(** ... so the soundness claim is false for every input. *)
Theorem net_radius_from_prob_sound_refuted :
  exists dim n failure_prob vol,
  (1 <= dim)%nat /\ (1 <= n)%nat /\ 0 < failure_prob < 1 /\ 0 < vol /\
  let r := compute_net_radius_from_prob dim (Z.of_nat n) failure_prob vol in
  ~ net_failure_bound (unit_ball_volume dim * r ^ dim / vol) (dim + 1) n <= failure_prob.
Proof.
  exists 2%nat, 100%nat, (1 / 10), 1. repeat (split; [lia || lra|]).
  pose proof (net_radius_from_prob_gives_twice 2 100 (1 / 10) 1 ltac:(lia) ltac:(lia) ltac:(lra) ltac:(lra)) as E.
  cbv zeta in E |- *. lra.
Qed.
Print Assumptions net_radius_from_prob_sound_refuted.

(** C09.  Tail bounds grow with the radius. *)
Theorem hoeffding_tail_monotone : forall m k r1 r2 dim vol,
  (2 <= m)%Z -> 0 < vol -> 0 <= r1 <= r2 ->
  compute_tail_knn_radius_log_prob_hoeffding m k r1 dim vol
  <= compute_tail_knn_radius_log_prob_hoeffding m k r2 dim vol.
Proof. exact hoeffding_mono_proof. Qed.
Print Assumptions hoeffding_tail_monotone.

Theorem hoeffding_mean_tail_monotone : forall m k r1 r2 dim vol,
  (2 <= m)%Z -> (0 <= k)%Z -> 0 < vol -> 0 < r1 <= r2 ->
  compute_tail_knn_radius_log_prob_hoeffding_mean_variant m k r1 dim vol
  <= compute_tail_knn_radius_log_prob_hoeffding_mean_variant m k r2 dim vol.
Proof. exact hoeffding_mean_mono_proof. Qed.
Print Assumptions hoeffding_mean_tail_monotone.

Theorem chernoff_kl_tail_monotone : forall m k r1 r2 dim vol ub,
  (2 <= m)%Z -> 0 < vol -> 0 <= r1 <= r2 ->
  ext_le (compute_tail_knn_radius_log_prob_chernoff_kl m k r1 dim vol ub)
         (compute_tail_knn_radius_log_prob_chernoff_kl m k r2 dim vol ub).
Proof. exact kl_mono_proof. Qed.
Print Assumptions chernoff_kl_tail_monotone.

(** a non-trivial instance: a finite value at a radius below the k/m threshold *)
Example chernoff_kl_finite_case : exists h,
  compute_tail_knn_radius_log_prob_chernoff_kl 4 2 (1 / 4) 1 2 false = Some h.
Proof.
  unfold compute_tail_knn_radius_log_prob_chernoff_kl.
  rewrite unit_ball_correct. simpl unit_ball_volume.
  replace (2 / 2 * (1 / 4) ^ 1) with (1 / 4) by field.
  rewrite Rmin_left by lra. replace (2 / 4 - 1 / 4) with (1 / 4) by field.
  rewrite Rmax_left by lra. unfold entropy2. rewrite !rel_entr_pos by lra. eexists. reflexivity.
Qed.

Theorem chernoff_generic_tail_monotone : forall m k r1 r2 dim vol,
  (2 <= m)%Z -> 0 < vol -> 0 < r1 <= r2 -> expected_ball_count m r2 dim vol <= IZR k ->
  compute_tail_knn_radius_log_prob_chernoff_generic m k r1 dim vol
  <= compute_tail_knn_radius_log_prob_chernoff_generic m k r2 dim vol.
Proof. exact generic_mono_proof. Qed.
Print Assumptions chernoff_generic_tail_monotone.

Example chernoff_generic_case : expected_ball_count 101 (1 / 2) 1 2 <= IZR 60.
Proof. unfold expected_ball_count. simpl. rewrite Rmin_left by lra. lra. Qed.

(** Beyond the expected count the generic bound falls again. *)
Theorem chernoff_generic_tail_monotone_refuted :
  exists m k r1 r2 dim vol, (2 <= m)%Z /\ 0 < vol /\ 0 < r1 <= r2 /\
    compute_tail_knn_radius_log_prob_chernoff_generic m k r2 dim vol
    < compute_tail_knn_radius_log_prob_chernoff_generic m k r1 dim vol.
Proof. exact generic_mono_refuted_proof. Qed.
Print Assumptions chernoff_generic_tail_monotone_refuted.

(** C10.  The closed-form radius is certified when the unit ball fits the volume ... *)
Theorem eff_conn_rad_certified_partial : forall m k dim vol delta r,
  (2 <= m)%Z -> (1 <= k)%Z -> (1 <= dim)%nat -> unit_ball_volume dim <= vol -> 0 < delta < 1 ->
  compute_eff_conn_rad_bound m k dim vol delta = Some r -> 0 < r ->
  compute_tail_knn_radius_log_prob_chernoff_generic m k r dim vol <= ln delta.
Proof. exact corollary1_certified_proof. Qed.
Print Assumptions eff_conn_rad_certified_partial.

Example eff_conn_rad_certified_case : exists r,
  compute_eff_conn_rad_bound 100 48 1 2 (100 * exp (-6)) = Some r /\ 0 < r.
Proof.
  exists (24 / 99). split; [|lra]. unfold compute_eff_conn_rad_bound.
  rewrite unit_ball_correct. simpl unit_ball_volume.
  replace (ln 100 - ln (100 * exp (-6))) with 6
    by (rewrite ln_mult, ln_exp by (try lra; apply exp_pos); lra).
  replace (2 * 48 * 6) with (24 * 24) by ring. rewrite sqrt_square by lra.
  rewrite Rmin_left by lra. replace ((48 - 24) / ((100 - 1) * (2 / 2))) with (24 / 99) by lra.
  destruct (Rlt_dec 0 (24 / 99)); [|lra]. f_equal. simpl INR.
  replace (1 / 1) with 1 by field. apply Rpower_1. lra.
Qed.

(** ... and not otherwise. *)
Theorem eff_conn_rad_certified_refuted : exists m k dim vol delta r,
  (2 <= m)%Z /\ (1 <= k < m)%Z /\ (1 <= dim)%nat /\ 0 < vol /\ 0 < delta < 1 /\ 0 < r /\
  compute_eff_conn_rad_bound m k dim vol delta = Some r /\
  compute_tail_knn_radius_log_prob_chernoff_generic m k r dim vol > ln delta.
Proof. exact corollary1_refuted_proof. Qed.
Print Assumptions eff_conn_rad_certified_refuted.

(** C66.  Unit ball volumes. *)
Theorem unit_ball_volume_correct : forall d, compute_vol_unit_sphere d = unit_ball_volume d.
Proof. exact unit_ball_correct. Qed.
Print Assumptions unit_ball_volume_correct.

Example unit_ball_volume_case : unit_ball_volume 3 = 4 / 3 * PI.
Proof. unfold unit_ball_volume. simpl INR. field. Qed.

(** C67.  The Blumer count is sufficient, and the numerical count never exceeds it. *)
Theorem blumer_bound_sufficient : forall net_rad dim gam vol m,
  let rho := unit_ball_volume dim * net_rad ^ dim / vol in
  0 < rho <= 1 -> 0 < gam ->
  compute_blumer_bound net_rad dim gam vol <= INR m ->
  net_failure_bound rho (dim + 1) m <= gam.
Proof. exact blumer_proof. Qed.
Print Assumptions blumer_bound_sufficient.

Theorem numerical_bound_le_blumer : forall c p v dim tol fuel z r,
  let rho := ball_measure c tol dim v in
  0 < rho <= 1 ->
  compute_numerical_bound c p v dim tol fuel = Some (Ret z, r) ->
  z = 2%Z \/ IZR z < compute_blumer_bound (compute_epsilon_net_radius c tol) dim (1 - p) v + 1.
Proof. exact numerical_le_blumer_proof. Qed.
Print Assumptions numerical_bound_le_blumer.

Example numerical_bound_le_blumer_case : exists z r,
  0 < ball_measure 1 None 1 2 <= 1 /\ compute_numerical_bound 1 (1 / 2) 2 1 None 1000 = Some (Ret z, r).
Proof. destruct demo_returns as (z & r & E). exists z, r. split; [rewrite demo_rho; lra|exact E]. Qed.
