(** Proofs for the sample bound, part 2: ball volume, existence of a certified count,
    monotonicity in the inputs, connection radius, net radius, Blumer bound. *)
From Coq Require Import ZArith Reals List Lia Lra Psatz.
From Verif Require Import Search_Model Search_Proofs Bound_Model Bound_Spec Bound_Proofs.
Import ListNotations.
Open Scope R_scope.

(** * Unit ball volume *)
Lemma gamma_half_step : forall n, gamma_half (S (S (S n))) = INR (S n) / 2 * gamma_half (S n).
Proof. intros. reflexivity. Qed.

Lemma gamma_half_pos2 : forall n, 0 < gamma_half (S n) /\ 0 < gamma_half (S (S n)).
Proof.
  induction n as [|n [IH1 IH2]].
  - split; simpl; [apply sqrt_lt_R0; apply PI_RGT_0|lra].
  - split; [exact IH2|]. rewrite gamma_half_step.
    apply Rmult_lt_0_compat; [|exact IH1].
    pose proof (pos_INR n). rewrite S_INR. lra.
Qed.

Lemma unit_ball_step : forall d,
  compute_vol_unit_sphere (S (S d)) = 2 * PI / INR (S (S d)) * compute_vol_unit_sphere d.
Proof.
  intros d. unfold compute_vol_unit_sphere.
  replace (S (S d) + 2)%nat with (S (S (S (S d)))) by lia.
  replace (d + 2)%nat with (S (S d)) by lia.
  rewrite gamma_half_step.
  replace (INR (S (S d)) / 2) with (INR d / 2 + 1) by (rewrite !S_INR; field).
  rewrite Rpower_plus, Rpower_1 by apply PI_RGT_0.
  destruct (gamma_half_pos2 d) as [_ H]. pose proof (pos_INR d).
  assert (INR (S (S d)) <> 0) by (apply not_0_INR; lia).
  replace (INR d / 2 + 1) with (INR (S (S d)) / 2) by (rewrite !S_INR; field).
  field. split; lra.
Qed.

Lemma unit_ball_spec2 : forall d,
  compute_vol_unit_sphere d = unit_ball_volume d /\
  compute_vol_unit_sphere (S d) = unit_ball_volume (S d).
Proof.
  induction d as [|d [IH1 IH2]].
  - split.
    + unfold compute_vol_unit_sphere. simpl. replace (0 / 2) with 0 by field.
      rewrite Rpower_O by apply PI_RGT_0. field.
    + unfold compute_vol_unit_sphere. simpl. replace (1 / 2) with (/ 2) by field.
      rewrite Rpower_sqrt by apply PI_RGT_0.
      assert (0 < sqrt PI) by (apply sqrt_lt_R0; apply PI_RGT_0). field. lra.
  - split; [exact IH2|]. rewrite unit_ball_step, IH1. reflexivity.
Qed.

Lemma unit_ball_correct : forall d, compute_vol_unit_sphere d = unit_ball_volume d.
Proof. intros. apply unit_ball_spec2. Qed.

Lemma unit_ball_pos : forall d, 0 < compute_vol_unit_sphere d.
Proof.
  intros. unfold compute_vol_unit_sphere. replace (d + 2)%nat with (S (S d)) by lia.
  destruct (gamma_half_pos2 d) as [_ H].
  apply Rmult_lt_0_compat; [apply exp_pos|apply Rinv_0_lt_compat; exact H].
Qed.

Lemma rho_correct : forall c tol dim vol, compute_rho c tol dim vol = ball_measure c tol dim vol.
Proof.
  intros. unfold compute_rho, ball_measure, compute_epsilon_net_radius, alpha_of_tol.
  rewrite unit_ball_correct. destruct tol as [t|]; simpl (_ ^ 2); rewrite ?Rmult_1_r;
  unfold Rdiv; ring.
Qed.

(** * A certified count always exists when rho > 0 *)
Lemma nfb_le : forall rho vc m,
  net_failure_bound rho vc m <= 2 * (2 * INR m + 2) ^ vc * exp (- (rho * ln 2 / 2) * INR m).
Proof.
  intros. unfold net_failure_bound. rewrite <- psum_spec.
  pose proof (psum_le_pow (2 * m) vc) as H. apply IZR_le in H.
  rewrite pow_IZR in H || idtac.
  assert (E : IZR ((Z.of_nat (2 * m) + 2) ^ Z.of_nat vc) = (2 * INR m + 2) ^ vc).
  { rewrite <- pow_IZR. f_equal. rewrite plus_IZR, <- INR_IZR_INZ, mult_INR. simpl. lra. }
  rewrite E in H.
  unfold Rpower. replace (- rho * INR m / 2 * ln 2) with (- (rho * ln 2 / 2) * INR m) by field.
  pose proof (exp_pos (- (rho * ln 2 / 2) * INR m)). nra.
Qed.

Lemma exp_pow : forall n x, exp x ^ n = exp (INR n * x).
Proof.
  induction n as [|n IH]; intros x; simpl pow.
  - simpl. rewrite Rmult_0_l, exp_0. reflexivity.
  - rewrite IH, <- exp_plus. f_equal. rewrite S_INR. ring.
Qed.

Lemma exists_certified : forall rho vc gam, 0 < rho -> 0 < gam ->
  exists m, (2 <= m)%nat /\ net_failure_bound rho vc m <= gam.
Proof.
  intros rho vc gam Hr Hg.
  set (c := rho * ln 2 / 2).
  assert (Hc : 0 < c) by (unfold c; pose proof ln2_pos; nra).
  set (k := S vc). assert (Hk : 0 < INR k) by (apply lt_0_INR; unfold k; lia).
  set (K := 2 * 4 ^ vc * / ((c / INR k) ^ k)).
  assert (Hck : 0 < c / INR k) by (apply Rdiv_lt_0_compat; assumption).
  assert (HK : 0 < K).
  { unfold K. apply Rmult_lt_0_compat; [apply Rmult_lt_0_compat; [lra|apply pow_lt; lra]|].
    apply Rinv_0_lt_compat. apply pow_lt. exact Hck. }
  destruct (archimed (K / gam)) as [Ha _].
  assert (Hq : 0 < K / gam) by (apply Rdiv_lt_0_compat; assumption).
  set (m := (2 + Z.to_nat (up (K / gam)))%nat).
  assert (Hm : K / gam <= INR m).
  { assert (0 < up (K / gam))%Z by (apply lt_IZR; lra).
    unfold m. rewrite plus_INR. rewrite (INR_IZR_INZ (Z.to_nat _)), Z2Nat.id by lia. simpl. lra. }
  assert (Hm2 : 2 <= INR m) by (unfold m; rewrite plus_INR; simpl; pose proof (pos_INR (Z.to_nat (up (K/gam)))); lra).
  exists m. split; [unfold m; lia|].
  eapply Rle_trans; [apply nfb_le|]. fold c.
  (* exp (c m) >= (c m / k)^k *)
  assert (He : (c / INR k * INR m) ^ k <= exp (c * INR m)).
  { replace (c * INR m) with (INR k * (c / INR k * INR m)) by (field; lra).
    rewrite <- exp_pow. apply pow_incr. split; [apply Rmult_le_pos; lra|].
    pose proof (exp_ineq1_le (c / INR k * INR m)). lra. }
  assert (Hpos : 0 < (c / INR k * INR m) ^ k) by (apply pow_lt; apply Rmult_lt_0_compat; lra).
  replace (exp (- c * INR m)) with (/ exp (c * INR m))
    by (rewrite <- exp_Ropp; f_equal; ring).
  apply Rle_trans with (2 * (4 * INR m) ^ vc * / ((c / INR k * INR m) ^ k)).
  { apply Rmult_le_compat.
    - apply Rmult_le_pos; [lra|apply pow_le; lra].
    - left. apply Rinv_0_lt_compat. apply exp_pos.
    - apply Rmult_le_compat_l; [lra|]. apply pow_incr. lra.
    - apply Rinv_le_contravar; assumption. }
  rewrite !Rpow_mult_distr.
  replace (2 * (4 ^ vc * INR m ^ vc) * / ((c / INR k) ^ k * INR m ^ k)) with (K / INR m).
  - apply Rmult_le_reg_r with (INR m); [lra|].
    replace (K / INR m * INR m) with K by (field; lra).
    apply Rmult_le_compat_r with (r := gam) in Hm; [|lra].
    replace (K / gam * gam) with K in Hm by (field; lra). lra.
  - unfold K. replace (INR m ^ k) with (INR m ^ vc * INR m) by (unfold k; simpl; ring).
    assert (0 < (c / INR k) ^ k) by (apply pow_lt; exact Hck).
    assert (0 < INR m ^ vc) by (apply pow_lt; lra).
    field. repeat split; lra.
Qed.

(** * Monotonicity *)
Lemma nfb_mono_rho : forall r1 r2 vc m, r1 <= r2 ->
  net_failure_bound r2 vc m <= net_failure_bound r1 vc m.
Proof.
  intros r1 r2 vc m H. unfold net_failure_bound. rewrite <- psum_spec.
  pose proof (psum_pos_R (2 * m) vc).
  apply Rmult_le_compat_l; [lra|].
  apply Rle_Rpower; [lra|]. pose proof (pos_INR m). nra.
Qed.

Lemma sqrt_1pt2_pos : forall t, 0 < sqrt (1 + t ^ 2).
Proof. intros. apply sqrt_lt_R0. nra. Qed.

Lemma sqrt_1pt2_sqr : forall t, sqrt (1 + t ^ 2) * sqrt (1 + t ^ 2) = 1 + t ^ 2.
Proof. intros. apply sqrt_sqrt. nra. Qed.

Lemma alpha_le_1 : forall t, t / sqrt (1 + t ^ 2) <= 1.
Proof.
  intros t. pose proof (sqrt_1pt2_pos t). pose proof (sqrt_1pt2_sqr t).
  apply Rmult_le_reg_r with (sqrt (1 + t ^ 2)); [assumption|].
  replace (t / sqrt (1 + t ^ 2) * sqrt (1 + t ^ 2)) with t by (field; lra).
  nra.
Qed.

Lemma alpha_nonneg : forall t, 0 <= t -> 0 <= t / sqrt (1 + t ^ 2).
Proof.
  intros t H. apply Rmult_le_pos; [assumption|]. left. apply Rinv_0_lt_compat. apply sqrt_1pt2_pos.
Qed.

Lemma alpha_mono : forall a b, 0 <= a -> a <= b -> a / sqrt (1 + a ^ 2) <= b / sqrt (1 + b ^ 2).
Proof.
  intros a b Ha Hab.
  pose proof (sqrt_1pt2_pos a). pose proof (sqrt_1pt2_pos b).
  pose proof (sqrt_1pt2_sqr a). pose proof (sqrt_1pt2_sqr b).
  set (s := sqrt (1 + a ^ 2)) in *. set (t := sqrt (1 + b ^ 2)) in *.
  apply Rmult_le_reg_r with (s * t); [nra|].
  replace (a / s * (s * t)) with (a * t) by (field; lra).
  replace (b / t * (s * t)) with (b * s) by (field; lra).
  apply Rsqr_incr_0_var; [|nra]. unfold Rsqr.
  replace (a * t * (a * t)) with (a * a * (t * t)) by ring.
  replace (b * s * (b * s)) with (b * b * (s * s)) by ring.
  rewrite H1, H2. nra.
Qed.

Lemma alpha_of_tol_mono : forall t1 t2, tol_easier t1 t2 ->
  0 <= alpha_of_tol t1 <= alpha_of_tol t2.
Proof.
  intros [a|] [b|]; simpl; intros H; try contradiction; try lra.
  - split; [apply (alpha_nonneg a); lra|apply (alpha_mono a b); lra].
  - split; [apply (alpha_nonneg a); lra|apply (alpha_le_1 a)].
Qed.

Lemma rho_mono : forall c1 c2 t1 t2 dim v1 v2,
  0 <= c1 <= c2 -> tol_easier t1 t2 -> 0 < v2 <= v1 ->
  compute_rho c1 t1 dim v1 <= compute_rho c2 t2 dim v2.
Proof.
  intros c1 c2 t1 t2 dim v1 v2 Hc Ht Hv. unfold compute_rho, compute_epsilon_net_radius.
  pose proof (alpha_of_tol_mono _ _ Ht). pose proof (unit_ball_pos dim).
  apply Rmult_le_compat.
  - apply Rmult_le_pos; [lra|]. left. apply Rinv_0_lt_compat. lra.
  - apply pow_le. apply Rmult_le_pos; lra.
  - apply Rmult_le_compat_l; [lra|]. apply Rinv_le_contravar; lra.
  - apply pow_incr. split; [apply Rmult_le_pos; lra|]. apply Rmult_le_compat; lra.
Qed.

(** * compute_numerical_bound *)
Lemma numerical_bound_none : forall c p v dim tol fuel,
  compute_numerical_bound c p v dim tol fuel = None <-> (p <= 0 \/ 1 <= p).
Proof.
  intros. unfold compute_numerical_bound.
  destruct (Rleb p 0 || Rgeb p 1)%bool eqn:E.
  - apply Bool.orb_true_iff in E. rewrite Rleb_true, Rgeb_true in E. tauto.
  - apply Bool.orb_false_iff in E. destruct E as [E1 E2].
    split; [discriminate|]. intros [H|H]; exfalso.
    + apply Rleb_true in H. congruence.
    + apply Rgeb_true in H. congruence.
Qed.

Lemma numerical_bound_some : forall c p v dim tol fuel, 0 < p < 1 ->
  compute_numerical_bound c p v dim tol fuel =
  Some (doubling_sample_search_over_log2_prob_bound
          (fun m => compute_sauer_shelah_bound_log2 m (ball_measure c tol dim v) (dim + 1)) p fuel,
        2 * (alpha_of_tol tol + sqrt (1 - alpha_of_tol tol ^ 2)) * c).
Proof.
  intros. destruct (compute_numerical_bound c p v dim tol fuel) as [q|] eqn:E.
  - unfold compute_numerical_bound in E. destruct (Rleb p 0 || Rgeb p 1)%bool; [discriminate|].
    injection E as <-. rewrite rho_correct. reflexivity.
  - apply numerical_bound_none in E. lra.
Qed.

Lemma numerical_bound_range : forall c p v dim tol fuel q,
  compute_numerical_bound c p v dim tol fuel = Some q -> 0 < p < 1.
Proof.
  intros. destruct (Rle_lt_dec p 0) as [Hp|Hp];
  [assert (E : compute_numerical_bound c p v dim tol fuel = None) by (apply numerical_bound_none; lra); congruence|].
  destruct (Rlt_dec p 1); [lra|].
  assert (E : compute_numerical_bound c p v dim tol fuel = None) by (apply numerical_bound_none; lra). congruence.
Qed.

Lemma numerical_bound_least_proof : forall c p v dim tol fuel z r,
  compute_numerical_bound c p v dim tol fuel = Some (Ret z, r) ->
  let rho := ball_measure c tol dim v in
  exists m, z = Z.of_nat m /\ (2 <= m)%nat /\ (z <= 2 ^ 53)%Z /\
    net_failure_bound rho (dim + 1) m <= 1 - p /\
    forall m', (2 <= m' < m)%nat -> net_failure_bound rho (dim + 1) m' > 1 - p.
Proof.
  intros c p v dim tol fuel z r H rho.
  pose proof (numerical_bound_range _ _ _ _ _ _ _ H) as Hp.
  rewrite numerical_bound_some in H by exact Hp. injection H as H _.
  eapply search_least; eassumption.
Qed.

Lemma numerical_bound_permanent_proof : forall c p v dim tol fuel z r,
  compute_numerical_bound c p v dim tol fuel = Some (Ret z, r) ->
  let B := net_failure_bound (ball_measure c tol dim v) (dim + 1) in
  forall m1 m2, (Z.to_nat z <= m1)%nat -> (m1 <= m2)%nat -> B m1 <= 1 - p /\ B m2 <= B m1.
Proof.
  intros c p v dim tol fuel z r H B m1 m2 H1 H2.
  pose proof (numerical_bound_range _ _ _ _ _ _ _ H) as Hp.
  apply numerical_bound_least_proof in H. destruct H as (m & -> & _ & _ & HB & _).
  rewrite Nat2Z.id in H1.
  assert (B m1 <= 1 - p) by (apply (B_up _ p _ Hp m); assumption).
  split; [assumption|]. apply nfb_permanent; [assumption|]. fold (B m1). lra.
Qed.

Lemma numerical_bound_monotone_proof : forall c1 c2 p1 p2 v1 v2 t1 t2 dim fuel fuel' z1 r1,
  0 <= c1 <= c2 -> 0 < p2 <= p1 -> 0 < v2 <= v1 -> tol_easier t1 t2 -> (1000 <= fuel')%nat ->
  compute_numerical_bound c1 p1 v1 dim t1 fuel = Some (Ret z1, r1) ->
  exists z2 r2, compute_numerical_bound c2 p2 v2 dim t2 fuel' = Some (Ret z2, r2) /\ (z2 <= z1)%Z.
Proof.
  intros c1 c2 p1 p2 v1 v2 t1 t2 dim fuel fuel' z1 r1 Hc Hp Hv Ht Hf H.
  pose proof (numerical_bound_range _ _ _ _ _ _ _ H) as Hp1.
  apply numerical_bound_least_proof in H. destruct H as (m & -> & Hm2 & Hm53 & HB & _).
  assert (Hp2 : 0 < p2 < 1) by lra.
  assert (HB2 : net_failure_bound (ball_measure c2 t2 dim v2) (dim + 1) m <= 1 - p2).
  { pose proof (rho_mono c1 c2 t1 t2 dim v1 v2 Hc Ht Hv) as Hr. rewrite !rho_correct in Hr.
    pose proof (nfb_mono_rho _ _ (dim + 1) m Hr). lra. }
  destruct (search_total (ball_measure c2 t2 dim v2) p2 (dim + 1) Hp2 m Hm53 HB2 fuel' Hf) as [z2 E].
  exists z2. eexists. rewrite numerical_bound_some by exact Hp2. rewrite E. split; [reflexivity|].
  apply search_least in E; [|exact Hp2]. destruct E as (m2 & -> & H2 & _ & _ & Hl).
  destruct (Z_le_gt_dec (Z.of_nat m2) (Z.of_nat m)); [assumption|exfalso].
  specialize (Hl m ltac:(lia)). lra.
Qed.

Lemma numerical_bound_outcomes_proof : forall c p v dim tol fuel,
  0 < p < 1 -> (1000 <= fuel)%nat ->
  let B := net_failure_bound (ball_measure c tol dim v) (dim + 1) in
  let out := option_map fst (compute_numerical_bound c p v dim tol fuel) in
  ((exists m, out = Some (Ret m)) <-> exists m, (Z.of_nat m <= 2 ^ 53)%Z /\ B m <= 1 - p) /\
  (out = Some ErrOverflow <-> B (Z.to_nat (2 ^ 996)) > 1 - p) /\
  (out <> Some ErrArith).
Proof.
  intros c p v dim tol fuel Hp Hf B out.
  unfold out. rewrite numerical_bound_some by exact Hp. simpl option_map.
  split; [|split].
  - split.
    + intros [z H]. injection H as H. apply search_least in H; [|exact Hp].
      destruct H as (m & -> & _ & H53 & HB & _). exists m. split; assumption.
    + intros (m & Hm & HB). destruct (search_total _ _ _ Hp m Hm HB fuel Hf) as [z E].
      exists z. rewrite E. reflexivity.
  - unfold B. rewrite <- (search_overflow_bound (ball_measure c tol dim v) p (dim + 1) Hp fuel Hf).
    split; [intros [= H]; exact H|intros ->; reflexivity].
  - intros [= H]. revert H. apply search_no_arith.
Qed.

Lemma numerical_bound_diverges_proof : forall c p v dim tol,
  0 < p < 1 ->
  let B := net_failure_bound (ball_measure c tol dim v) (dim + 1) in
  B (Z.to_nat (2 ^ 53)) > 1 - p -> B (Z.to_nat (2 ^ 996)) <= 1 - p ->
  forall fuel, option_map fst (compute_numerical_bound c p v dim tol fuel) = Some OutOfFuel.
Proof.
  intros c p v dim tol Hp B H1 H2 fuel. rewrite numerical_bound_some by exact Hp. simpl.
  f_equal. apply search_diverges_bound; assumption.
Qed.

(** zero clearance (or zero stretch): no number of samples is enough *)
Lemma nfb_rho_nonpos : forall rho vc m, rho <= 0 -> 2 <= net_failure_bound rho vc m.
Proof.
  intros rho vc m H. unfold net_failure_bound. rewrite <- psum_spec.
  assert (1 <= IZR (psum (2 * m) vc)) by (apply IZR_le; apply psum_pos).
  assert (1 <= Rpower 2 (- rho * INR m / 2)).
  { rewrite <- (Rpower_O 2) at 1 by lra. apply Rle_Rpower; [lra|]. pose proof (pos_INR m). nra. }
  nra.
Qed.

(** * Connection radius *)
Lemma alpha_compl : forall t,
  sqrt (1 - (t / sqrt (1 + t ^ 2)) ^ 2) = 1 / sqrt (1 + t ^ 2).
Proof.
  intros t. pose proof (sqrt_1pt2_pos t). pose proof (sqrt_1pt2_sqr t).
  set (s := sqrt (1 + t ^ 2)) in *.
  replace (1 - (t / s) ^ 2) with ((1 / s) * (1 / s)).
  - apply sqrt_square. left. apply Rdiv_lt_0_compat; lra.
  - assert (E : (t / s) ^ 2 = (s * s - 1) * (/ s * / s)) by (rewrite H0; field; lra).
    rewrite E. field. lra.
Qed.

Lemma conn_radius_agree : forall c p v dim t fuel s r,
  compute_numerical_bound c p v dim (Some t) fuel = Some (s, r) ->
  r = compute_connection_radius c t.
Proof.
  intros c p v dim t fuel s r H.
  pose proof (numerical_bound_range _ _ _ _ _ _ _ H) as Hp.
  rewrite numerical_bound_some in H by exact Hp.
  assert (E : r = 2 * (alpha_of_tol (Some t) + sqrt (1 - alpha_of_tol (Some t) ^ 2)) * c)
    by congruence. rewrite E.
  unfold alpha_of_tol. rewrite alpha_compl. unfold compute_connection_radius.
  pose proof (sqrt_1pt2_pos t). field. lra.
Qed.

Lemma conn_radius_none : forall c p v dim fuel s r,
  compute_numerical_bound c p v dim None fuel = Some (s, r) -> r = 2 * c.
Proof.
  intros c p v dim fuel s r H.
  pose proof (numerical_bound_range _ _ _ _ _ _ _ H) as Hp.
  rewrite numerical_bound_some in H by exact Hp.
  assert (E : r = 2 * (alpha_of_tol None + sqrt (1 - alpha_of_tol None ^ 2)) * c) by congruence.
  rewrite E. unfold alpha_of_tol. replace (1 - 1 ^ 2) with 0 by ring. rewrite sqrt_0. ring.
Qed.

Lemma conn_radius_range : forall c t, 0 <= c -> 0 <= t ->
  2 * c <= compute_connection_radius c t <= 2 * sqrt 2 * c.
Proof.
  intros c t Hc Ht. unfold compute_connection_radius.
  pose proof (sqrt_1pt2_pos t) as Hs. pose proof (sqrt_1pt2_sqr t) as Hq.
  set (s := sqrt (1 + t ^ 2)) in *.
  assert (H2 : 0 < sqrt 2) by (apply sqrt_lt_R0; lra).
  assert (H22 : sqrt 2 * sqrt 2 = 2) by (apply sqrt_sqrt; lra).
  assert (A : s <= t + 1) by (apply Rsqr_incr_0_var; [unfold Rsqr; rewrite Hq; simpl; lra|lra]).
  assert (B : t + 1 <= sqrt 2 * s).
  { apply Rsqr_incr_0_var; [|nra]. unfold Rsqr.
    replace (sqrt 2 * s * (sqrt 2 * s)) with (sqrt 2 * sqrt 2 * (s * s)) by ring.
    rewrite H22, Hq. pose proof (Rle_0_sqr (t - 1)) as Hsq. unfold Rsqr in Hsq. simpl. lra. }
  replace (2 * c * (t + 1) / s) with (2 * c * ((t + 1) / s)) by (field; lra).
  assert (1 <= (t + 1) / s).
  { apply Rmult_le_reg_r with s; [lra|]. replace ((t + 1) / s * s) with (t + 1) by (field; lra). lra. }
  assert ((t + 1) / s <= sqrt 2).
  { apply Rmult_le_reg_r with s; [lra|]. replace ((t + 1) / s * s) with (t + 1) by (field; lra). lra. }
  nra.
Qed.

Lemma net_radius_le_clearance : forall c tol, 0 <= c -> compute_epsilon_net_radius c tol <= c.
Proof.
  intros c [t|] Hc; unfold compute_epsilon_net_radius, alpha_of_tol.
  - pose proof (alpha_le_1 t). nra.
  - lra.
Qed.

(** * Net radius from a failure probability *)
Lemma psum_ge_2 : forall m vc, (1 <= m)%nat -> (1 <= vc)%nat -> (2 <= psum (2 * m) vc)%Z.
Proof.
  intros m vc Hm Hv. destruct vc as [|vc]; [lia|]. induction vc as [|vc IH].
  - rewrite psum_S, psum_0.
    assert (E : forall n, comb n 1 = Z.of_nat n).
    { induction n; [reflexivity|]. change (comb (S n) 1) with (comb n 0 + comb n 1)%Z.
      rewrite comb_0_r, IHn. lia. }
    rewrite E. lia.
  - rewrite psum_S. specialize (IH ltac:(lia)). pose proof (comb_nonneg (2 * m) (S (S vc))). lia.
Qed.

Lemma net_radius_twice_proof : forall dim n failure_prob vol,
  (1 <= dim)%nat -> (1 <= n)%nat -> 0 < failure_prob < 2 -> 0 < vol ->
  let r := compute_net_radius_from_prob dim (Z.of_nat n) failure_prob vol in
  net_failure_bound (unit_ball_volume dim * r ^ dim / vol) (dim + 1) n = 2 * failure_prob.
Proof.
  intros dim n fp vol Hd Hn Hfp Hv r.
  assert (Hn0 : 0 < INR n) by (apply lt_0_INR; lia).
  assert (Hdim : 0 < INR dim) by (apply lt_0_INR; lia).
  pose proof (unit_ball_pos dim) as HU.
  assert (HS : 2 <= IZR (psum (2 * n) (dim + 1))) by (apply IZR_le; apply psum_ge_2; lia).
  set (S2 := IZR (psum (2 * n) (dim + 1))) in *.
  assert (Hlog : 0 < log2R S2 - log2R fp).
  { pose proof (log2R_lt fp 2 ltac:(lra) ltac:(lra)). pose proof (log2R_le 2 S2 ltac:(lra) HS). lra. }
  set (base := 2 / INR n / (compute_vol_unit_sphere dim / vol) * (log2R S2 - log2R fp)).
  assert (Hbase : 0 < base).
  { unfold base. apply Rmult_lt_0_compat; [|assumption].
    apply Rdiv_lt_0_compat; apply Rdiv_lt_0_compat; lra. }
  assert (Er : r = Rpower base (1 / INR dim)).
  { unfold r, compute_net_radius_from_prob. rewrite ss_psum, <- INR_IZR_INZ. reflexivity. }
  assert (Erd : r ^ dim = base).
  { rewrite <- Rpower_pow by (rewrite Er; apply exp_pos). rewrite Er, Rpower_mult.
    replace (1 / INR dim * INR dim) with 1 by (field; lra). apply Rpower_1; exact Hbase. }
  rewrite Erd, <- unit_ball_correct.
  replace (compute_vol_unit_sphere dim * base / vol) with (2 / INR n * (log2R S2 - log2R fp))
    by (unfold base; field; repeat split; lra).
  unfold net_failure_bound. rewrite <- psum_spec. fold S2.
  replace (- (2 / INR n * (log2R S2 - log2R fp)) * INR n / 2) with (log2R fp - log2R S2) by (field; lra).
  unfold Rminus. rewrite Rpower_plus, Rpower_Ropp.
  assert (P : forall x, 0 < x -> Rpower 2 (log2R x) = x).
  { intros x Hx. unfold Rpower, log2R. pose proof ln2_pos.
    replace (ln x / ln 2 * ln 2) with (ln x) by (field; lra). apply exp_ln; assumption. }
  rewrite !P by lra. field. lra.
Qed.
