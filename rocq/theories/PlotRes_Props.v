(** C173 (the theoretical probabilities of plot_results.ipynb) *)
From Coq Require Import ZArith Reals Bool Lra Lia Psatz.
From Verif Require Import Bound_Model Bound_Spec Bound_Proofs Bound_Proofs2 Bound_Proofs3 Notebook_Spec Notebook_Proofs NarrowTab_Props PlotRes_Model.
Open Scope R_scope.

(** ** The ball *)
(** the volume of the box around the line: length 1 with [delta] on every side *)
Definition box_volume (delta : R) (dim : nat) : R := (1 + 2 * delta) * (2 * delta) ^ (dim - 1).
Lemma root_pos x : 0 < sqrt (1 + x * x).
Proof. apply sqrt_lt_R0. nra. Qed.
(** The measure taken for the ball of the (delta, epsilon) theorem is its measure times a power of the quotient of
    sqrt (1 + epsilon^2) by sqrt (1 + delta^2). *)
Theorem rho_factor : forall eps delta dim, 0 < delta ->
  rho eps delta dim = ball_measure delta (Some eps) dim (box_volume delta dim) * (sqrt (1 + eps * eps) / sqrt (1 + delta * delta)) ^ dim.
Proof.
  intros eps delta dim Hd. unfold rho, measure_unit_ball, ball_measure, box_volume. rewrite unit_ball_correct. pose proof (root_pos eps) as E. pose proof (root_pos delta) as D.
  replace (delta ^ 2) with (delta * delta) by ring. replace (eps * delta / sqrt (1 + delta * delta)) with ((eps / sqrt (1 + eps * eps) * delta) * (sqrt (1 + eps * eps) / sqrt (1 + delta * delta))) by (field; lra).
  assert (X : 0 < (2 * delta) ^ (dim - 1)) by (apply pow_lt; lra). set (x := (2 * delta) ^ (dim - 1)) in *. rewrite (Rpow_mult_distr (eps / sqrt (1 + eps * eps) * delta)). field. repeat split; lra.
Qed.
Print Assumptions rho_factor.
(** It is that measure exactly when the tolerance equals the clearance, too large when the tolerance is larger and too
    small when it is smaller. *)
Theorem rho_against_ball : forall eps delta dim, 0 < eps -> 0 < delta -> (1 <= dim)%nat ->
  (delta < eps -> ball_measure delta (Some eps) dim (box_volume delta dim) < rho eps delta dim) /\
  (eps < delta -> rho eps delta dim < ball_measure delta (Some eps) dim (box_volume delta dim)) /\
  (eps = delta -> rho eps delta dim = ball_measure delta (Some eps) dim (box_volume delta dim)).
Proof.
  intros eps delta dim He Hd Hn. pose proof (rho_factor eps delta dim Hd) as F. pose proof (root_pos eps) as E. pose proof (root_pos delta) as D.
  assert (M : 0 < ball_measure delta (Some eps) dim (box_volume delta dim)).
  { unfold ball_measure, box_volume. apply Rdiv_lt_0_compat; [|apply Rmult_lt_0_compat; [lra|apply pow_lt; lra]]. apply Rmult_lt_0_compat; [rewrite <- unit_ball_correct; apply Bound_Proofs2.unit_ball_pos|]. apply pow_lt.
    apply Rmult_lt_0_compat; [|assumption]. apply Rdiv_lt_0_compat; assumption. }
  set (m := ball_measure delta (Some eps) dim (box_volume delta dim)) in *. set (q := sqrt (1 + eps * eps) / sqrt (1 + delta * delta)) in *.
  assert (Q : 0 < q) by (apply Rdiv_lt_0_compat; assumption).
  assert (Pgt : forall a, 1 < a -> 1 < a ^ dim). { intros a Ha. destruct dim as [|n]; [lia|]. simpl. assert (1 <= a ^ n) by (apply pow_R1_Rle; lra). nra. }
  split; [|split].
  - intro L. rewrite F. assert (1 < q). { unfold q. apply Rmult_lt_reg_r with (sqrt (1 + delta * delta)); [assumption|]. unfold Rdiv. rewrite Rmult_assoc, Rinv_l, Rmult_1_r, Rmult_1_l by lra. apply sqrt_lt_1; nra. }
    specialize (Pgt q H). nra.
  - intro L. rewrite F. assert (H : 1 < / q). { unfold q. rewrite Rinv_div. apply Rmult_lt_reg_r with (sqrt (1 + eps * eps)); [assumption|]. unfold Rdiv. rewrite Rmult_assoc, Rinv_l, Rmult_1_r, Rmult_1_l by lra. apply sqrt_lt_1; nra. }
    specialize (Pgt (/ q) H). rewrite pow_inv in Pgt. assert (0 < q ^ dim) by now apply pow_lt. assert (q ^ dim < 1). { apply Rmult_lt_reg_r with (/ q ^ dim); [now apply Rinv_0_lt_compat|]. rewrite Rinv_r by lra. lra. } nra.
  - intros ->. rewrite F. unfold q. replace (sqrt (1 + delta * delta) / sqrt (1 + delta * delta)) with 1 by (field; lra). rewrite pow1. ring.
Qed.
Print Assumptions rho_against_ball.
Theorem rho_refuted : exists eps delta dim, 0 < eps <= 1 /\ 0 < delta <= 1 / 2 /\ (2 <= dim)%nat /\ ball_measure delta (Some eps) dim (box_volume delta dim) < rho eps delta dim.
Proof. exists 1, (1 / 2), 2%nat. do 2 (split; [lra|]). split; [lia|]. apply rho_against_ball; lra || lia. Qed.
Print Assumptions rho_refuted.

(** ** The probability *)
Lemma regime n dim r : not_in_gamma_regime n dim r = false <-> 8 * (INR dim + 1) / r * ln (13 / r) <= INR n.
Proof. unfold not_in_gamma_regime. destruct (Rlt_dec _ _); split; intro; try discriminate; try reflexivity; lra. Qed.
(** A number is shown exactly from 8 (dim + 1) / rho ln (13 / rho) samples on; it is 1 - 2 exp (- n rho / 4), lies
    strictly between 1 - 2 (rho / 13)^(2 (dim + 1)) or is equal to it, and 1, and grows with the number of samples. *)
Theorem shown_value : forall n dim r v, 0 < r <= 1 -> th_prob n dim r = Some v ->
  8 * (INR dim + 1) / r * ln (13 / r) <= INR n /\ v = 1 - 2 * exp (- INR n * r / 4) /\ 1 - 2 * (r / 13) ^ (2 * (dim + 1)) <= v < 1 /\ 0 < v /\
  forall m, (n < m)%nat -> exists w, th_prob m dim r = Some w /\ v < w.
Proof.
  intros n dim r v Hr H. unfold th_prob in H. destruct (not_in_gamma_regime n dim r) eqn:G; [discriminate|]. injection H as <-. apply regime in G. pose proof G as G0.
  assert (E : INR n * r / 4 >= INR (2 * (dim + 1)) * ln (13 / r)).
  { rewrite mult_INR, plus_INR. simpl INR. apply Rmult_le_compat_r with (r := r) in G; [|lra]. replace (8 * (INR dim + 1) / r * ln (13 / r) * r) with (8 * (INR dim + 1) * ln (13 / r)) in G by (field; lra). lra. }
  assert (P : exp (- INR n * r / 4) <= (r / 13) ^ (2 * (dim + 1))).
  { assert (0 < r / 13) by (apply Rdiv_lt_0_compat; lra). rewrite <- Rpower_pow by assumption. unfold Rpower.
    assert (L : ln (r / 13) = - ln (13 / r)) by (rewrite <- ln_Rinv by (apply Rdiv_lt_0_compat; lra); f_equal; field; lra). rewrite L.
    destruct (Rle_lt_or_eq_dec (- INR n * r / 4) (INR (2 * (dim + 1)) * - ln (13 / r)) ltac:(lra)) as [N|N]; [left; now apply exp_increasing|rewrite N; lra]. }
  pose proof (exp_pos (- INR n * r / 4)). assert (S : (r / 13) ^ (2 * (dim + 1)) <= (1 / 13) ^ 2).
  { apply Rle_trans with ((1 / 13) ^ (2 * (dim + 1))); [apply pow_incr; split; [apply Rmult_le_pos; lra|apply Rmult_le_compat_r; lra]|].
    replace (2 * (dim + 1))%nat with (2 + 2 * dim)%nat by lia. rewrite pow_add. assert ((1 / 13) ^ (2 * dim) <= 1) by (apply Rle_trans with (1 ^ (2 * dim)); [apply pow_incr; lra|rewrite pow1; lra]). assert (0 <= (1 / 13) ^ 2) by nra. nra. }
  split; [exact G|]. split; [reflexivity|]. split; [lra|]. split; [assert ((1 / 13) ^ 2 <= 1 / 100) by lra; lra|]. intros m Hm. assert (M : INR n < INR m) by now apply lt_INR.
  exists (1 - 2 * exp (- INR m * r / 4)). split.
  - unfold th_prob. replace (not_in_gamma_regime m dim r) with false; [reflexivity|]. symmetry. apply regime. lra.
  - assert (exp (- INR m * r / 4) < exp (- INR n * r / 4)) by (apply exp_increasing; nra). lra.
Qed.
Print Assumptions shown_value.
(** What the theorem gives: 1 minus the bound on the chance of missing a ball of measure rho.  The number shown may
    exceed it: logarithms to base e stand where those to base 2 belong. *)
Definition guaranteed (n dim : nat) (r : R) : R := 1 - net_failure_bound r (dim + 1) n.
Lemma exp_1_ge : 26 / 10 <= exp 1.
Proof.
  assert (A : 17 / 16 <= exp (1 / 16)) by (pose proof (exp_ineq1_le (1 / 16)); lra). replace 1 with (INR 16 * (1 / 16)) by (simpl; lra).
  rewrite <- (ln_exp (1 / 16)). change (26 / 10 <= Rpower (exp (1 / 16)) (INR 16)). rewrite Rpower_pow by apply exp_pos.
  apply Rle_trans with ((17 / 16) ^ 16); [lra|]. apply pow_incr. lra.
Qed.
Lemma exp_nat n : exp (INR n) = exp 1 ^ n.
Proof. rewrite <- Rpower_pow by apply exp_pos. unfold Rpower. rewrite ln_exp, Rmult_1_r. reflexivity. Qed.
Lemma guaranteed_mono n dim r1 r2 : r1 <= r2 -> guaranteed n dim r1 <= guaranteed n dim r2.
Proof.
  intro H. unfold guaranteed, net_failure_bound. rewrite <- !psum_spec. pose proof (psum_pos_R (2 * n) (dim + 1)) as S. pose proof (pos_INR n).
  assert (R : Rpower 2 (- r2 * INR n / 2) <= Rpower 2 (- r1 * INR n / 2)) by (apply Rle_Rpower; [lra|nra]).
  assert (2 * IZR (psum (2 * n) (dim + 1)) * Rpower 2 (- r2 * INR n / 2) <= 2 * IZR (psum (2 * n) (dim + 1)) * Rpower 2 (- r1 * INR n / 2)) by (apply Rmult_le_compat_l; lra). lra.
Qed.
(** at measure one half and 168 samples of the plane already the natural logarithms make the difference *)
Example shown_half : th_prob 168 2 (1 / 2) = Some (1 - 2 * exp (- 21)) /\ guaranteed 168 2 (1 / 2) < 1 - 2 * exp (- 21).
Proof.
  split.
  - unfold th_prob. replace (not_in_gamma_regime 168 2 (1 / 2)) with false; [do 4 f_equal; rewrite INR_IZR_INZ; simpl Z.of_nat; lra|]. symmetry. apply regime. rewrite INR_IZR_INZ. simpl Z.of_nat. simpl INR.
    replace (13 / (1 / 2)) with 26 by field. assert (ln 26 <= 7 / 2); [|lra]. assert (ln (26 ^ 2) <= 7); [|rewrite ln_pow in H by lra; simpl INR in H; lra].
    rewrite <- (ln_exp 7). left. apply ln_increasing; [lra|]. replace 7 with (INR 7) by (simpl; lra). rewrite exp_nat.
    apply Rlt_le_trans with ((26 / 10) ^ 7); [lra|]. apply pow_incr. pose proof exp_1_ge. lra.
  - unfold guaranteed, net_failure_bound. rewrite <- psum_spec. assert (S : (2 ^ 21 < psum (2 * 168) (2 + 1))%Z) by (pose proof (psum_3 (2 * 168)) as P; simpl Z.of_nat in P; simpl Nat.add; lia). apply IZR_lt in S.
    replace (- (1 / 2) * INR 168 / 2) with (- (42)) by (rewrite INR_IZR_INZ; simpl Z.of_nat; lra).
    assert (E : exp (-21) <= / 2 ^ 21). { replace (-21) with (- INR 21) by (simpl; lra). rewrite exp_Ropp, exp_nat. apply Rinv_le_contravar; [lra|]. apply pow_incr. pose proof exp_1_ge. lra. }
    assert (P : Rpower 2 (- (42)) = / 2 ^ 42). { rewrite Rpower_Ropp. f_equal. replace 42 with (INR 42) by (rewrite INR_IZR_INZ; reflexivity). apply Rpower_pow. lra. }
    rewrite P. replace (IZR (2 ^ 21)) with (2 ^ 21) in S by (rewrite (pow_IZR 2 21); reflexivity). lra.
Qed.
(** Even with the right ball the number shown is refuted; with the ball of the notebook all the more. *)
Theorem shown_refuted : exists eps delta dim n v, 0 < delta /\ 0 < eps /\ (2 <= dim)%nat /\ th_prob_ed_complete eps delta dim n = Some v /\
  guaranteed n dim (rho eps delta dim) < v /\ guaranteed n dim (ball_measure delta (Some eps) dim (box_volume delta dim)) < v.
Proof.
  set (eps := sqrt (375 / 72 / PI)). assert (Pi : 0 < 375 / 72 / PI) by (apply Rdiv_lt_0_compat; [lra|apply PI_RGT_0]).
  assert (E2 : eps * eps = 375 / 72 / PI) by (apply sqrt_sqrt; lra). assert (E : 3 / 4 < eps).
  { unfold eps. rewrite <- (sqrt_square (3 / 4)) by lra. apply sqrt_lt_1; [lra|lra|]. pose proof PI_4. pose proof PI_RGT_0. apply Rlt_le_trans with (375 / 72 / 4); [lra|]. unfold Rdiv. apply Rmult_le_compat_l; [lra|]. apply Rinv_le_contravar; assumption. }
  assert (H : rho eps (3 / 4) 2 = 1 / 2).
  { unfold rho, measure_unit_ball. rewrite unit_ball_correct. cbn [unit_ball_volume]. replace (1 + (3 / 4) ^ 2) with ((5 / 4) * (5 / 4)) by field. rewrite sqrt_square by lra. pose proof PI_RGT_0.
    replace (eps * (3 / 4) / (5 / 4)) with (3 / 5 * eps) by field. rewrite (Rpow_mult_distr (3 / 5)). replace (eps ^ 2) with (375 / 72 / PI) by (rewrite <- E2; ring). change (INR 2) with (1 + 1). change (2 - 1)%nat with 1%nat. 
    field. lra. }
  destruct shown_half as (A & B). exists eps, (3 / 4), 2%nat, 168%nat, (1 - 2 * exp (- 21)). split; [lra|]. split; [lra|]. split; [lia|]. unfold th_prob_ed_complete. rewrite H. split; [exact A|]. split; [exact B|].
  eapply Rle_lt_trans; [apply guaranteed_mono|exact B]. rewrite <- H. left. apply rho_against_ball; lra || lia.
Qed.
Print Assumptions shown_refuted.
(** With the logarithms to base 2 both the condition and the number would be right. *)
Theorem base2_guaranteed : forall n dim r, 0 < r <= 1 -> 8 * (INR dim + 1) / r * (ln (13 / r) / ln 2) <= INR n -> 1 - 2 * Rpower 2 (- INR n * r / 4) <= guaranteed n dim r.
Proof.
  intros n dim r Hr H. unfold guaranteed. assert (B : net_failure_bound r (dim + 1) n <= 2 * Rpower 2 (- INR n * r / 4)); [|lra].
  assert (P : 0 < Rpower 2 (- INR n * r / 4)) by apply exp_pos. apply blumer_enough; [assumption|lia|lra|]. unfold blumer. apply Rmax_lub.
  - unfold lg. replace (2 / (2 * Rpower 2 (- INR n * r / 4))) with (/ Rpower 2 (- INR n * r / 4)) by (field; lra). rewrite ln_Rinv by assumption. unfold Rpower. rewrite ln_exp. pose proof ln2_pos.
    right. field. lra.
  - unfold lg. rewrite plus_INR. simpl INR. lra.
Qed.
Print Assumptions base2_guaranteed.
(** Far enough out the number shown is guaranteed. *)
Theorem shown_eventually : forall dim r, 0 < r <= 1 -> exists N, forall n v, (N <= n)%nat -> th_prob n dim r = Some v -> v <= guaranteed n dim r.
Proof.
  intros dim r Hr. assert (L2 : 1 / 2 < ln 2).
  { assert (1 < ln (2 ^ 2)); [|rewrite ln_pow in H by lra; simpl INR in H; lra]. rewrite <- (ln_exp 1). apply ln_increasing; [apply exp_pos|]. pose proof exp_le_3. lra. }
  set (k := (dim + 1)%nat). set (c := r * (ln 2 / 2 - 1 / 4)). assert (C : 0 < c) by (apply Rmult_lt_0_compat; lra). set (b := c / INR (S k)).
  assert (K : 0 < INR (S k)) by (apply lt_0_INR; lia). assert (B : 0 < b) by (apply Rdiv_lt_0_compat; assumption). assert (Bk : 0 < b ^ S k) by now apply pow_lt.
  assert (F : 0 < 4 ^ k / b ^ S k) by (apply Rdiv_lt_0_compat; [apply pow_lt; lra|assumption]). destruct (nat_above (4 ^ k / b ^ S k) ltac:(lra)) as (N & HN & _).
  exists (S N). intros n v Hn H. unfold th_prob in H. destruct (not_in_gamma_regime n dim r); [discriminate|]. injection H as <-. unfold guaranteed, net_failure_bound. rewrite <- psum_spec. fold k.
  assert (N1 : 1 <= INR n) by (change 1 with (INR 1); apply le_INR; lia). assert (N2 : INR N <= INR n) by (apply le_INR; lia).
  assert (S1 : IZR (psum (2 * n) k) <= (4 * INR n) ^ k).
  { pose proof (psum_le_pow (2 * n) k) as P. apply IZR_le in P. rewrite <- pow_IZR, plus_IZR, <- INR_IZR_INZ, mult_INR in P. simpl INR in P at 1. eapply Rle_trans; [exact P|]. apply pow_incr. lra. }
  assert (S2 : (4 * INR n) ^ k <= (b * INR n) ^ S k).
  { rewrite !Rpow_mult_distr. change (INR n ^ S k) with (INR n * INR n ^ k). assert (0 < INR n ^ k) by (apply pow_lt; lra). rewrite <- Rmult_assoc. apply Rmult_le_compat_r; [lra|].
    apply Rle_trans with (b ^ S k * (4 ^ k / b ^ S k)); [right; field; lra|apply Rmult_le_compat_l; lra]. }
  assert (S3 : (b * INR n) ^ S k <= exp (c * INR n)).
  { replace (c * INR n) with (INR (S k) * (b * INR n)) by (unfold b; field; lra). rewrite <- (ln_exp (b * INR n)) at 2. change (exp (INR (S k) * ln (exp (b * INR n)))) with (Rpower (exp (b * INR n)) (INR (S k))). rewrite Rpower_pow by apply exp_pos.
    apply pow_incr. split; [apply Rmult_le_pos; lra|]. pose proof (exp_ineq1_le (b * INR n)). lra. }
  assert (S4 : exp (c * INR n) * Rpower 2 (- r * INR n / 2) = exp (- INR n * r / 4)). { unfold Rpower. rewrite <- exp_plus. f_equal. unfold c. field. }
  rewrite <- S4. assert (0 < Rpower 2 (- r * INR n / 2)) by apply exp_pos.
  assert (IZR (psum (2 * n) k) * Rpower 2 (- r * INR n / 2) <= exp (c * INR n) * Rpower 2 (- r * INR n / 2)) by (apply Rmult_le_compat_r; lra). lra.
Qed.
Print Assumptions shown_eventually.
