(** Proofs about Notebook_Model.v: the natural logarithm, and the comparison with Halton points *)
From Coq Require Import ZArith Reals List Bool Lra Lia.
From Verif Require Import Search_Model Search_Proofs Bound_Model Bound_Spec Bound_Proofs Bound_Proofs2 Bound_Proofs3 Notebook_Spec Notebook_Model Notebook_Proofs.
Import ListNotations.
Open Scope R_scope.

(** * The natural logarithm *)
(** math.pi *)
Definition math_pi : R := 884279719003555 / 281474976710656.
Lemma math_pi_bounds : 31415 / 10000 < math_pi < 31416 / 10000.
Proof. unfold math_pi. lra. Qed.
Definition tiny : R := / 2 ^ 33.

Lemma psum_270 : (2 ^ 21 <= psum 270 3)%Z.
Proof. apply Z.leb_le. vm_compute. reflexivity. Qed.
Lemma Rpower_2_neg : forall x n, x <= INR n -> / 2 ^ n <= Rpower 2 (- x).
Proof.
  intros x n H. rewrite <- Rpower_pow by lra. rewrite <- Rpower_Ropp. apply Rle_Rpower; lra.
Qed.
Lemma tiny_135 : tiny < net_failure_bound (math_pi / 4) 3 135.
Proof.
  unfold net_failure_bound. rewrite <- psum_spec. change (2 * 135)%nat with 270%nat.
  pose proof psum_270 as H. apply IZR_le in H. change (2 ^ 21)%Z with (2 ^ Z.of_nat 21)%Z in H. rewrite <- (pow_IZR 2 21) in H.
  pose proof math_pi_bounds.
  assert (P : / 2 ^ 54 <= Rpower 2 (- (math_pi / 4) * INR 135 / 2)).
  { replace (- (math_pi / 4) * INR 135 / 2) with (- (math_pi / 4 * INR 135 / 2)) by field.
    apply Rpower_2_neg. rewrite !INR_IZR_INZ. simpl (Z.of_nat _). lra. }
  apply Rlt_le_trans with (2 * 2 ^ 21 * / 2 ^ 54); [unfold tiny; lra|].
  apply Rmult_le_compat; try lra.
Qed.
Lemma tiny_blumer : blumer_bound_decimal math_pi tiny < 131.
Proof.
  pose proof math_pi_bounds as HP. pose proof ln2_upper as H2.
  unfold blumer_bound_decimal, volume_half_rad_ball, tiny.
  assert (E : ln (2 / / 2 ^ 33) = 34 * ln 2).
  { unfold Rdiv. rewrite Rinv_inv. replace (2 * 2 ^ 33) with (2 ^ 34) by lra.
    rewrite <- Rpower_pow by lra. unfold Rpower. rewrite ln_exp. rewrite INR_IZR_INZ. reflexivity. }
  assert (L : ln (13 / (math_pi / 4)) < 3).
  { rewrite <- (ln_exp 3). apply ln_increasing.
    - apply Rdiv_lt_0_compat; lra.
    - apply Rlt_trans with (1656 / 100); [|apply exp3_big].
      apply Rmult_lt_reg_r with (math_pi / 4); [lra|]. unfold Rdiv at 1. rewrite Rmult_assoc, Rinv_l by lra. lra. }
  assert (I : / (math_pi / 4) < 128 / 100).
  { rewrite <- (Rinv_inv (128 / 100)). apply Rinv_lt_contravar; [|lra].
    apply Rmult_lt_0_compat; lra. }
  assert (I0 : 0 < / (math_pi / 4)) by (apply Rinv_0_lt_compat; lra).
  rewrite E. apply Rmax_lub_lt; unfold Rdiv at 1.
  - apply Rle_lt_trans with (4 * / (math_pi / 4) * (34 * (3 / 4))); [apply Rmult_le_compat_l; lra|]. lra.
  - apply Rlt_trans with (8 * 3 * / (math_pi / 4) * 3); [apply Rmult_lt_compat_l; lra|]. lra.
Qed.
Lemma pow2_53 : 2 ^ 53 = 9007199254740992.
Proof. lra. Qed.
Lemma tiny_search : exists z, doubling_sample_search_over_ln_prob_bound_decimal (compute_sauer_shelah_bound_d2_ln_decimal math_pi) tiny 1000 = Ret z /\
  least_count (math_pi / 4) 3 tiny z /\ (136 <= z)%Z.
Proof.
  pose proof math_pi_bounds as HP.
  assert (HT : 0 < tiny < 2) by (unfold tiny; split; [apply Rinv_0_lt_compat; apply pow_lt; lra|lra]).
  destruct (search_if_blumer (math_pi / 4) tiny 3 ltac:(lra) ltac:(lia) HT) with (fuel := 1000%nat) as (z & Ez & Hz); [|lia|].
  - eapply Rle_trans; [apply (blumer_upper _ _ _ (1 / 2) tiny 34); try lra|].
    + unfold tiny, Rdiv. rewrite Rinv_inv. lra.
    + rewrite pow2_53, !INR_IZR_INZ. simpl (Z.of_nat _). lra.
  - exists z. split; [rewrite dec_search; apply d_sim; exact Ez|]. split; [exact Hz|].
    destruct Hz as (m & -> & Hm & HB & _).
    destruct (Nat.le_gt_cases m 135) as [G|G]; [exfalso|lia].
    pose proof (nfb_permanent (math_pi / 4) 3 m 135 G ltac:(lra)). pose proof tiny_135. lra.
Qed.
Lemma natural_log_factor_proof : forall pi gam, blumer_bound_decimal pi gam = ln 2 * blumer (pi / 4) gam 3.
Proof.
  intros. unfold blumer_bound_decimal, blumer, volume_half_rad_ball, lg. pose proof ln2_pos.
  rewrite <- RmaxRmult by lra. f_equal; unfold Rdiv.
  - generalize (ln (2 * / gam)) (/ (pi * / 4)). intros. field. lra.
  - replace (INR 3) with 3 by (simpl; ring). generalize (ln (13 * / (pi * / 4))) (/ (pi * / 4)). intros. field. lra.
Qed.

(** * Halton points *)
Lemma halton_constant_5 : halton_constant = 5.
Proof. unfold halton_constant. replace (2 ^ 4 + 3 ^ 2) with (5 * 5) by ring. apply sqrt_square. lra. Qed.
Lemma INR_1000 : INR n_curve_points = 1000.
Proof. unfold n_curve_points. rewrite INR_IZR_INZ. reflexivity. Qed.
Lemma INR_999 : INR (n_curve_points - 1) = 999.
Proof. unfold n_curve_points. rewrite INR_IZR_INZ. reflexivity. Qed.
Lemma halton_n_range : forall i, (i <= 1000)%nat -> 6 <= halton_n_samples i <= 10 ^ 12.
Proof.
  intros i H. unfold halton_n_samples, max_samples, min_halton_N. rewrite INR_1000.
  pose proof (pos_INR i). apply le_INR in H. replace (INR 1000) with 1000 in H by (rewrite INR_IZR_INZ; reflexivity). lra.
Qed.
Lemma halton_disp : forall i, 0 < halton_n_samples i -> halton_dispersion i = 5 / sqrt (halton_n_samples i).
Proof.
  intros i H. unfold halton_dispersion. rewrite halton_constant_5.
  replace (- 1 / 2) with (- (/ 2)) by field. rewrite Rpower_Ropp, Rpower_sqrt by exact H. reflexivity.
Qed.
Lemma halton_last : forall len, (len = 1000 \/ len = 1001)%nat -> 5 / 10 ^ 6 <= halton_dispersion (len - 1) <= 1 / 100.
Proof.
  intros len Hl.
  assert (HN : 10 ^ 11 <= halton_n_samples (len - 1) <= 10 ^ 12).
  { split; [|apply halton_n_range; lia].
    unfold halton_n_samples, max_samples, min_halton_N. rewrite INR_1000.
    assert (999 <= INR (len - 1)).
    { replace 999 with (INR 999) by (rewrite INR_IZR_INZ; reflexivity). apply le_INR. lia. }
    lra. }
  rewrite halton_disp by lra. set (N := halton_n_samples (len - 1)) in *.
  assert (S1 : sqrt N <= 10 ^ 6). { rewrite <- (sqrt_square (10 ^ 6)) by lra. apply sqrt_le_1; lra. }
  assert (S2 : 10 ^ 5 <= sqrt N). { rewrite <- (sqrt_square (10 ^ 5)) by lra. apply sqrt_le_1; lra. }
  unfold Rdiv. split.
  - apply Rmult_le_compat_l; [lra|]. apply Rinv_le_contravar; lra.
  - apply Rle_trans with (5 * / 10 ^ 5); [|lra]. apply Rmult_le_compat_l; [lra|]. apply Rinv_le_contravar; lra.
Qed.
Lemma blumer_disp_range : forall len i, (len = 1000 \/ len = 1001)%nat -> (i < 1000)%nat -> 5 / 10 ^ 6 <= blumer_dispersion len i <= 1 / 2.
Proof.
  intros len i Hl Hi. pose proof (halton_last len Hl) as HH. unfold blumer_dispersion. rewrite INR_999.
  pose proof (pos_INR i). assert (INR i <= 999).
  { replace 999 with (INR 999) by (rewrite INR_IZR_INZ; reflexivity). apply le_INR. lia. }
  set (h := halton_dispersion (len - 1)) in *. split.
  - apply Rle_trans with (1 / 2 + 999 * ((h - 1 / 2) / 999)); [lra|]. apply Rplus_le_compat_l.
    rewrite (Rmult_comm 999), (Rmult_comm (INR i)). apply Rmult_le_compat_neg_l; lra.
  - nra.
Qed.
Lemma ball_2 : forall r, ball 2 r = PI * r ^ 2.
Proof. intros. unfold ball. cbn [unit_ball_volume]. replace (INR 2) with 2 by (simpl; ring). field. Qed.
Lemma ball2_model : forall r, compute_vol_unit_sphere 2 * r ^ 2 = PI * r ^ 2.
Proof. intros. rewrite unit_ball_correct. fold (ball 2 r). apply ball_2. Qed.
Lemma halton_search : forall len i sp fuel, (len = 1000 \/ len = 1001)%nat -> (i < 1000)%nat -> 0 <= sp <= 95 / 100 -> (1000 <= fuel)%nat ->
  exists z, blumer_n_samples len i sp fuel = Ret z /\ least_count (PI * blumer_dispersion len i ^ 2) 3 (1 - sp) z /\ IZR z < 2 * 10 ^ 13.
Proof.
  intros len i sp fuel Hl Hi Hs Hf. pose proof (blumer_disp_range len i Hl Hi) as HD. pose proof PI_3_4 as HP.
  unfold blumer_n_samples. cbv zeta. rewrite ball2_model. set (d := blumer_dispersion len i) in *.
  assert (Hq : 25 / 10 ^ 12 <= d ^ 2 <= 1 / 4) by (split; nra).
  assert (He : 75 / 10 ^ 12 <= PI * d ^ 2 <= 1) by (split; nra).
  assert (HB : blumer (PI * d ^ 2) (1 - sp) 3 <= (4 + 8 * INR 3) / (75 / 10 ^ 12) * INR 38).
  { apply (blumer_upper _ _ _ _ (5 / 100)); lra. }
  assert (HB2 : blumer (PI * d ^ 2) (1 - sp) 3 <= 2 * 10 ^ 13 - 1).
  { eapply Rle_trans; [exact HB|]. rewrite !INR_IZR_INZ. simpl (Z.of_nat _). unfold Rdiv. rewrite Rinv_mult, Rinv_inv. lra. }
  destruct (search_if_blumer (PI * d ^ 2) (1 - sp) 3 ltac:(lra) ltac:(lia) ltac:(lra)) with (fuel := fuel) as (z & Ez & Hz); [rewrite pow2_53; lra|exact Hf|].
  exists z. split; [exact Ez|]. split; [exact Hz|].
  pose proof (least_blumer (PI * d ^ 2) (1 - sp) 3 z ltac:(lra) ltac:(lia) ltac:(lra) Hz). lra.
Qed.

(** ** below a hundredth the numerical count is above the count of Halton points *)
Lemma comb_3 : forall n, (6 * comb n 3 = Z.of_nat n * (Z.of_nat n - 1) * (Z.of_nat n - 2))%Z.
Proof.
  assert (C1 : forall n, (comb n 1 = Z.of_nat n)%Z).
  { induction n as [|n IH]; [reflexivity|]. cbn [comb]. rewrite IH, comb_0_r. lia. }
  assert (C2 : forall n, (2 * comb n 2 = Z.of_nat n * (Z.of_nat n - 1))%Z).
  { induction n as [|n IH]; [reflexivity|]. cbn [comb] in *. fold (comb n 1) in *. rewrite Z.mul_add_distr_l, IH, C1. lia. }
  induction n as [|n IH]; [reflexivity|]. change (comb (S n) 3) with (comb n 2 + comb n 3)%Z.
  pose proof (C2 n). nia.
Qed.
Lemma psum_cube : forall m, (8 <= m)%nat -> (Z.of_nat m ^ 3 <= psum (2 * m) 3)%Z.
Proof.
  intros m Hm. rewrite !psum_S. pose proof (comb_3 (2 * m)) as H. pose proof (psum_pos (2 * m) 0).
  pose proof (comb_nonneg (2 * m) 1). pose proof (comb_nonneg (2 * m) 2).
  rewrite Nat2Z.inj_mul in H. change (Z.of_nat 2) with 2%Z in H. nia.
Qed.
Lemma nat_floor : forall x, 0 <= x -> exists m, INR m <= x < INR m + 1.
Proof.
  intros x Hx. destruct (archimed x) as [A1 A2].
  assert (0 < up x)%Z by (apply lt_IZR; simpl; lra).
  exists (Z.to_nat (up x - 1)). rewrite INR_IZR_INZ, Z2Nat.id by lia. rewrite minus_IZR. lra.
Qed.
Lemma fine_count : forall d gam z, 0 < d <= 1 / 100 -> 0 < gam < 2 -> least_count (PI * d ^ 2) 3 gam z -> 25 / d ^ 2 < IZR z.
Proof.
  intros d gam z Hd Hg (m & -> & Hm & HB & _). pose proof PI_3_4 as HP.
  assert (Hd2 : 0 < d ^ 2 <= 1 / 10000) by (split; nra).
  assert (Hi : 10000 <= / d ^ 2). { rewrite <- (Rinv_inv 10000). apply Rinv_le_contravar; lra. }
  destruct (nat_floor (25 / d ^ 2)) as (k & Hk1 & Hk2); [unfold Rdiv; lra|].
  assert (Hk : 131072 <= INR k) by (unfold Rdiv in *; lra).
  rewrite <- INR_IZR_INZ.
  destruct (Nat.le_gt_cases m k) as [G|G]; [exfalso|assert (S k <= m)%nat by lia; apply le_INR in H; rewrite S_INR in H; lra].
  pose proof (nfb_permanent (PI * d ^ 2) 3 m k G ltac:(lra)) as HN.
  assert (HL : 2 <= net_failure_bound (PI * d ^ 2) 3 k); [|lra].
  unfold net_failure_bound. rewrite <- psum_spec.
  assert (H8 : (8 <= k)%nat) by (apply INR_le; simpl; lra).
  pose proof (psum_cube k H8) as HC. apply IZR_le in HC. change 3%Z with (Z.of_nat 3) in HC. rewrite <- (pow_IZR (Z.of_nat k) 3), <- INR_IZR_INZ in HC.
  assert (H51 : 2 ^ 51 <= INR k ^ 3). { apply Rle_trans with (131072 ^ 3); [lra|]. apply pow_incr. lra. }
  assert (P : / 2 ^ 50 <= Rpower 2 (- (PI * d ^ 2) * INR k / 2)).
  { replace (- (PI * d ^ 2) * INR k / 2) with (- (PI * d ^ 2 * INR k / 2)) by field.
    apply Rpower_2_neg. replace (INR 50) with 50 by (rewrite INR_IZR_INZ; reflexivity).
    assert (d ^ 2 * INR k <= 25). { apply Rle_trans with (d ^ 2 * (25 / d ^ 2)); [apply Rmult_le_compat_l; lra|]. right. field. lra. }
    assert (0 <= d ^ 2 * INR k) by (apply Rmult_le_pos; lra). nra. }
  apply Rle_trans with (2 * 2 ^ 51 * / 2 ^ 50); [lra|]. apply Rmult_le_compat; lra.
Qed.
(** ** at a half it is below *)
Lemma psum_140 : (psum 140 3 <= 2 ^ 19)%Z.
Proof. apply Z.leb_le. vm_compute. reflexivity. Qed.
Lemma coarse_count : forall z, least_count (PI * (1 / 2) ^ 2) 3 (1 / 10) z -> IZR z <= 70.
Proof.
  intros z (m & -> & Hm & HB & Hl). rewrite <- INR_IZR_INZ. pose proof PI_3_4 as HP.
  destruct (Nat.le_gt_cases m 70) as [G|G]; [apply le_INR in G; replace (INR 70) with 70 in G by (rewrite INR_IZR_INZ; reflexivity); exact G|exfalso].
  specialize (Hl 70%nat ltac:(lia)). unfold net_failure_bound in Hl. rewrite <- psum_spec in Hl. change (2 * 70)%nat with 140%nat in Hl.
  pose proof psum_140 as H. apply IZR_le in H. change (2 ^ 19)%Z with (2 ^ Z.of_nat 19)%Z in H. rewrite <- (pow_IZR 2 19) in H.
  assert (P : Rpower 2 (- (PI * (1 / 2) ^ 2) * INR 70 / 2) <= / 2 ^ 26).
  { rewrite <- (Rpower_pow 26 2) by lra. rewrite <- Rpower_Ropp. apply Rle_Rpower; [lra|].
    rewrite !INR_IZR_INZ. simpl (Z.of_nat _). lra. }
  pose proof (psum_pos_R 140 3).
  assert (2 * IZR (psum 140 3) * Rpower 2 (- (PI * (1 / 2) ^ 2) * INR 70 / 2) <= 2 * 2 ^ 19 * / 2 ^ 26); [|lra].
  apply Rmult_le_compat; try lra. left. apply exp_pos.
Qed.
