(** Proofs for the nearest-neighbour tail bounds (C09, C10) and the Blumer bound (C67). *)
From Coq Require Import ZArith Reals List Lia Lra Psatz.
From Verif Require Import Search_Model Search_Proofs Bound_Model Bound_Spec Bound_Proofs Bound_Proofs2.
Import ListNotations.
Open Scope R_scope.

Lemma ln_le_sub1 : forall x, 0 < x -> ln x <= x - 1.
Proof. intros x H. pose proof (exp_ineq1_le (ln x)). rewrite exp_ln in H0 by assumption. lra. Qed.

Lemma ln_ge_1sub : forall x, 0 < x -> 1 - / x <= ln x.
Proof.
  intros x H. assert (0 < / x) by (apply Rinv_0_lt_compat; assumption).
  pose proof (ln_le_sub1 (/ x) H0). rewrite ln_Rinv in H1 by assumption. lra.
Qed.

Lemma ball_mono : forall dim vol r1 r2, 0 < vol -> 0 <= r1 <= r2 ->
  0 <= compute_vol_unit_sphere dim / vol * r1 ^ dim <= compute_vol_unit_sphere dim / vol * r2 ^ dim.
Proof.
  intros dim vol r1 r2 Hv Hr. pose proof (unit_ball_pos dim).
  assert (0 < compute_vol_unit_sphere dim / vol) by (apply Rdiv_lt_0_compat; assumption).
  split; [apply Rmult_le_pos; [lra|apply pow_le; lra]|].
  apply Rmult_le_compat_l; [lra|]. apply pow_incr. lra.
Qed.

Lemma ball_pos : forall dim vol r, 0 < vol -> 0 < r -> 0 < compute_vol_unit_sphere dim / vol * r ^ dim.
Proof.
  intros. pose proof (unit_ball_pos dim). apply Rmult_lt_0_compat; [apply Rdiv_lt_0_compat; assumption|].
  apply pow_lt; assumption.
Qed.

Lemma IZR_m1 : forall m, (2 <= m)%Z -> 1 <= IZR m - 1.
Proof. intros m H. apply IZR_le in H. lra. Qed.

Lemma hoeffding_mono_proof : forall m k r1 r2 dim vol,
  (2 <= m)%Z -> 0 < vol -> 0 <= r1 <= r2 ->
  compute_tail_knn_radius_log_prob_hoeffding m k r1 dim vol
  <= compute_tail_knn_radius_log_prob_hoeffding m k r2 dim vol.
Proof.
  intros m k r1 r2 dim vol Hm Hv Hr. unfold compute_tail_knn_radius_log_prob_hoeffding.
  pose proof (ball_mono dim vol r1 r2 Hv Hr). pose proof (IZR_m1 m Hm).
  set (a := compute_vol_unit_sphere dim / vol * r1 ^ dim) in *.
  set (b := compute_vol_unit_sphere dim / vol * r2 ^ dim) in *.
  set (q := IZR k / (IZR m - 1)).
  assert (Hx : 0 <= Rmax (q - b) 0 <= Rmax (q - a) 0).
  { split; [apply Rmax_r|]. apply Rle_max_compat_r. lra. }
  set (x := Rmax (q - b) 0) in *. set (y := Rmax (q - a) 0) in *.
  assert (x ^ 2 <= y ^ 2) by (apply pow_incr; lra). nra.
Qed.

Lemma hoeffding_mean_mono_proof : forall m k r1 r2 dim vol,
  (2 <= m)%Z -> (0 <= k)%Z -> 0 < vol -> 0 < r1 <= r2 ->
  compute_tail_knn_radius_log_prob_hoeffding_mean_variant m k r1 dim vol
  <= compute_tail_knn_radius_log_prob_hoeffding_mean_variant m k r2 dim vol.
Proof.
  intros m k r1 r2 dim vol Hm Hk Hv Hr. unfold compute_tail_knn_radius_log_prob_hoeffding_mean_variant.
  pose proof (ball_mono dim vol r1 r2 Hv ltac:(lra)) as Hab. pose proof (IZR_m1 m Hm).
  pose proof (ball_pos dim vol r1 Hv ltac:(lra)) as Ha.
  set (a := compute_vol_unit_sphere dim / vol * r1 ^ dim) in *.
  set (b := compute_vol_unit_sphere dim / vol * r2 ^ dim) in *.
  apply IZR_le in Hk.
  assert (Hq : 0 <= IZR k / (IZR m - 1)) by (apply Rmult_le_pos; [lra|left; apply Rinv_0_lt_compat; lra]).
  set (q := IZR k / (IZR m - 1)) in *.
  assert (Hinv : 0 < / b <= / a) by (split; [apply Rinv_0_lt_compat; lra|apply Rinv_le_contravar; lra]).
  assert (Hx : 0 <= Rmax (q / b - 1) 0 <= Rmax (q / a - 1) 0).
  { split; [apply Rmax_r|]. apply Rle_max_compat_r.
    assert (q * / b <= q * / a) by (apply Rmult_le_compat_l; lra). unfold Rdiv. lra. }
  set (x := Rmax (q / b - 1) 0) in *. set (y := Rmax (q / a - 1) 0) in *.
  assert (x ^ 2 <= y ^ 2) by (apply pow_incr; lra).
  assert (0 <= x ^ 2) by (apply pow_le; lra).
  assert (0 < / (b ^ 2) <= / (a ^ 2)).
  { split; [apply Rinv_0_lt_compat; apply pow_lt; lra|].
    apply Rinv_le_contravar; [apply pow_lt; lra|]. apply pow_incr; lra. }
  assert (x ^ 2 * / b ^ 2 <= y ^ 2 * / a ^ 2) by (apply Rmult_le_compat; lra).
  unfold Rdiv. rewrite !Rmult_assoc.
  assert ((IZR m - 1) * (x ^ 2 * / b ^ 2) <= (IZR m - 1) * (y ^ 2 * / a ^ 2)) by (apply Rmult_le_compat_l; lra).
  lra.
Qed.

(** the core of the generic Chernoff bound as a function of mu *)
Lemma chern_core_mono : forall k mu1 mu2, 0 < mu1 -> mu1 <= mu2 -> mu2 <= k ->
  - mu1 + k * (1 + ln mu1 - ln k) <= - mu2 + k * (1 + ln mu2 - ln k).
Proof.
  intros k mu1 mu2 H1 H12 H2.
  assert (Hr : 0 < mu2 / mu1) by (apply Rdiv_lt_0_compat; lra).
  pose proof (ln_ge_1sub (mu2 / mu1) Hr) as Hl.
  unfold Rdiv in Hl. rewrite ln_mult, ln_Rinv in Hl by (try lra; apply Rinv_0_lt_compat; lra).
  rewrite Rinv_mult, Rinv_inv in Hl.
  assert (Hm : mu2 * (1 - / mu2 * mu1) = mu2 - mu1) by (field; lra).
  assert (H0 : 0 <= 1 - / mu2 * mu1).
  { apply Rmult_le_reg_l with mu2; [lra|]. rewrite Hm. lra. }
  assert (k * (ln mu2 - ln mu1) >= mu2 - mu1).
  { assert (mu2 * (1 - / mu2 * mu1) <= k * (1 - / mu2 * mu1)) by (apply Rmult_le_compat_r; lra).
    assert (k * (1 - / mu2 * mu1) <= k * (ln mu2 + - ln mu1)) by (apply Rmult_le_compat_l; lra).
    lra. }
  lra.
Qed.

Lemma generic_core : forall m k r dim vol,
  compute_tail_knn_radius_log_prob_chernoff_generic m k r dim vol =
  ln (IZR m) + (- expected_ball_count m r dim vol
                + IZR k * (1 + ln (expected_ball_count m r dim vol) - ln (IZR k))).
Proof.
  intros. unfold compute_tail_knn_radius_log_prob_chernoff_generic, expected_ball_count.
  rewrite unit_ball_correct.
  replace (unit_ball_volume dim / vol * r ^ dim) with (unit_ball_volume dim * r ^ dim / vol)
    by (unfold Rdiv; ring).
  ring.
Qed.

Lemma count_mono : forall m r1 r2 dim vol, (2 <= m)%Z -> 0 < vol -> 0 < r1 <= r2 ->
  0 < expected_ball_count m r1 dim vol <= expected_ball_count m r2 dim vol.
Proof.
  intros m r1 r2 dim vol Hm Hv Hr. unfold expected_ball_count. rewrite <- unit_ball_correct.
  pose proof (ball_mono dim vol r1 r2 Hv ltac:(lra)) as Hab.
  pose proof (ball_pos dim vol r1 Hv ltac:(lra)) as Ha. pose proof (IZR_m1 m Hm).
  replace (compute_vol_unit_sphere dim * r1 ^ dim / vol) with (compute_vol_unit_sphere dim / vol * r1 ^ dim)
    by (unfold Rdiv; ring).
  replace (compute_vol_unit_sphere dim * r2 ^ dim / vol) with (compute_vol_unit_sphere dim / vol * r2 ^ dim)
    by (unfold Rdiv; ring).
  set (a := compute_vol_unit_sphere dim / vol * r1 ^ dim) in *.
  set (b := compute_vol_unit_sphere dim / vol * r2 ^ dim) in *.
  assert (0 < Rmin a 1 <= Rmin b 1).
  { split; [apply Rmin_glb_lt; lra|]. apply Rle_min_compat_r. lra. }
  split; [apply Rmult_lt_0_compat; lra|]. apply Rmult_le_compat_l; lra.
Qed.

Lemma generic_mono_proof : forall m k r1 r2 dim vol,
  (2 <= m)%Z -> 0 < vol -> 0 < r1 <= r2 -> expected_ball_count m r2 dim vol <= IZR k ->
  compute_tail_knn_radius_log_prob_chernoff_generic m k r1 dim vol
  <= compute_tail_knn_radius_log_prob_chernoff_generic m k r2 dim vol.
Proof.
  intros m k r1 r2 dim vol Hm Hv Hr Hk. rewrite !generic_core.
  pose proof (count_mono m r1 r2 dim vol Hm Hv Hr).
  apply Rplus_le_compat_l. apply chern_core_mono; lra.
Qed.

Lemma generic_mono_refuted_proof :
  exists m k r1 r2 dim vol, (2 <= m)%Z /\ 0 < vol /\ 0 < r1 <= r2 /\
    compute_tail_knn_radius_log_prob_chernoff_generic m k r2 dim vol
    < compute_tail_knn_radius_log_prob_chernoff_generic m k r1 dim vol.
Proof.
  exists 101%Z, 1%Z, (1 / 100), 1, 1%nat, 2.
  repeat split; try lra; try lia. rewrite !generic_core.
  assert (E1 : expected_ball_count 101 (1 / 100) 1 2 = 1).
  { unfold expected_ball_count. simpl. rewrite Rmin_left by lra. lra. }
  assert (E2 : expected_ball_count 101 1 1 2 = 100).
  { unfold expected_ball_count. simpl. rewrite Rmin_right by lra. lra. }
  rewrite E1, E2, ln_1. pose proof (ln_le_sub1 (100 / 2) ltac:(lra)) as H.
  pose proof (ln_le_sub1 2 ltac:(lra)).
  replace 100 with (2 * (100 / 2)) at 2 by field. rewrite ln_mult by lra. lra.
Qed.

(** * KL form *)
Lemma rel_entr_pos : forall x y, 0 < x -> 0 < y -> rel_entr x y = Some (x * ln (x / y)).
Proof.
  intros. unfold rel_entr. destruct (Rlt_dec 0 x); [|contradiction].
  destruct (Rlt_dec 0 y); [reflexivity|contradiction].
Qed.
Lemma rel_entr_0 : forall y, 0 <= y -> rel_entr 0 y = Some 0.
Proof.
  intros. unfold rel_entr. destruct (Rlt_dec 0 0); [lra|].
  destruct (Req_EM_T 0 0); [|contradiction]. destruct (Rle_dec 0 y); [reflexivity|contradiction].
Qed.
Lemma rel_entr_inf : forall x, 0 < x -> rel_entr x 0 = None.
Proof.
  intros. unfold rel_entr. destruct (Rlt_dec 0 x); [|contradiction].
  destruct (Rlt_dec 0 0); [lra|reflexivity].
Qed.
Lemma rel_entr_neg : forall x y, x < 0 -> rel_entr x y = None.
Proof.
  intros. unfold rel_entr. destruct (Rlt_dec 0 x); [lra|].
  destruct (Req_EM_T x 0); [lra|reflexivity].
Qed.

Lemma entropy2_same : forall p, 0 <= p <= 1 -> entropy2 p p = Some 0.
Proof.
  intros p Hp.
  assert (S : forall x, 0 <= x -> rel_entr x x = Some 0).
  { intros x Hx. destruct (Req_dec x 0) as [->|]; [apply rel_entr_0; lra|].
    rewrite rel_entr_pos by lra. replace (x / x) with 1 by (field; assumption).
    rewrite ln_1. f_equal. ring. }
  unfold entropy2. rewrite !S by lra. f_equal. ring.
Qed.

(** relative entropy, as "minus infinity is None" of its negation, grows with p up to q *)
Lemma entropy2_anti : forall q p1 p2, 0 <= p1 <= p2 -> p2 <= q ->  p2 <= 1 ->
  ext_le (option_map Ropp (entropy2 q p1)) (option_map Ropp (entropy2 q p2)).
Proof.
  intros q p1 p2 H1 H2 H3.
  destruct (entropy2 q p1) as [h1|] eqn:E1; [|exact I].
  destruct (Rle_lt_dec q 1) as [Hq|Hq].
  2:{ exfalso. unfold entropy2 in E1. rewrite (rel_entr_neg (1 - q)) in E1 by lra.
      destruct (rel_entr q p1); discriminate. }
  destruct (Req_dec p1 p2) as [->|Hne]; [rewrite E1; simpl; lra|].
  assert (Hp1 : 0 < p1).
  { destruct (Req_dec p1 0) as [->|]; [|lra]. exfalso. unfold entropy2 in E1.
    rewrite rel_entr_inf in E1 by lra. discriminate. }
  destruct (Req_dec p2 1) as [->|Hp2].
  - assert (q = 1) by lra. subst q. rewrite entropy2_same by lra. simpl.
    unfold entropy2 in E1. rewrite Rminus_diag_eq in E1 by reflexivity.
    rewrite rel_entr_pos, rel_entr_0 in E1 by lra. injection E1 as <-.
    assert (0 <= ln (1 / p1)).
    { rewrite <- ln_1 at 1. idtac.
      destruct (Req_dec (1 / p1) 1) as [->|]; [lra|]. left. apply ln_increasing; [lra|].
      apply Rmult_lt_reg_r with p1; [lra|]. replace (1 / p1 * p1) with 1 by (field; lra). lra. }
    lra.
  - assert (Ha : rel_entr q p1 = Some (q * ln (q / p1))) by (apply rel_entr_pos; lra).
    assert (Hb : rel_entr q p2 = Some (q * ln (q / p2))) by (apply rel_entr_pos; lra).
    pose proof (ln_ge_1sub (p2 / p1) ltac:(apply Rdiv_lt_0_compat; lra)) as L1.
    pose proof (ln_ge_1sub ((1 - p2) / (1 - p1)) ltac:(apply Rdiv_lt_0_compat; lra)) as L2.
    replace (/ (p2 / p1)) with (p1 / p2) in L1 by (field; lra).
    replace (/ ((1 - p2) / (1 - p1))) with ((1 - p1) / (1 - p2)) in L2 by (field; lra).
    unfold Rdiv in L1 at 2. unfold Rdiv in L2 at 2.
    rewrite ln_mult, ln_Rinv in L1 by (try lra; apply Rinv_0_lt_compat; lra).
    rewrite ln_mult, ln_Rinv in L2 by (try lra; apply Rinv_0_lt_compat; lra).
    assert (D : 0 <= q * (1 - p1 / p2) + (1 - q) * (1 - (1 - p1) / (1 - p2))).
    { replace (q * (1 - p1 / p2) + (1 - q) * (1 - (1 - p1) / (1 - p2)))
        with ((p2 - p1) * (q - p2) / (p2 * (1 - p2))) by (field; lra).
      apply Rmult_le_pos; [apply Rmult_le_pos; lra|]. left. apply Rinv_0_lt_compat.
      apply Rmult_lt_0_compat; lra. }
    assert (M1 : q * (1 - p1 / p2) <= q * (ln p2 + - ln p1)) by (apply Rmult_le_compat_l; lra).
    assert (M2 : (1 - q) * (1 - (1 - p1) / (1 - p2)) <= (1 - q) * (ln (1 - p2) + - ln (1 - p1)))
      by (apply Rmult_le_compat_l; lra).
    destruct (Req_dec q 1) as [->|Hq1].
    + unfold entropy2 in *. rewrite Ha in E1. rewrite Hb.
      replace (1 - 1) with 0 in * by ring. rewrite rel_entr_0 in * by lra.
      injection E1 as <-. simpl. unfold Rdiv. rewrite !ln_mult, !ln_Rinv; try lra; apply Rinv_0_lt_compat; lra.
    + assert (Hc : rel_entr (1 - q) (1 - p1) = Some ((1 - q) * ln ((1 - q) / (1 - p1)))) by (apply rel_entr_pos; lra).
      assert (Hd : rel_entr (1 - q) (1 - p2) = Some ((1 - q) * ln ((1 - q) / (1 - p2)))) by (apply rel_entr_pos; lra).
      unfold entropy2 in *. rewrite Ha, Hc in E1. rewrite Hb, Hd. injection E1 as <-. simpl.
      unfold Rdiv. rewrite !ln_mult, !ln_Rinv; try lra; apply Rinv_0_lt_compat; lra.
Qed.

Lemma entropy2_nonneg : forall q p h, 0 <= p <= q -> p <= 1 -> entropy2 q p = Some h -> 0 <= h.
Proof.
  intros q p h Hp Hp1 E. destruct (Rle_lt_dec q 1) as [Hq|Hq].
  - pose proof (entropy2_anti q p q ltac:(lra) ltac:(lra) Hq) as H. rewrite E in H.
    rewrite entropy2_same in H by lra. simpl in H. lra.
  - exfalso. unfold entropy2 in E. rewrite (rel_entr_neg (1 - q)) in E by lra.
    destruct (rel_entr q p); discriminate.
Qed.

Lemma kl_mono_proof : forall m k r1 r2 dim vol ub,
  (2 <= m)%Z -> 0 < vol -> 0 <= r1 <= r2 ->
  ext_le (compute_tail_knn_radius_log_prob_chernoff_kl m k r1 dim vol ub)
         (compute_tail_knn_radius_log_prob_chernoff_kl m k r2 dim vol ub).
Proof.
  intros m k r1 r2 dim vol ub Hm Hv Hr. unfold compute_tail_knn_radius_log_prob_chernoff_kl.
  pose proof (ball_mono dim vol r1 r2 Hv Hr) as Hab. pose proof (IZR_m1 m Hm) as Hm1.
  set (a := compute_vol_unit_sphere dim / vol * r1 ^ dim) in *.
  set (b := compute_vol_unit_sphere dim / vol * r2 ^ dim) in *.
  assert (Hp : 0 <= Rmin a 1 <= Rmin b 1).
  { split; [apply Rmin_glb; lra|]. apply Rle_min_compat_r. lra. }
  assert (Hb1 : Rmin b 1 <= 1) by apply Rmin_r.
  set (p1 := Rmin a 1) in *. set (p2 := Rmin b 1) in *. set (q := IZR k / IZR m).
  assert (Ea : p1 + Rmax (q - p1) 0 = Rmax q p1).
  { unfold Rmax. destruct (Rle_dec (q - p1) 0), (Rle_dec q p1); lra. }
  assert (Eb : p2 + Rmax (q - p2) 0 = Rmax q p2).
  { unfold Rmax. destruct (Rle_dec (q - p2) 0), (Rle_dec q p2); lra. }
  rewrite Ea, Eb. clear Ea Eb.
  assert (K : ext_le (option_map Ropp (entropy2 (Rmax q p1) p1)) (option_map Ropp (entropy2 (Rmax q p2) p2))).
  { destruct (Rle_lt_dec q p2) as [Hq|Hq].
    - rewrite (Rmax_right q p2) by lra. rewrite entropy2_same by lra.
      destruct (entropy2 (Rmax q p1) p1) as [h|] eqn:E; [|exact I].
      apply entropy2_nonneg in E; [simpl; lra| |lra].
      split; [lra|apply Rmax_r].
    - rewrite !Rmax_left by lra. apply entropy2_anti; lra. }
  destruct (entropy2 (Rmax q p1) p1) as [h1|]; [|exact I].
  destruct (entropy2 (Rmax q p2) p2) as [h2|]; [|contradiction].
  simpl in K. destruct ub; simpl; nra.
Qed.

(** * Corollary 1 radius *)
Lemma ln_1m_bound : forall x, 0 <= x < 1 -> x + ln (1 - x) <= - (x ^ 2 / 2).
Proof.
  intros x [H0 H1]. destruct (Req_dec x 0) as [->|Hn]; [rewrite Rminus_0_r, ln_1; lra|].
  set (h := fun t => (t + t * t * / 2) + ln (1 - t)).
  destruct (MVT_cor2 h (fun t => (1 + ((1 * t + t * 1) * / 2)) + / (1 - t) * (0 - 1)) 0 x)
    as [c [E Hc]]; [lra| |].
  - intros c Hc. unfold h.
    apply (derivable_pt_lim_plus (fun t => t + t * t * / 2) (fun t => ln (1 - t))).
    + apply (derivable_pt_lim_plus id (fun t => t * t * / 2)); [apply derivable_pt_lim_id|].
      replace ((1 * c + c * 1) * / 2) with ((1 * c + c * 1) * / 2 + (c * c) * 0) by ring.
      apply (derivable_pt_lim_mult (fun t => t * t) (fun _ => / 2)).
      * apply (derivable_pt_lim_mult id id); apply derivable_pt_lim_id.
      * apply derivable_pt_lim_const.
    + apply (derivable_pt_lim_comp (fun t => 1 - t) ln).
      * apply (derivable_pt_lim_minus (fun _ => 1) id); [apply derivable_pt_lim_const|apply derivable_pt_lim_id].
      * apply derivable_pt_lim_ln. lra.
  - unfold h in E at 2. rewrite Rminus_0_r, ln_1 in E.
    assert (D : 1 + (1 * c + c * 1) * / 2 + / (1 - c) * (0 - 1) <= 0).
    { replace (1 + (1 * c + c * 1) * / 2 + / (1 - c) * (0 - 1)) with (- (c * c) / (1 - c)) by (field; lra).
      assert (0 <= c * c * / (1 - c)) by (apply Rmult_le_pos; [nra|left; apply Rinv_0_lt_compat; lra]).
      unfold Rdiv. lra. }
    unfold h in E. simpl. nra.
Qed.

Lemma corollary1_core : forall m k delta, 0 < m -> 0 < k -> 0 < delta <= m ->
  let numer := k - sqrt (2 * k * (ln m - ln delta)) in
  0 < numer -> ln m + (- numer + k * (1 + ln numer - ln k)) <= ln delta.
Proof.
  intros m k delta Hm Hk Hd numer Hn.
  assert (HT : 0 <= ln m - ln delta).
  { destruct (Req_dec delta m) as [->|]; [lra|].
    assert (ln delta < ln m) by (apply ln_increasing; lra). lra. }
  set (T := ln m - ln delta) in *.
  set (x := sqrt (2 * k * T) / k).
  assert (Hs : 0 <= sqrt (2 * k * T)) by apply sqrt_pos.
  assert (Hx0 : 0 <= x) by (apply Rmult_le_pos; [assumption|left; apply Rinv_0_lt_compat; assumption]).
  assert (En : numer = k * (1 - x)) by (unfold numer, x; field; lra).
  assert (Hx1 : x < 1) by (rewrite En in Hn; nra).
  assert (Hx2 : k * (x ^ 2 / 2) = T).
  { unfold x. replace (k * ((sqrt (2 * k * T) / k) ^ 2 / 2))
      with (sqrt (2 * k * T) * sqrt (2 * k * T) / (2 * k)) by (field; lra).
    rewrite sqrt_sqrt by nra. field. lra. }
  pose proof (ln_1m_bound x ltac:(lra)) as Hl.
  rewrite En, ln_mult by lra.
  assert (k * (x + ln (1 - x)) <= k * - (x ^ 2 / 2)) by (apply Rmult_le_compat_l; lra).
  unfold T in *. lra.
Qed.

Lemma corollary1_certified_proof : forall m k dim vol delta r,
  (2 <= m)%Z -> (1 <= k)%Z -> (1 <= dim)%nat -> unit_ball_volume dim <= vol -> 0 < delta < 1 ->
  compute_eff_conn_rad_bound m k dim vol delta = Some r -> 0 < r ->
  compute_tail_knn_radius_log_prob_chernoff_generic m k r dim vol <= ln delta.
Proof.
  intros m k dim vol delta r Hm Hk Hdim Hvol Hd E Hr.
  pose proof (IZR_m1 m Hm) as Hm1. apply IZR_le in Hk.
  pose proof (unit_ball_pos dim) as HU. rewrite unit_ball_correct in HU.
  assert (HD : 0 < INR dim) by (apply lt_0_INR; lia).
  unfold compute_eff_conn_rad_bound in E. rewrite unit_ball_correct in E.
  assert (HU1 : unit_ball_volume dim / vol <= 1).
  { apply Rmult_le_reg_r with vol; [lra|]. replace (unit_ball_volume dim / vol * vol) with (unit_ball_volume dim) by (field; lra). lra. }
  rewrite Rmin_left in E by exact HU1.
  set (numer := IZR k - sqrt (2 * IZR k * (ln (IZR m) - ln delta))) in *.
  set (u := unit_ball_volume dim / vol) in *.
  assert (Hu : 0 < u) by (apply Rdiv_lt_0_compat; lra).
  assert (Hden : 0 < (IZR m - 1) * u) by (apply Rmult_lt_0_compat; lra).
  destruct (Rlt_dec 0 (numer / ((IZR m - 1) * u))) as [Hpos|Hnp].
  2:{ destruct (Req_EM_T _ _); [injection E as E; lra|discriminate]. }
  injection E as E.
  assert (Hnum : 0 < numer).
  { apply Rmult_lt_compat_r with (r := (IZR m - 1) * u) in Hpos; [|exact Hden].
    rewrite Rmult_0_l in Hpos.
    replace (numer / ((IZR m - 1) * u) * ((IZR m - 1) * u)) with numer in Hpos by (field; lra). exact Hpos. }
  assert (Erd : r ^ dim = numer / ((IZR m - 1) * u)).
  { rewrite <- Rpower_pow by exact Hr. rewrite <- E, Rpower_mult.
    replace (1 / INR dim * INR dim) with 1 by (field; lra). apply Rpower_1. exact Hpos. }
  rewrite generic_core.
  assert (Hmu : 0 < expected_ball_count m r dim vol <= numer).
  { split; [apply (count_mono m r r dim vol); try lra; lia|].
    unfold expected_ball_count. rewrite Erd.
    apply Rle_trans with ((IZR m - 1) * (unit_ball_volume dim * (numer / ((IZR m - 1) * u)) / vol)).
    - apply Rmult_le_compat_l; [lra|]. apply Rmin_l.
    - right. unfold u. field. repeat split; lra. }
  assert (Hnk : numer <= IZR k) by (unfold numer; pose proof (sqrt_pos (2 * IZR k * (ln (IZR m) - ln delta))); lra).
  pose proof (chern_core_mono (IZR k) _ numer (proj1 Hmu) (proj2 Hmu) Hnk) as Hc.
  pose proof (corollary1_core (IZR m) (IZR k) delta ltac:(lra) ltac:(lra) ltac:(lra) Hnum) as Hcore.
  fold numer in Hcore. lra.
Qed.

Lemma exp6_big : 100 < exp 6.
Proof.
  replace 6 with (INR 24 * (1 / 4)) by (simpl; lra). rewrite <- exp_pow.
  apply Rlt_le_trans with ((5 / 4) ^ 24); [lra|]. apply pow_incr.
  pose proof (exp_ineq1_le (1 / 4)). lra.
Qed.

Lemma corollary1_refuted_proof : exists m k dim vol delta r,
  (2 <= m)%Z /\ (1 <= k < m)%Z /\ (1 <= dim)%nat /\ 0 < vol /\ 0 < delta < 1 /\ 0 < r /\
  compute_eff_conn_rad_bound m k dim vol delta = Some r /\
  compute_tail_knn_radius_log_prob_chernoff_generic m k r dim vol > ln delta.
Proof.
  pose proof exp6_big as H6. pose proof (exp_pos (-6)) as H6'.
  assert (E6 : exp (-6) * exp 6 = 1) by (rewrite <- exp_plus; replace (-6 + 6) with 0 by ring; apply exp_0).
  exists 100%Z, 48%Z, 1%nat, 1, (100 * exp (-6)), (24 / 99).
  assert (Hd : 0 < 100 * exp (-6) < 1) by nra.
  assert (HV : compute_vol_unit_sphere 1 = 2) by (rewrite unit_ball_correct; reflexivity).
  assert (HL : ln 100 - ln (100 * exp (-6)) = 6) by (rewrite ln_mult, ln_exp by lra; lra).
  assert (Hsq : sqrt (2 * 48 * 6) = 24).
  { replace (2 * 48 * 6) with (24 * 24) by ring. apply sqrt_square. lra. }
  repeat (split; [lia || lra|]).
  split.
  - unfold compute_eff_conn_rad_bound. rewrite HV, HL, Hsq.
    rewrite Rmin_right by lra.
    replace ((48 - 24) / ((100 - 1) * 1)) with (24 / 99) by lra.
    destruct (Rlt_dec 0 (24 / 99)); [|lra]. f_equal. simpl INR.
    replace (1 / 1) with 1 by field. apply Rpower_1. lra.
  - rewrite generic_core.
    assert (Emu : expected_ball_count 100 (24 / 99) 1 1 = 48).
    { unfold expected_ball_count. simpl. rewrite Rmin_left by lra. lra. }
    rewrite Emu. assert (ln (100 * exp (-6)) < ln 100) by (apply ln_increasing; nra).
    lra.
Qed.

(** * Blumer bound *)
(** sum_{i<=d} C(n,i) t^i *)
Fixpoint wsum (t : R) (n d : nat) : R :=
  match d with
  | O => IZR (comb n 0)
  | S d' => wsum t n d' + IZR (comb n (S d')) * t ^ (S d')
  end.

Lemma wsum_S : forall t n d, wsum t n (S d) = wsum t n d + IZR (comb n (S d)) * t ^ (S d).
Proof. reflexivity. Qed.

Lemma wsum_step : forall t n d, wsum t (S n) (S d) = wsum t n (S d) + t * wsum t n d.
Proof.
  intros t n. induction d as [|d IH].
  - rewrite !wsum_S. unfold wsum. change (comb (S n) 1) with (comb n 0 + comb n 1)%Z.
    rewrite plus_IZR, !comb_0_r. simpl. ring.
  - rewrite (wsum_S t (S n) (S d)), IH, (wsum_S t n (S d)), (wsum_S t n d).
    change (comb (S n) (S (S d))) with (comb n (S d) + comb n (S (S d)))%Z.
    rewrite plus_IZR. simpl pow. ring.
Qed.

Lemma wsum_le : forall t n d, 0 <= t -> wsum t n d <= (1 + t) ^ n.
Proof.
  intros t n d Ht. revert d. induction n as [|n IH]; intros d.
  - simpl pow. induction d as [|d IHd]; [simpl; lra|]. rewrite wsum_S. simpl comb. lra.
  - destruct d as [|d].
    + simpl wsum. simpl pow. assert (1 <= (1 + t) ^ n) by (apply pow_R1_Rle; lra). nra.
    + rewrite wsum_step. simpl pow. pose proof (IH d). pose proof (IH (S d)). nra.
Qed.

Lemma psum_wsum : forall t n d D, 0 <= t <= 1 -> (d <= D)%nat -> t ^ D * IZR (psum n d) <= wsum t n d.
Proof.
  intros t n d D Ht. revert D. induction d as [|d IH]; intros D HD.
  - simpl psum. simpl wsum. rewrite comb_0_r.
    assert (t ^ D <= 1) by (rewrite <- (pow1 D); apply pow_incr; lra). lra.
  - rewrite psum_S, wsum_S, plus_IZR. specialize (IH D ltac:(lia)).
    assert (0 <= IZR (comb n (S d))) by (apply IZR_le; apply comb_nonneg).
    assert (Hp : t ^ D <= t ^ (S d)).
    { replace D with (S d + (D - S d))%nat by lia. rewrite pow_add.
      assert (t ^ (D - S d) <= 1) by (rewrite <- (pow1 (D - S d)); apply pow_incr; lra).
      assert (0 <= t ^ (S d)) by (apply pow_le; lra). nra. }
    nra.
Qed.

(** Sauer-Shelah growth: sum_{i<=d} C(n,i) <= (e n / d)^d for 1 <= d <= n *)
Lemma psum_sauer : forall n d, (1 <= d <= n)%nat ->
  IZR (psum n d) <= (exp 1 * INR n / INR d) ^ d.
Proof.
  intros n d [H1 H2].
  assert (Hd : 0 < INR d) by (apply lt_0_INR; lia).
  assert (Hdn : INR d <= INR n) by (apply le_INR; assumption).
  set (t := INR d / INR n).
  assert (Ht : 0 < t <= 1).
  { split; [apply Rdiv_lt_0_compat; lra|]. apply Rmult_le_reg_r with (INR n); [lra|].
    unfold t. replace (INR d / INR n * INR n) with (INR d) by (field; lra). lra. }
  pose proof (psum_wsum t n d d ltac:(lra) (le_n d)) as Hw.
  pose proof (wsum_le t n d ltac:(lra)) as Hle.
  assert (He : (1 + t) ^ n <= exp 1 ^ d).
  { apply Rle_trans with (exp t ^ n); [apply pow_incr; pose proof (exp_ineq1_le t); lra|].
    rewrite !exp_pow. right. f_equal. unfold t. field. lra. }
  assert (Htd : 0 < t ^ d) by (apply pow_lt; lra).
  apply Rmult_le_reg_l with (t ^ d); [exact Htd|].
  rewrite <- Rpow_mult_distr.
  replace (t * (exp 1 * INR n / INR d)) with (exp 1) by (unfold t; field; split; lra).
  lra.
Qed.

Lemma e_upper : exp 1 <= 281 / 100.
Proof.
  assert (H : (15 / 16) ^ 16 <= exp (-1)).
  { replace (-1) with (INR 16 * (-1 / 16)) by (simpl; lra). rewrite <- exp_pow.
    apply pow_incr. pose proof (exp_ineq1_le (-1 / 16)). lra. }
  assert (E : exp (-1) * exp 1 = 1) by (rewrite <- exp_plus; replace (-1 + 1) with 0 by ring; apply exp_0).
  pose proof (exp_pos 1). assert (100 / 281 <= (15 / 16) ^ 16) by lra.
  assert (100 / 281 <= exp (-1)) by lra. nra.
Qed.

Lemma ln13_upper : ln 13 <= 15 / 4 * ln 2.
Proof.
  assert (E1 : ln (13 ^ 4) = 4 * ln 13).
  { replace (13 ^ 4) with (13 * (13 * (13 * 13))) by ring. rewrite !ln_mult by lra. ring. }
  assert (E2 : ln (2 ^ 15) = 15 * ln 2) by (rewrite ln_pow by lra; simpl INR; lra).
  assert (ln (13 ^ 4) < ln (2 ^ 15)) by (apply ln_increasing; lra). lra.
Qed.

Lemma ln13_lower : 1 <= ln 13.
Proof.
  rewrite <- (ln_exp 1). destruct (Req_dec (exp 1) 13) as [->|]; [lra|]. left.
  apply ln_increasing; [apply exp_pos|]. pose proof e_upper. lra.
Qed.

(** the second half of Blumer et al.: d ln(2 e m / d) <= rho m ln 2 / 4 *)
Lemma blumer_second : forall rho d m, 0 < rho <= 1 -> 0 < d ->
  8 * d / rho * log2R (13 / rho) <= m ->
  d * ln (2 * exp 1 * m / d) <= rho * m * ln 2 / 4.
Proof.
  intros rho d m Hr Hd Hm. pose proof ln2_pos as H2. pose proof (exp_pos 1) as He0.
  pose proof e_upper as He. pose proof ln13_upper as Hu. pose proof ln13_lower as Hlw.
  assert (Hir : 0 < / rho) by (apply Rinv_0_lt_compat; lra).
  set (Ln := ln (13 / rho)).
  assert (ELn : Ln = ln 13 - ln rho) by (unfold Ln, Rdiv; rewrite ln_mult, ln_Rinv by lra; ring).
  assert (Hlr : ln rho <= 0) by (pose proof (ln_le_sub1 rho ltac:(lra)); lra).
  assert (HLn : 1 <= Ln) by lra.
  (* rho * Ln <= ln 13 *)
  assert (HrL : rho * Ln <= ln 13).
  { pose proof (ln_ge_1sub rho ltac:(lra)) as Hg.
    assert (rho * (1 - / rho) <= rho * ln rho) by (apply Rmult_le_compat_l; lra).
    replace (rho * (1 - / rho)) with (rho - 1) in H by (field; lra).
    rewrite ELn. nra. }
  set (y0 := 8 / rho * (Ln / ln 2)).
  assert (Hq : 0 < Ln / ln 2) by (apply Rdiv_lt_0_compat; lra).
  assert (Hy0 : 0 < y0) by (unfold y0; apply Rmult_lt_0_compat; [apply Rdiv_lt_0_compat; lra|assumption]).
  set (y := m / d).
  assert (Hy : y0 <= y).
  { apply Rmult_le_reg_r with d; [lra|]. unfold y. replace (m / d * d) with m by (field; lra).
    unfold y0. replace (8 / rho * (Ln / ln 2) * d) with (8 * d / rho * log2R (13 / rho)); [exact Hm|].
    unfold log2R. fold Ln. field. lra. }
  set (s := y / y0).
  assert (Hs : 1 <= s).
  { apply Rmult_le_reg_r with y0; [lra|]. unfold s. replace (y / y0 * y0) with y by (field; lra). lra. }
  (* ln (2 e y0) <= 2 Ln *)
  assert (H0 : ln (2 * exp 1 * y0) <= 2 * Ln).
  { replace (2 * Ln) with (ln ((13 / rho) * (13 / rho))).
    2:{ rewrite ln_mult; try (apply Rdiv_lt_0_compat; lra). unfold Ln. ring. }
    assert (Hle : 2 * exp 1 * y0 <= 13 / rho * (13 / rho)).
    { unfold y0. apply Rmult_le_reg_r with (rho * rho * ln 2); [apply Rmult_lt_0_compat; [nra|lra]|].
      replace (2 * exp 1 * (8 / rho * (Ln / ln 2)) * (rho * rho * ln 2)) with (16 * exp 1 * (rho * Ln)) by (field; lra).
      replace (13 / rho * (13 / rho) * (rho * rho * ln 2)) with (169 * ln 2) by (field; lra).
      assert (16 * exp 1 * (rho * Ln) <= 16 * exp 1 * (15 / 4 * ln 2)) by (apply Rmult_le_compat_l; lra).
      nra. }
    assert (Hp : 0 < 2 * exp 1 * y0) by (apply Rmult_lt_0_compat; lra).
    destruct (Req_dec (2 * exp 1 * y0) (13 / rho * (13 / rho))) as [->|]; [lra|].
    left. apply ln_increasing; lra. }
  assert (E1 : ln (2 * exp 1 * m / d) = ln (2 * exp 1 * y0) + ln s).
  { rewrite <- ln_mult; [f_equal; unfold s, y; field; lra|apply Rmult_lt_0_compat; lra|lra]. }
  assert (E2 : rho * m * ln 2 / 4 = d * (2 * Ln * s)).
  { unfold s, y, y0. field. repeat split; lra. }
  rewrite E1, E2. apply Rmult_le_compat_l; [lra|].
  pose proof (ln_le_sub1 s ltac:(lra)). nra.
Qed.

Lemma blumer_sufficient : forall rho vc gam m, 0 < rho <= 1 -> (1 <= vc)%nat -> 0 < gam ->
  4 / rho * log2R (2 / gam) <= INR m -> 8 * INR vc / rho * log2R (13 / rho) <= INR m ->
  net_failure_bound rho vc m <= gam.
Proof.
  intros rho vc gam m Hr Hv Hg H1 H2.
  pose proof ln2_pos as Hl2.
  assert (Hvc : 1 <= INR vc) by (replace 1 with (INR 1) by reflexivity; apply le_INR; assumption).
  assert (Hir : 1 <= / rho) by (rewrite <- Rinv_1; apply Rinv_le_contravar; lra).
  assert (Hm : INR vc <= INR m).
  { assert (1 <= log2R (13 / rho)).
    { rewrite <- log2R_2. apply log2R_le; [lra|]. unfold Rdiv. nra. }
    assert (INR vc <= 8 * INR vc / rho) by (unfold Rdiv; nra). nra. }
  apply INR_le in Hm.
  pose proof (psum_sauer (2 * m) vc ltac:(lia)) as HS.
  assert (Hm1 : 1 <= INR m) by (replace 1 with (INR 1) by reflexivity; apply le_INR; lia).
  rewrite mult_INR in HS. simpl (INR 2) in HS.
  pose proof (blumer_second rho (INR vc) (INR m) Hr ltac:(lra) H2) as HB.
  replace (exp 1 * ((1 + 1) * INR m) / INR vc) with (2 * exp 1 * INR m / INR vc) in HS by (field; lra).
  set (w := 2 * exp 1 * INR m / INR vc) in *.
  assert (Hw : 0 < w). { unfold w. pose proof (exp_pos 1). apply Rdiv_lt_0_compat; nra. }
  assert (HSw : IZR (psum (2 * m) vc) <= exp (rho * INR m * ln 2 / 4)).
  { apply Rle_trans with (w ^ vc); [exact HS|].
    rewrite <- (exp_ln w) by exact Hw. rewrite exp_pow.
    destruct (Req_dec (INR vc * ln w) (rho * INR m * ln 2 / 4)) as [->|]; [lra|].
    left. apply exp_increasing. lra. }
  assert (Hgam : 2 * exp (- (rho * INR m * ln 2 / 4)) <= gam).
  { assert (HT : ln (2 / gam) <= rho * INR m * ln 2 / 4).
    { unfold log2R in H1. apply Rmult_le_compat_l with (r := rho * ln 2 / 4) in H1; [|nra].
      replace (rho * ln 2 / 4 * (4 / rho * (ln (2 / gam) / ln 2))) with (ln (2 / gam)) in H1 by (field; lra). lra. }
    unfold Rdiv in HT at 1. rewrite ln_mult, ln_Rinv in HT by (try lra; apply Rinv_0_lt_compat; lra).
    replace 2 with (exp (ln 2)) at 1 by (apply exp_ln; lra). rewrite <- exp_plus.
    apply Rle_trans with (exp (ln gam)); [|rewrite exp_ln by lra; lra].
    destruct (Req_dec (ln 2 + - (rho * INR m * ln 2 / 4)) (ln gam)) as [->|]; [lra|].
    left. apply exp_increasing. lra. }
  unfold net_failure_bound. rewrite <- psum_spec. unfold Rpower.
  set (E := rho * INR m * ln 2 / 4) in *.
  replace (- rho * INR m / 2 * ln 2) with (- E + - E) by (unfold E; field).
  rewrite exp_plus.
  assert (EE : exp E * exp (- E) = 1) by (rewrite <- exp_plus; replace (E + - E) with 0 by ring; apply exp_0).
  pose proof (exp_pos (- E)).
  assert (IZR (psum (2 * m) vc) * exp (- E) <= 1) by nra.
  replace (2 * IZR (psum (2 * m) vc) * (exp (- E) * exp (- E)))
    with ((IZR (psum (2 * m) vc) * exp (- E)) * (2 * exp (- E))) by ring.
  nra.
Qed.

Lemma blumer_proof : forall net_rad dim gam vol m,
  let rho := unit_ball_volume dim * net_rad ^ dim / vol in
  0 < rho <= 1 -> 0 < gam ->
  compute_blumer_bound net_rad dim gam vol <= INR m ->
  net_failure_bound rho (dim + 1) m <= gam.
Proof.
  intros net_rad dim gam vol m rho Hr Hg H. unfold compute_blumer_bound in H.
  rewrite unit_ball_correct in H. fold rho in H.
  apply blumer_sufficient; try assumption; try lia.
  - eapply Rle_trans; [apply Rmax_l|exact H].
  - eapply Rle_trans; [apply Rmax_r|exact H].
Qed.

Lemma numerical_le_blumer_proof : forall c p v dim tol fuel z r,
  let rho := ball_measure c tol dim v in
  0 < rho <= 1 ->
  compute_numerical_bound c p v dim tol fuel = Some (Ret z, r) ->
  z = 2%Z \/ IZR z < compute_blumer_bound (compute_epsilon_net_radius c tol) dim (1 - p) v + 1.
Proof.
  intros c p v dim tol fuel z r rho Hr H.
  pose proof (numerical_bound_range _ _ _ _ _ _ _ H) as Hp.
  apply numerical_bound_least_proof in H. destruct H as (m & -> & Hm & _ & _ & Hl).
  destruct (Nat.eq_dec m 2) as [->|Hne]; [left; reflexivity|right].
  specialize (Hl (m - 1)%nat ltac:(lia)). fold rho in Hl.
  destruct (Rlt_le_dec (IZR (Z.of_nat m)) (compute_blumer_bound (compute_epsilon_net_radius c tol) dim (1 - p) v + 1))
    as [|Hge]; [assumption|exfalso].
  assert (Erho : unit_ball_volume dim * compute_epsilon_net_radius c tol ^ dim / v = rho).
  { unfold rho. rewrite <- rho_correct. unfold compute_rho. rewrite unit_ball_correct. unfold Rdiv. ring. }
  pose proof (blumer_proof (compute_epsilon_net_radius c tol) dim (1 - p) v (m - 1)) as HB.
  cbv zeta in HB. rewrite Erho in HB.
  rewrite <- INR_IZR_INZ in Hge. rewrite minus_INR in HB by lia. simpl (INR 1) in HB.
  specialize (HB Hr ltac:(lra) ltac:(lra)). lra.
Qed.
