(** C182: how many samples the mere existence of a path needs, against a stretch tolerance: compute_numerical_bound (bound.py 136-162) with
    tol=None and with a number, and test_existence_requires_fewer_samples of tests/test_utils.py 108-116. *)
From Coq Require Import ZArith Reals Lia Lra.
From Verif Require Import Search_Model Bound_Model Bound_Spec Bound_Proofs Bound_Proofs2 Bound_Props.
Open Scope R_scope.

(** ** Bounds on pi from the cosine series *)
Lemma fact_step n : INR (fact (S n)) = (INR n + 1) * INR (fact n).
Proof. rewrite fact_simpl, mult_INR, S_INR. reflexivity. Qed.
Lemma cos_8 a : -2 <= a <= 2 ->
  1 - a ^ 2 / 2 + a ^ 4 / 24 - a ^ 6 / 720 <= cos a <= 1 - a ^ 2 / 2 + a ^ 4 / 24 - a ^ 6 / 720 + a ^ 8 / 40320.
Proof.
  intros Ha. destruct (pre_cos_bound a 1 ltac:(lra) ltac:(lra)) as (H & H'). unfold cos_approx, cos_term in H, H'.
  change (2 * 1 + 1)%nat with 3%nat in H. change (2 * (1 + 1))%nat with 4%nat in H'. cbn [sum_f_R0 Nat.mul Nat.add] in H, H'.
  assert (F : INR (fact 0) = 1 /\ INR (fact 2) = 2 /\ INR (fact 4) = 24 /\ INR (fact 6) = 720 /\ INR (fact 8) = 40320).
  { rewrite (fact_step 7), (fact_step 6), (fact_step 5), (fact_step 4), (fact_step 3), (fact_step 2), (fact_step 1), (fact_step 0).
    change (fact 0) with 1%nat. rewrite !INR_IZR_INZ. cbn [Z.of_nat Pos.of_succ_nat Pos.succ]. repeat split; lra. }
  destruct F as (F0 & F2 & F4 & F6 & F8). rewrite F0, F2, F4, F6 in H. rewrite F0, F2, F4, F6, F8 in H'.
  split; [refine (Rle_trans _ _ _ _ H)|refine (Rle_trans _ _ _ H' _)]; apply Req_le; field.
Qed.
Lemma PI_above : 3125 / 1000 < PI.
Proof.
  destruct (cos_8 (3125 / 2000) ltac:(lra)) as (H & _).
  destruct (Rle_or_lt PI (3125 / 1000)) as [L|L]; [exfalso|exact L].
  assert (cos (3125 / 2000) <= 0) by (apply cos_le_0; pose proof PI2_1; lra). lra.
Qed.
Lemma PI_below : PI < 315 / 100.
Proof.
  destruct (cos_8 (315 / 200) ltac:(lra)) as (_ & H).
  destruct (Rle_or_lt (315 / 100) PI) as [L|L]; [exfalso|exact L].
  assert (0 <= cos (315 / 200)) by (apply cos_ge_0; lra). lra.
Qed.

(** ** The failure bound in the plane at a failure probability of a tenth *)
Lemma nfb_tenth rho m : net_failure_bound rho 3 m <= 1 - 9 / 10 <-> ln (IZR (20 * psum (2 * m) 3)) <= rho * INR m / 2 * ln 2.
Proof.
  unfold net_failure_bound. rewrite <- psum_spec. pose proof (psum_pos_R (2 * m) 3) as HP. rewrite mult_IZR.
  replace (- rho * INR m / 2) with (- (rho * INR m / 2)) by field. rewrite Rpower_Ropp. set (x := rho * INR m / 2).
  assert (0 < Rpower 2 x) as H2 by apply exp_pos. set (y := Rpower 2 x) in *. set (N := IZR (psum (2 * m) 3)) in *.
  assert (E : ln y = x * ln 2) by (unfold y, Rpower; apply ln_exp). rewrite <- E.
  assert (2 * N * / y <= 1 - 9 / 10 <-> 20 * N <= y) as ->.
  { split; intros H.
    - apply Rmult_le_compat_r with (r := y) in H; [|lra]. rewrite Rmult_assoc, Rinv_l in H by lra. lra.
    - apply Rmult_le_reg_r with y; [lra|]. rewrite Rmult_assoc, Rinv_l by lra. lra. }
  split; intros H.
  - destruct (Req_dec (20 * N) y) as [->|]; [lra|left; apply ln_increasing; lra].
  - destruct (Rle_or_lt (20 * N) y) as [|L]; [assumption|]. apply ln_increasing in L; lra.
Qed.
Lemma ln_upper N (a b : nat) : (0 < N)%Z -> (N ^ Z.of_nat b <= 2 ^ Z.of_nat a)%Z -> INR b * ln (IZR N) <= INR a * ln 2.
Proof.
  intros HN H. apply IZR_le in H. rewrite <- !pow_IZR in H.
  assert (0 < IZR N) by (apply IZR_lt; lia). rewrite <- !ln_pow by (assumption || lra).
  destruct H as [H|H]; [left; apply ln_increasing; [apply pow_lt; assumption|exact H]|right; now rewrite H].
Qed.
Lemma ln_lower N (a b : nat) : (0 < N)%Z -> (2 ^ Z.of_nat a < N ^ Z.of_nat b)%Z -> INR a * ln 2 < INR b * ln (IZR N).
Proof.
  intros HN H. apply IZR_lt in H. rewrite <- !pow_IZR in H.
  assert (0 < IZR N) by (apply IZR_lt; lia). rewrite <- !ln_pow by (assumption || lra).
  apply ln_increasing; [apply pow_lt; lra|exact H].
Qed.
Lemma tenth_pass rho m (a b : nat) : (0 < b)%nat -> ((20 * psum (2 * m) 3) ^ Z.of_nat b <= 2 ^ Z.of_nat a)%Z -> INR a <= INR b * (rho * INR m / 2) ->
  net_failure_bound rho 3 m <= 1 - 9 / 10.
Proof.
  intros Hb H L. apply nfb_tenth. pose proof (psum_pos (2 * m) 3). apply ln_upper in H; [|lia]. apply lt_0_INR in Hb. pose proof ln2_pos.
  apply Rmult_le_reg_l with (INR b); [assumption|]. eapply Rle_trans; [exact H|]. rewrite <- Rmult_assoc. apply Rmult_le_compat_r; lra.
Qed.
Lemma tenth_fail rho m (a b : nat) : (0 < b)%nat -> (2 ^ Z.of_nat a < (20 * psum (2 * m) 3) ^ Z.of_nat b)%Z -> INR b * (rho * INR m / 2) <= INR a ->
  net_failure_bound rho 3 m > 1 - 9 / 10.
Proof.
  intros Hb H L. apply Rnot_le_gt. rewrite nfb_tenth. intros C. pose proof (psum_pos (2 * m) 3). apply ln_lower in H; [|lia]. apply lt_0_INR in Hb. pose proof ln2_pos.
  apply Rmult_le_compat_l with (r := INR b) in C; [|lra]. rewrite <- Rmult_assoc in C.
  assert (INR b * (rho * INR m / 2) * ln 2 <= INR a * ln 2) by (apply Rmult_le_compat_r; lra). lra.
Qed.

(** ** What is returned *)
Lemma returns_count c p v dim tol fuel m : 0 < p < 1 -> (1000 <= fuel)%nat -> (3 <= m)%nat -> (Z.of_nat m <= 2 ^ 53)%Z ->
  let B := net_failure_bound (ball_measure c tol dim v) (dim + 1) in
  B m <= 1 - p -> B (m - 1)%nat > 1 - p -> exists r, compute_numerical_bound c p v dim tol fuel = Some (Ret (Z.of_nat m), r).
Proof.
  intros Hp Hf Hm Hm' B HB HB'. destruct (numerical_bound_outcomes c p v dim tol fuel Hp Hf) as ((_ & H) & _).
  destruct H as (z & Hz); [exists m; split; assumption|].
  destruct (compute_numerical_bound c p v dim tol fuel) as [[s r]|] eqn:E; [|discriminate]. cbn in Hz. injection Hz as ->. exists r.
  destruct (numerical_bound_least _ _ _ _ _ _ _ _ E) as (n & -> & Hn & _ & Hpass & Hleast). f_equal. f_equal. f_equal. f_equal.
  destruct (Nat.lt_trichotomy n m) as [L|[->|L]]; [exfalso|reflexivity|exfalso].
  - destruct (numerical_bound_permanent _ _ _ _ _ _ _ _ E (m - 1) (m - 1) ltac:(lia) ltac:(lia)) as (C & _). unfold B in HB'. lra.
  - specialize (Hleast m ltac:(lia)). unfold B in HB. lra.
Qed.

(** C182.  Existence needs fewer samples than a tolerance exactly when its count is not enough for the tolerance. *)
Theorem existence_fewer_iff : forall c p v dim t fuel fuel' z z' r r',
  compute_numerical_bound c p v dim None fuel = Some (Ret z, r) -> compute_numerical_bound c p v dim (Some t) fuel' = Some (Ret z', r') ->
  (z < z')%Z <-> net_failure_bound (ball_measure c (Some t) dim v) (dim + 1) (Z.to_nat z) > 1 - p.
Proof.
  intros c p v dim t fuel fuel' z z' r r' E E'.
  destruct (numerical_bound_least _ _ _ _ _ _ _ _ E) as (n & -> & Hn & _). destruct (numerical_bound_least _ _ _ _ _ _ _ _ E') as (n' & -> & Hn' & _ & _ & Hl). rewrite Nat2Z.id.
  split; intros H.
  - apply Hl. lia.
  - assert (~ (n' <= n)%nat); [|lia]. intros L.
    destruct (numerical_bound_permanent _ _ _ _ _ _ _ _ E' n n) as (C & _); [rewrite Nat2Z.id; exact L|lia|]. lra.
Qed.
Print Assumptions existence_fewer_iff.

(** The setting of the test: clearance 1/2 in the plane, volume 1, success probability 9/10 *)
Lemma suite_measure t : 0 <= t -> ball_measure (1 / 2) (Some t) 2 1 = PI / 4 * (t * t / (1 + t * t)).
Proof.
  intros Ht. unfold ball_measure. assert (0 < 1 + t * t) by nra. pose proof (sqrt_lt_R0 _ H). pose proof (sqrt_def (1 + t * t) ltac:(lra)) as Q.
  change (unit_ball_volume 2) with (2 * PI / INR 2 * 1). rewrite INR_IZR_INZ. cbn [Z.of_nat Pos.of_succ_nat Pos.succ].
  remember (sqrt (1 + t * t)) as q eqn:Eq. clear Eq. rewrite <- Q. field. lra.
Qed.
Lemma suite_measure_none : ball_measure (1 / 2) None 2 1 = PI / 4.
Proof. unfold ball_measure. change (unit_ball_volume 2) with (2 * PI / INR 2 * 1). rewrite INR_IZR_INZ. cbn [Z.of_nat Pos.of_succ_nat Pos.succ]. field. Qed.
Lemma psums : (psum (2 * 56) 3 = 234249 /\ psum (2 * 57) 3 = 247020 /\ psum (2 * 58) 3 = 260247)%Z.
Proof.
  assert (C1 : forall n, comb n 1 = Z.of_nat n) by (induction n as [|n IH]; [reflexivity|]; cbn [comb]; rewrite IH, comb_0_r; lia).
  assert (C2 : forall n, (2 * comb n 2 = Z.of_nat n * (Z.of_nat n - 1))%Z) by (induction n as [|n IH]; [reflexivity|]; change (comb (S n) 2) with (comb n 1 + comb n 2)%Z; rewrite Z.mul_add_distr_l, IH, C1; lia).
  assert (C3 : forall n, (6 * comb n 3 = Z.of_nat n * (Z.of_nat n - 1) * (Z.of_nat n - 2))%Z).
  { induction n as [|n IH]; [reflexivity|]. change (comb (S n) 3) with (comb n 2 + comb n 3)%Z. rewrite Z.mul_add_distr_l, IH. pose proof (C2 n). lia. }
  assert (P : forall n, psum n 3 = (1 + comb n 1 + comb n 2 + comb n 3)%Z) by (intros n; rewrite !psum_S, psum_0; lia).
  rewrite !P, !C1. pose proof (C2 (2 * 56)%nat). pose proof (C2 (2 * 57)%nat). pose proof (C2 (2 * 58)%nat). pose proof (C3 (2 * 56)%nat). pose proof (C3 (2 * 57)%nat). pose proof (C3 (2 * 58)%nat). lia.
Qed.

(** C182.  The counts of the test: 57 samples for existence, 58 for the tolerance 10, and the connection radii. *)
Theorem suite_counts : forall fuel, (1000 <= fuel)%nat ->
  compute_numerical_bound (1 / 2) (9 / 10) 1 2 None fuel = Some (Ret 57%Z, 1) /\
  compute_numerical_bound (1 / 2) (9 / 10) 1 2 (Some 10) fuel = Some (Ret 58%Z, 11 / sqrt 101).
Proof.
  intros fuel Hf. destruct psums as (P56 & P57 & P58). pose proof PI_above as HA. pose proof PI_below as HB. split.
  - destruct (returns_count (1 / 2) (9 / 10) 1 2 None fuel 57) as (r & E); [lra|assumption|lia|lia| | |].
    + rewrite suite_measure_none. change (2 + 1)%nat with 3%nat. apply (tenth_pass _ _ 89 4); [lia|rewrite P57; vm_compute; discriminate|].
      rewrite !INR_IZR_INZ. cbn [Z.of_nat Pos.of_succ_nat Pos.succ]. lra.
    + rewrite suite_measure_none. change (57 - 1)%nat with 56%nat. change (2 + 1)%nat with 3%nat. apply (tenth_fail _ _ 221 10); [lia|rewrite P56; vm_compute; reflexivity|].
      rewrite !INR_IZR_INZ. cbn [Z.of_nat Pos.of_succ_nat Pos.succ]. lra.
    + rewrite E. f_equal. f_equal. rewrite (connection_radius_without_tolerance _ _ _ _ _ _ _ E). lra.
  - pose proof (suite_measure 10 ltac:(lra)) as M.
    destruct (returns_count (1 / 2) (9 / 10) 1 2 (Some 10) fuel 58) as (r & E); [lra|assumption|lia|lia| | |].
    + rewrite M. change (2 + 1)%nat with 3%nat. apply (tenth_pass _ _ 112 5); [lia|rewrite P58; vm_compute; discriminate|].
      rewrite !INR_IZR_INZ. cbn [Z.of_nat Pos.of_succ_nat Pos.succ]. lra.
    + rewrite M. change (58 - 1)%nat with 57%nat. change (2 + 1)%nat with 3%nat. apply (tenth_fail _ _ 2223 100); [lia|rewrite P57; vm_compute; reflexivity|].
      rewrite !INR_IZR_INZ. cbn [Z.of_nat Pos.of_succ_nat Pos.succ]. lra.
    + rewrite E. f_equal. f_equal. rewrite (connection_radius_formulas_agree _ _ _ _ _ _ _ _ E). unfold compute_connection_radius.
      replace (1 + 10 ^ 2) with 101 by lra. field. apply Rgt_not_eq, sqrt_lt_R0. lra.
Qed.
Print Assumptions suite_counts.
Example existence_fewer_ex : forall fuel, (1000 <= fuel)%nat -> net_failure_bound (ball_measure (1 / 2) (Some 10) 2 1) (2 + 1) 57 > 1 - 9 / 10.
Proof.
  intros fuel Hf. destruct (suite_counts fuel Hf) as (E & E'). apply (proj1 (existence_fewer_iff _ _ _ _ _ _ _ _ _ _ _ E E')). lia.
Qed.

(** C182.  In the setting of the test the tolerance 1000 needs no more samples than existence. *)
Theorem existence_fewer_refuted : exists c p v dim t r r', 0 < c /\ 0 < t /\
  forall fuel, (1000 <= fuel)%nat -> compute_numerical_bound c p v dim None fuel = Some (Ret 57%Z, r) /\ compute_numerical_bound c p v dim (Some t) fuel = Some (Ret 57%Z, r').
Proof.
  exists (1 / 2), (9 / 10), 1, 2%nat, 1000, 1, (compute_connection_radius (1 / 2) 1000). split; [lra|split; [lra|]]. intros fuel Hf.
  split; [apply suite_counts; assumption|]. destruct psums as (P56 & P57 & P58). pose proof PI_above as HA. pose proof PI_below as HB. pose proof (suite_measure 1000 ltac:(lra)) as M.
  destruct (returns_count (1 / 2) (9 / 10) 1 2 (Some 1000) fuel 57) as (r & E); [lra|assumption|lia|lia| | |].
  + rewrite M. change (2 + 1)%nat with 3%nat. apply (tenth_pass _ _ 89 4); [lia|rewrite P57; vm_compute; discriminate|].
    rewrite !INR_IZR_INZ. cbn [Z.of_nat Pos.of_succ_nat Pos.succ]. lra.
  + rewrite M. change (57 - 1)%nat with 56%nat. change (2 + 1)%nat with 3%nat. apply (tenth_fail _ _ 221 10); [lia|rewrite P56; vm_compute; reflexivity|].
    rewrite !INR_IZR_INZ. cbn [Z.of_nat Pos.of_succ_nat Pos.succ]. lra.
  + rewrite E. f_equal. f_equal. exact (connection_radius_formulas_agree _ _ _ _ _ _ _ _ E).
Qed.
Print Assumptions existence_fewer_refuted.

(** ** Every setting has tolerances that are no harder than existence *)
Lemma ball_measure_le c v dim t : 0 <= c -> 0 < v -> 1 <= t ->
  ball_measure c None dim v * (1 - INR dim / t) <= ball_measure c (Some t) dim v.
Proof.
  intros Hc Hv Ht. unfold ball_measure. rewrite Rmult_1_l, Rpow_mult_distr. set (a := t / sqrt (1 + t * t)).
  assert (Hs : 0 < sqrt (1 + t * t)) by (apply sqrt_lt_R0; nra).
  assert (Ha : 1 - 1 / t <= a).
  { unfold a. assert (sqrt (1 + t * t) <= t + 1) by (rewrite <- (sqrt_square (t + 1)) by lra; apply sqrt_le_1_alt; nra).
    apply Rle_trans with (t / (t + 1)).
    - apply Rmult_le_reg_r with (t * (t + 1)); [nra|]. replace ((1 - 1 / t) * (t * (t + 1))) with ((t - 1) * (t + 1)) by (field; lra). replace (t / (t + 1) * (t * (t + 1))) with (t * t) by (field; lra). nra.
    - unfold Rdiv. apply Rmult_le_compat_l; [lra|]. apply Rinv_le_contravar; lra. }
  assert (Ht1 : 0 <= 1 - 1 / t) by (assert (1 / t <= 1) by (apply Rmult_le_reg_r with t; [lra|]; unfold Rdiv; rewrite Rmult_assoc, Rinv_l by lra; lra); lra).
  assert (BN : 1 - INR dim / t <= a ^ dim).
  { apply Rle_trans with ((1 - 1 / t) ^ dim); [|apply pow_incr; lra]. clear - Ht Ht1. induction dim as [|d IH]; [cbn; lra|]. rewrite S_INR. cbn [pow].
    destruct (Rle_or_lt 0 (1 - INR d / t)) as [P|P].
    - apply Rle_trans with ((1 - 1 / t) * (1 - INR d / t)); [|apply Rmult_le_compat_l; assumption].
      assert (0 <= INR d / t * (1 / t)); [|unfold Rdiv in *; lra]. pose proof (pos_INR d). apply Rmult_le_pos; unfold Rdiv; (apply Rmult_le_pos; [lra|left; apply Rinv_0_lt_compat; lra]).
    - apply Rle_trans with 0; [|apply Rmult_le_pos; [assumption|apply pow_le; assumption]].
      assert (0 < 1 / t) by (unfold Rdiv; apply Rmult_lt_0_compat; [lra|apply Rinv_0_lt_compat; lra]). unfold Rdiv in *. lra. }
  replace (unit_ball_volume dim * (a ^ dim * c ^ dim) / v) with (unit_ball_volume dim * c ^ dim / v * a ^ dim) by (field; lra).
  apply Rmult_le_compat_l; [|exact BN]. unfold Rdiv. apply Rmult_le_pos; [apply Rmult_le_pos|left; apply Rinv_0_lt_compat; lra].
  - rewrite <- unit_ball_correct. left. apply unit_ball_pos.
  - apply pow_le. lra.
Qed.

(** C182.  Unless the count for existence meets the failure probability exactly, all tolerances from some value on need the same count. *)
Theorem large_tolerance_same : forall c p v dim fuel z r, 0 <= c -> 0 < v -> (1000 <= fuel)%nat ->
  compute_numerical_bound c p v dim None fuel = Some (Ret z, r) ->
  net_failure_bound (ball_measure c None dim v) (dim + 1) (Z.to_nat z) < 1 - p ->
  exists T, 0 < T /\ forall t, T <= t -> exists r', compute_numerical_bound c p v dim (Some t) fuel = Some (Ret z, r').
Proof.
  intros c p v dim fuel z r Hc Hv Hf E HB.
  assert (Hp : 0 < p < 1).
  { destruct (Rle_or_lt p 0); [|destruct (Rle_or_lt 1 p); [|lra]]; (rewrite (proj2 (numerical_bound_error_iff c p v dim None fuel)) in E by auto; discriminate). }
  destruct (numerical_bound_least _ _ _ _ _ _ _ _ E) as (n & -> & Hn & Hz & _). rewrite Nat2Z.id in HB.
  set (rho := ball_measure c None dim v) in *. set (S0 := sum_f_R0 (fun i => choose (2 * n) i) (dim + 1)).
  assert (HS : 0 < S0) by (unfold S0; rewrite <- psum_spec; apply psum_pos_R).
  assert (Hrho : 0 <= rho).
  { unfold rho, ball_measure, Rdiv. apply Rmult_le_pos; [apply Rmult_le_pos|left; apply Rinv_0_lt_compat; lra]; [rewrite <- unit_ball_correct; left; apply unit_ball_pos|apply pow_le; lra]. }
  (* room in the exponent *)
  set (b0 := net_failure_bound rho (dim + 1) n) in *. assert (Hb0 : 0 < b0) by apply nfb_pos.
  set (room := log2R ((1 - p) / b0)).
  assert (Hroom : 0 < room).
  { unfold room. replace 0 with (log2R 1) by (unfold log2R; rewrite ln_1; unfold Rdiv; ring). apply log2R_lt; [lra|].
    apply Rmult_lt_reg_r with b0; [assumption|]. unfold Rdiv. rewrite Rmult_assoc, Rinv_l by lra. lra. }
  set (K := rho * INR dim * INR n / 2).
  assert (HK : 0 <= K) by (unfold K; pose proof (pos_INR dim); pose proof (pos_INR n); assert (0 <= rho * INR dim * INR n) by (apply Rmult_le_pos; [apply Rmult_le_pos|]; assumption); lra).
  assert (HKr : 0 <= K / room) by (unfold Rdiv; apply Rmult_le_pos; [assumption|left; apply Rinv_0_lt_compat; assumption]).
  exists (1 + K / room). split; [lra|]. intros t Ht.
  assert (Hpass : net_failure_bound (ball_measure c (Some t) dim v) (dim + 1) n <= 1 - p).
  { pose proof (ball_measure_le c v dim t Hc Hv ltac:(lra)) as M. fold rho in M. set (rt := ball_measure c (Some t) dim v) in *.
    assert (KT : K / t <= room).
    { apply Rmult_le_reg_r with t; [lra|]. unfold Rdiv at 1. rewrite Rmult_assoc, Rinv_l by lra.
      assert (K / room * room = K) by (field; lra). nra. }
    assert (X : - rt * INR n / 2 <= - rho * INR n / 2 + room).
    { assert (rho * (1 - INR dim / t) * INR n <= rt * INR n) by (apply Rmult_le_compat_r; [apply pos_INR|exact M]).
      assert (K / t = rho * (INR dim / t) * INR n / 2) by (unfold K; field; lra). lra. }
    unfold net_failure_bound. fold S0.
    apply Rle_trans with (2 * S0 * Rpower 2 (- rho * INR n / 2 + room)).
    { apply Rmult_le_compat_l; [lra|]. apply Rle_Rpower; [lra|exact X]. }
    rewrite Rpower_plus, <- Rmult_assoc. fold (net_failure_bound rho (dim + 1) n) in *. change (2 * S0 * Rpower 2 (- rho * INR n / 2)) with b0.
    replace (Rpower 2 room) with ((1 - p) / b0); [right; field; lra|].
    unfold room, log2R, Rpower. replace (ln ((1 - p) / b0) / ln 2 * ln 2) with (ln ((1 - p) / b0)) by (field; pose proof ln2_pos; lra).
    rewrite exp_ln; [reflexivity|]. unfold Rdiv. apply Rmult_lt_0_compat; [lra|apply Rinv_0_lt_compat; assumption]. }
  destruct (numerical_bound_outcomes c p v dim (Some t) fuel Hp Hf) as ((_ & H) & _).
  destruct H as (z' & Hz'); [exists n; split; assumption|].
  destruct (compute_numerical_bound c p v dim (Some t) fuel) as [[s r']|] eqn:E'; [|discriminate]. cbn in Hz'. injection Hz' as ->. exists r'. f_equal. f_equal. f_equal.
  destruct (numerical_bound_least _ _ _ _ _ _ _ _ E') as (n' & -> & Hn' & _ & _ & Hl).
  destruct (numerical_bound_monotone c c p p v v (Some t) None dim fuel fuel _ _ ltac:(lra) ltac:(lra) ltac:(lra) ltac:(cbn; lra) Hf E') as (z2 & r2 & E2 & L).
  rewrite E in E2. injection E2 as <- _.
  destruct (le_lt_dec n' n) as [L'|L']; [lia|]. specialize (Hl n ltac:(lia)). lra.
Qed.
Print Assumptions large_tolerance_same.
Example large_tolerance_ex : exists T, 0 < T /\ forall t, T <= t -> exists r, compute_numerical_bound (1 / 2) (9 / 10) 1 2 (Some t) 1000 = Some (Ret 57%Z, r).
Proof.
  destruct (suite_counts 1000 (le_n _)) as (E & _). eapply (large_tolerance_same (1 / 2) (9 / 10) 1 2 1000 57 1); [lra|lra|apply le_n|exact E|].
  rewrite suite_measure_none. change (Z.to_nat 57) with 57%nat. change (2 + 1)%nat with 3%nat. destruct psums as (_ & P57 & _). pose proof PI_above as HA.
  apply Rlt_le_trans with (net_failure_bound (3125 / 4000) 3 57).
  - unfold net_failure_bound. rewrite <- psum_spec, P57. apply Rmult_lt_compat_l; [lra|]. apply Rpower_lt; [lra|].
    rewrite !INR_IZR_INZ. cbn [Z.of_nat Pos.of_succ_nat Pos.succ]. lra.
  - apply (tenth_pass _ _ 89 4); [lia|rewrite P57; vm_compute; discriminate|]. rewrite !INR_IZR_INZ. cbn [Z.of_nat Pos.of_succ_nat Pos.succ]. lra.
Qed.
