(** Proofs for the sample bound (C01, C02, C03, C06, C07). *)
From Coq Require Import ZArith Reals List Lia Lra Psatz.
From Verif Require Import Search_Model Search_Proofs Bound_Model.
Import ListNotations.

(** * Partial sums of binomial rows *)
Section Binomial.
Open Scope Z_scope.

Lemma comb_nonneg : forall n k, 0 <= comb n k.
Proof.
  induction n as [|n IH]; intros [|k]; simpl; try lia.
  pose proof (IH k). pose proof (IH (S k)). lia.
Qed.

Lemma comb_0_r : forall n, comb n 0 = 1.
Proof. destruct n; reflexivity. Qed.

Lemma comb_gt : forall n k, (n < k)%nat -> comb n k = 0.
Proof.
  induction n as [|n IH]; intros [|k] H; simpl; try lia.
  rewrite !IH by lia. reflexivity.
Qed.

(** (k+1) C(n,k+1) = (n-k) C(n,k) *)
Lemma comb_absorb : forall n k,
  (Z.of_nat k + 1) * comb n (S k) = (Z.of_nat n - Z.of_nat k) * comb n k.
Proof.
  induction n as [|n IH]; intros k.
  - destruct k; simpl; lia.
  - destruct k as [|k].
    + simpl comb. rewrite comb_0_r. specialize (IH O). rewrite comb_0_r in IH. lia.
    + simpl comb. pose proof (IH k). pose proof (IH (S k)).
      rewrite !Nat2Z.inj_succ in *. nia.
Qed.

(** rows of binomials are log-concave *)
Lemma comb_log_concave : forall n i d, (i <= d)%nat ->
  comb n (S d) * comb n i <= comb n d * comb n (S i).
Proof.
  intros n i d Hid.
  pose proof (comb_absorb n i). pose proof (comb_absorb n d).
  pose proof (comb_nonneg n i). pose proof (comb_nonneg n d).
  pose proof (comb_nonneg n (S i)). pose proof (comb_nonneg n (S d)).
  set (a := comb n i) in *. set (b := comb n (S i)) in *.
  set (c := comb n d) in *. set (e := comb n (S d)) in *.
  set (I := Z.of_nat i + 1) in *. set (D := Z.of_nat d + 1) in *.
  assert (HI : 0 < I) by (unfold I; lia). assert (HD : 0 < D) by (unfold D; lia).
  assert (Hle : I <= D) by (unfold I, D; lia).
  set (N := Z.of_nat n + 1) in *.
  assert (H' : I * b = (N - I) * a) by (unfold N, I; lia).
  assert (H0' : D * e = (N - D) * c) by (unfold N, D; lia).
  assert (HN : 0 < N) by (unfold N; lia).
  assert (Hgoal : (I * D) * (e * a) <= (I * D) * (c * b)).
  { replace (I * D * (e * a)) with (I * a * (D * e)) by ring.
    replace (I * D * (c * b)) with (D * c * (I * b)) by ring.
    rewrite H', H0'.
    assert (I * (N - D) <= D * (N - I)) by nia.
    assert (0 <= a * c) by nia. nia. }
  nia.
Qed.

(** T n d = sum_{i<=d} C(n,i) *)
Fixpoint psum (n d : nat) : Z :=
  match d with
  | O => comb n 0
  | S d' => psum n d' + comb n (S d')
  end.

Lemma psum_S : forall n d, psum n (S d) = psum n d + comb n (S d).
Proof. reflexivity. Qed.

Lemma psum_0 : forall n, psum n 0 = 1.
Proof. intros; simpl. apply comb_0_r. Qed.

Lemma psum_pos : forall n d, 1 <= psum n d.
Proof.
  induction d; simpl; [rewrite comb_0_r; lia|]. pose proof (comb_nonneg n (S d)). lia.
Qed.

Lemma psum_ss : forall n d,
  fold_right Z.add 0 (map (fun i => comb n i) (seq 0 (d + 1))) = psum n d.
Proof.
  assert (A : forall l x, fold_right Z.add x l = fold_right Z.add 0 l + x).
  { induction l; intros; simpl; [lia|]. rewrite IHl. lia. }
  induction d as [|d IH].
  - simpl. lia.
  - replace (S d + 1)%nat with (S (d + 1)) by lia.
    rewrite seq_S, map_app, fold_right_app. simpl.
    rewrite A, IH. replace (d + 1)%nat with (S d) by lia. lia.
Qed.

(** T(n+1,d) = 2 T(n,d) - C(n,d) *)
Lemma psum_step : forall n d, psum (S n) d = 2 * psum n d - comb n d.
Proof.
  intros n. induction d as [|d IH]; simpl psum.
  - simpl. rewrite comb_0_r. lia.
  - rewrite IH. simpl comb at 2. lia.
Qed.

Lemma psum_ratio : forall n d, comb n d * psum (S n) d <= comb (S n) d * psum n d.
Proof.
  intros n d.
  assert (T : forall i, (i <= d)%nat -> comb n d * comb (S n) i <= comb (S n) d * comb n i).
  { intros i Hi. destruct i as [|i].
    - rewrite !comb_0_r. destruct d as [|d]; [rewrite !comb_0_r; lia|].
      simpl. pose proof (comb_nonneg n d). lia.
    - destruct d as [|d]; [lia|]. simpl comb.
      pose proof (comb_log_concave n i d ltac:(lia)). lia. }
  assert (G : forall e, (e <= d)%nat -> comb n d * psum (S n) e <= comb (S n) d * psum n e).
  { induction e as [|e IH]; intros He.
    - exact (T 0%nat He).
    - rewrite !psum_S. specialize (IH ltac:(lia)). specialize (T (S e) He).
      rewrite !Z.mul_add_distr_l. lia. }
  apply G; lia.
Qed.

(** one-step log-concavity in n *)
Lemma psum_log_concave : forall n d, psum (S (S n)) d * psum n d <= psum (S n) d * psum (S n) d.
Proof.
  intros n d. pose proof (psum_ratio n d) as H.
  pose proof (psum_step (S n) d) as E2. pose proof (psum_step n d) as E1.
  rewrite E2. clear E2.
  set (a := psum n d) in *. set (b := psum (S n) d) in *.
  set (c := comb n d) in *. set (e := comb (S n) d) in *. nia.
Qed.

Lemma psum_mono : forall n d, psum n d <= psum (S n) d.
Proof.
  intros n d. rewrite psum_step.
  assert (comb n d <= psum n d).
  { destruct d; simpl; [lia|]. pose proof (psum_pos n d). lia. }
  lia.
Qed.

(** two-step log-concavity, the one needed since the bound uses 2m *)
Lemma psum_log_concave2 : forall n d,
  psum (S (S (S (S n)))) d * psum n d <= psum (S (S n)) d * psum (S (S n)) d.
Proof.
  intros n d.
  pose proof (psum_log_concave n d) as H0.
  pose proof (psum_log_concave (S n) d) as H1.
  pose proof (psum_log_concave (S (S n)) d) as H2.
  pose proof (psum_pos n d). pose proof (psum_pos (S n) d).
  pose proof (psum_pos (S (S n)) d). pose proof (psum_pos (S (S (S n))) d).
  pose proof (psum_pos (S (S (S (S n)))) d).
  set (a := psum n d) in *. set (b := psum (S n) d) in *. set (c := psum (S (S n)) d) in *.
  set (e := psum (S (S (S n))) d) in *. set (g := psum (S (S (S (S n)))) d) in *.
  (* c a <= b^2, e b <= c^2, g c <= e^2 ; want g a <= c^2 *)
  assert (P1 : (g * c) * (c * a) <= (e * e) * (b * b)).
  { apply Z.mul_le_mono_nonneg; try lia; nia. }
  assert (P2 : (e * b) * (e * b) <= (c * c) * (c * c)).
  { apply Z.mul_le_mono_nonneg; nia. }
  assert (P3 : (c * c) * (g * a) <= (c * c) * (c * c)) by nia.
  apply Z.mul_le_mono_pos_l with (c * c); nia.
Qed.

(** polynomial growth *)
Lemma comb_le_pow : forall n k, comb n k <= (Z.of_nat n + 1) ^ Z.of_nat k.
Proof.
  induction n as [|n IH]; intros [|k].
  - simpl. lia.
  - simpl comb. apply Z.pow_nonneg. lia.
  - rewrite comb_0_r. simpl. lia.
  - simpl comb. pose proof (IH k) as H1. pose proof (IH (S k)) as H2.
    rewrite (Nat2Z.inj_succ k) in *. rewrite Z.pow_succ_r in * by lia.
    rewrite Nat2Z.inj_succ.
    assert (H0 : 0 <= Z.of_nat n) by lia.
    set (N := Z.of_nat n) in *. set (K := Z.of_nat k) in *.
    replace (Z.succ N + 1) with (N + 2) by lia.
    assert (Hm : (N + 1) ^ K <= (N + 2) ^ K) by (apply Z.pow_le_mono_l; lia).
    assert (0 <= (N + 1) ^ K) by (apply Z.pow_nonneg; lia).
    set (A := (N + 1) ^ K) in *. set (B := (N + 2) ^ K) in *.
    assert ((N + 2) * A <= (N + 2) * B) by (apply Z.mul_le_mono_nonneg_l; lia).
    lia.
Qed.

Lemma psum_le_pow : forall n d, psum n d <= (Z.of_nat n + 2) ^ Z.of_nat d.
Proof.
  intros n. induction d as [|d IH].
  - simpl psum. rewrite comb_0_r. simpl. lia.
  - rewrite psum_S. pose proof (comb_le_pow n (S d)) as H.
    rewrite (Nat2Z.inj_succ d) in *. rewrite Z.pow_succ_r in * by lia.
    assert (H0 : 0 <= Z.of_nat n) by lia.
    set (N := Z.of_nat n) in *. set (D := Z.of_nat d) in *.
    assert (Hm : (N + 1) ^ D <= (N + 2) ^ D) by (apply Z.pow_le_mono_l; lia).
    assert (0 <= (N + 1) ^ D) by (apply Z.pow_nonneg; lia).
    set (A := (N + 1) ^ D) in *. set (B := (N + 2) ^ D) in *.
    assert ((N + 1) * A <= (N + 1) * B) by (apply Z.mul_le_mono_nonneg_l; lia).
    lia.
Qed.
End Binomial.

From Verif Require Import Bound_Spec.
Open Scope R_scope.

(** * From the model's formulas to the specification's *)
Lemma C_n_0 : forall n, C n 0 = 1.
Proof.
  intros. unfold C. rewrite Nat.sub_0_r. change (INR (fact 0)) with 1.
  pose proof (INR_fact_neq_0 n). field. assumption.
Qed.

Lemma C_n_n : forall n, C n n = 1.
Proof.
  intros. unfold C. rewrite Nat.sub_diag. change (INR (fact 0)) with 1.
  pose proof (INR_fact_neq_0 n). field. assumption.
Qed.

Lemma comb_choose : forall n k, IZR (comb n k) = choose n k.
Proof.
  induction n as [|n IH]; intros k.
  - destruct k; unfold choose; simpl; [|reflexivity]. unfold C. simpl. lra.
  - destruct k as [|k].
    + rewrite comb_0_r. unfold choose. simpl (0 <=? S n)%nat. rewrite C_n_0. reflexivity.
    + simpl comb. rewrite plus_IZR, !IH. unfold choose.
      destruct (Nat.leb_spec (S k) (S n)) as [Hk|Hk].
      * destruct (Nat.leb_spec k n); [|lia].
        destruct (Nat.leb_spec (S k) n).
        -- apply pascal. lia.
        -- assert (k = n) by lia. subst k. rewrite !C_n_n. lra.
      * destruct (Nat.leb_spec k n); [lia|]. destruct (Nat.leb_spec (S k) n); [lia|]. lra.
Qed.

Lemma psum_spec : forall n d, IZR (psum n d) = sum_f_R0 (fun i => choose n i) d.
Proof.
  intros n. induction d as [|d IH].
  - simpl psum. simpl sum_f_R0. apply comb_choose.
  - rewrite psum_S, plus_IZR, IH, comb_choose. reflexivity.
Qed.

Lemma ss_psum : forall m vc, compute_ss_comb_sum (Z.of_nat m) vc = psum (2 * m) vc.
Proof.
  intros. unfold compute_ss_comb_sum.
  replace (Z.to_nat (2 * Z.of_nat m)) with (2 * m)%nat by lia.
  apply psum_ss.
Qed.

Lemma ln2_pos : 0 < ln 2.
Proof. rewrite <- ln_1. apply ln_increasing; lra. Qed.

Lemma log2R_2 : log2R 2 = 1.
Proof. unfold log2R. pose proof ln2_pos. field. lra. Qed.

Lemma log2R_mult : forall x y, 0 < x -> 0 < y -> log2R (x * y) = log2R x + log2R y.
Proof. intros. unfold log2R. rewrite ln_mult by assumption. pose proof ln2_pos. field. lra. Qed.

Lemma log2R_Rpower : forall x, log2R (Rpower 2 x) = x.
Proof. intros. unfold log2R, Rpower. rewrite ln_exp. pose proof ln2_pos. field. lra. Qed.

Lemma log2R_le : forall x y, 0 < x -> x <= y -> log2R x <= log2R y.
Proof.
  intros x y Hx Hxy. unfold log2R. pose proof ln2_pos.
  apply Rmult_le_compat_r; [left; apply Rinv_0_lt_compat; assumption|].
  destruct Hxy as [Hlt| ->]; [left; apply ln_increasing; assumption|right; reflexivity].
Qed.

Lemma log2R_lt : forall x y, 0 < x -> x < y -> log2R x < log2R y.
Proof.
  intros x y Hx Hxy. unfold log2R. pose proof ln2_pos.
  apply Rmult_lt_compat_r; [apply Rinv_0_lt_compat; assumption|].
  apply ln_increasing; assumption.
Qed.

Lemma log2R_le_iff : forall x y, 0 < x -> 0 < y -> (log2R x <= log2R y <-> x <= y).
Proof.
  intros x y Hx Hy. split; intros H; [|apply log2R_le; assumption].
  destruct (Rle_lt_dec x y); [assumption|]. apply log2R_lt in r; [lra|assumption].
Qed.

Lemma psum_pos_R : forall n d, 0 < IZR (psum n d).
Proof. intros. apply IZR_lt. pose proof (psum_pos n d). lia. Qed.

Lemma nfb_pos : forall rho vc m, 0 < net_failure_bound rho vc m.
Proof.
  intros. unfold net_failure_bound. rewrite <- psum_spec.
  pose proof (psum_pos_R (2 * m) vc). pose proof (exp_pos (- rho * INR m / 2 * ln 2)).
  unfold Rpower. nra.
Qed.

(** line 60 computes log2 of the product form *)
Lemma bound_log2_spec : forall rho vc m,
  compute_sauer_shelah_bound_log2 (Z.of_nat m) rho vc = log2R (net_failure_bound rho vc m).
Proof.
  intros. unfold compute_sauer_shelah_bound_log2, net_failure_bound.
  rewrite ss_psum, <- psum_spec.
  pose proof (psum_pos_R (2 * m) vc).
  rewrite !log2R_mult, log2R_2, log2R_Rpower; try lra; try (apply exp_pos).
  rewrite <- INR_IZR_INZ. lra.
Qed.

(** * Shape of the bound *)
(** the bound is log-concave in m *)
Lemma nfb_log_concave : forall rho vc m,
  log2R (net_failure_bound rho vc (S (S m))) - log2R (net_failure_bound rho vc (S m))
  <= log2R (net_failure_bound rho vc (S m)) - log2R (net_failure_bound rho vc m).
Proof.
  intros. rewrite <- !bound_log2_spec. unfold compute_sauer_shelah_bound_log2.
  rewrite !ss_psum.
  replace (2 * S (S m))%nat with (S (S (S (S (2 * m))))) by lia.
  replace (2 * S m)%nat with (S (S (2 * m))) by lia.
  set (n := (2 * m)%nat).
  pose proof (psum_log_concave2 n vc) as H.
  apply IZR_le in H. rewrite !mult_IZR in H.
  pose proof (psum_pos_R n vc). pose proof (psum_pos_R (S (S n)) vc).
  pose proof (psum_pos_R (S (S (S (S n)))) vc).
  apply log2R_le in H; [|apply Rmult_lt_0_compat; assumption].
  rewrite !log2R_mult in H by assumption.
  rewrite <- !INR_IZR_INZ. rewrite !S_INR. lra.
Qed.

Lemma nfb_0 : forall rho vc, net_failure_bound rho vc 0 = 2.
Proof.
  intros. unfold net_failure_bound. rewrite <- psum_spec. simpl (2 * 0)%nat.
  assert (E : psum 0 vc = 1%Z).
  { induction vc as [|vc IH]; [reflexivity|]. rewrite psum_S, IH. reflexivity. }
  rewrite E. simpl INR.
  replace (- rho * 0 / 2) with 0 by field. rewrite Rpower_O by lra. lra.
Qed.

Section Concave.
  Variable g : nat -> R.
  Hypothesis concave : forall m, g (S (S m)) - g (S m) <= g (S m) - g m.

  Lemma concave_incr : forall m k, g (S (m + k)) - g (m + k)%nat <= g (S m) - g m.
  Proof.
    induction k as [|k IH]; [rewrite Nat.add_0_r; lra|].
    rewrite Nat.add_succ_r. pose proof (concave (m + k)). lra.
  Qed.

  Lemma concave_above : forall m, g (S m) - g m > 0 -> g 0%nat <= g m.
  Proof.
    induction m as [|m IH]; intros H; [lra|].
    pose proof (concave m). specialize (IH ltac:(lra)). lra.
  Qed.

  (** once below the starting value, it never rises again *)
  Lemma concave_downhill : forall m, g m < g 0%nat -> g (S m) <= g m.
  Proof.
    intros m H. destruct (Rle_lt_dec (g (S m)) (g m)); [assumption|].
    pose proof (concave_above m ltac:(lra)). lra.
  Qed.

  Lemma concave_permanent : forall m k, g m < g 0%nat -> g (m + k)%nat <= g m.
  Proof.
    intros m k H. induction k as [|k IH]; [rewrite Nat.add_0_r; lra|].
    rewrite Nat.add_succ_r. pose proof (concave_downhill (m + k) ltac:(lra)). lra.
  Qed.
End Concave.

Lemma nfb_downhill : forall rho vc m, net_failure_bound rho vc m < 2 ->
  net_failure_bound rho vc (S m) <= net_failure_bound rho vc m.
Proof.
  intros rho vc m H.
  apply log2R_le_iff; try apply nfb_pos.
  apply (concave_downhill (fun k => log2R (net_failure_bound rho vc k))).
  - apply nfb_log_concave.
  - rewrite nfb_0. apply log2R_lt; [apply nfb_pos|exact H].
Qed.

Lemma nfb_permanent : forall rho vc m m', (m <= m')%nat -> net_failure_bound rho vc m < 2 ->
  net_failure_bound rho vc m' <= net_failure_bound rho vc m.
Proof.
  intros rho vc m m' Hm H.
  apply log2R_le_iff; try apply nfb_pos.
  replace m' with (m + (m' - m))%nat by lia.
  apply (concave_permanent (fun k => log2R (net_failure_bound rho vc k))).
  - apply nfb_log_concave.
  - rewrite nfb_0. apply log2R_lt; [apply nfb_pos|exact H].
Qed.

(** * The search on the real-valued bound *)
Lemma Rgeb_true : forall a b, Rgeb a b = true <-> b <= a.
Proof. intros. unfold Rgeb. destruct (Rle_dec b a); split; intros; try lra; try discriminate; reflexivity. Qed.
Lemma Rgtb_true : forall a b, Rgtb a b = true <-> b < a.
Proof. intros. unfold Rgtb. destruct (Rlt_dec b a); split; intros; try lra; try discriminate; reflexivity. Qed.
Lemma Rleb_true : forall a b, Rleb a b = true <-> a <= b.
Proof. intros. unfold Rleb. destruct (Rle_dec a b); split; intros; try lra; try discriminate; reflexivity. Qed.
Lemma Rge_not_gt : forall a b, Rgeb b a = true -> Rgtb a b = false.
Proof.
  intros a b H. apply Rgeb_true in H. destruct (Rgtb a b) eqn:E; [|reflexivity].
  apply Rgtb_true in E. lra.
Qed.

Section BoundSearch.
  Variables (rho p : R) (vc : nat).
  Hypothesis Hp : 0 < p < 1.
  Let f := fun m => compute_sauer_shelah_bound_log2 m rho vc.
  Let L := log2R (1 - p).
  Notation B := (net_failure_bound rho vc).

  Lemma f_le_L : forall m, f (Z.of_nat m) <= L <-> B m <= 1 - p.
  Proof. intros. unfold f, L. rewrite bound_log2_spec. apply log2R_le_iff; [apply nfb_pos|lra]. Qed.

  Lemma f_next : forall m, B m <= 1 - p -> f (Z.of_nat m + 1) <= f (Z.of_nat m).
  Proof.
    intros m H. unfold f. replace (Z.of_nat m + 1)%Z with (Z.of_nat (S m)) by lia.
    rewrite !bound_log2_spec. apply log2R_le; [apply nfb_pos|]. apply nfb_downhill. lra.
  Qed.

  Lemma passes_bound : forall m, passes Rgeb f L (Z.of_nat m) = true <-> B m <= 1 - p.
  Proof.
    intros m. unfold passes. rewrite Bool.andb_true_iff, !Rgeb_true, f_le_L. split; [tauto|].
    intros H. split; [exact H|]. apply f_next. exact H.
  Qed.

  Lemma rejects_bound : forall m, rejects Rgtb f L (Z.of_nat m) = true <-> B m > 1 - p.
  Proof.
    intros m. unfold rejects. rewrite Bool.orb_true_iff, !Rgtb_true. split.
    - intros H. destruct (Rle_lt_dec (B m) (1 - p)) as [Hle|]; [exfalso|assumption].
      pose proof (f_next m Hle). apply f_le_L in Hle. lra.
    - intros H. left. destruct (Rle_lt_dec (f (Z.of_nat m)) L) as [Hle|]; [|assumption].
      apply f_le_L in Hle. lra.
  Qed.

  Notation search := (doubling_sample_search_over_log2_prob_bound f p).

  Lemma B_up : forall m m', (m <= m')%nat -> B m <= 1 - p -> B m' <= 1 - p.
  Proof. intros m m' Hm H. pose proof (nfb_permanent rho vc m m' Hm ltac:(lra)). lra. Qed.

  Lemma search_least : forall fuel z, search fuel = Ret z ->
    exists m, z = Z.of_nat m /\ (2 <= m)%nat /\ (z <= 2 ^ 53)%Z /\ B m <= 1 - p /\
      forall m', (2 <= m' < m)%nat -> B m' > 1 - p.
  Proof.
    intros fuel z H. unfold doubling_sample_search_over_log2_prob_bound in H.
    apply (search_ret_inv Rgeb Rgtb f L Rge_not_gt) in H. destruct H as (Hz & Hr & _ & Hl & _).
    exists (Z.to_nat z).
    assert (Ez : z = Z.of_nat (Z.to_nat z)) by lia.
    assert (HB : B (Z.to_nat z) <= 1 - p).
    { destruct (Rle_lt_dec (B (Z.to_nat z)) (1 - p)) as [|Hgt]; [assumption|].
      apply rejects_bound in Hgt. rewrite <- Ez in Hgt. congruence. }
    split; [exact Ez|]. split; [lia|]. split; [lia|]. split; [exact HB|].
    intros m' Hm'. destruct Hl as [->|Hl]; [simpl in Hm'; lia|].
    replace (z - 1)%Z with (Z.of_nat (Z.to_nat z - 1)) in Hl by lia.
    apply rejects_bound in Hl.
    destruct (Rle_lt_dec (B m') (1 - p)) as [Hle|]; [|assumption].
    pose proof (B_up m' (Z.to_nat z - 1) ltac:(lia) Hle). lra.
  Qed.

  Lemma passes_pow2 : forall j, (0 <= j)%Z ->
    (passes Rgeb f L (2 ^ j) = true <-> B (Z.to_nat (2 ^ j)) <= 1 - p).
  Proof.
    intros j Hj. rewrite <- passes_bound.
    assert (0 <= 2 ^ j)%Z by (apply Z.pow_nonneg; lia).
    rewrite Z2Nat.id by assumption. reflexivity.
  Qed.

  Lemma search_total : forall m, (Z.of_nat m <= 2 ^ 53)%Z -> B m <= 1 - p ->
    forall fuel, (1000 <= fuel)%nat -> exists z, search fuel = Ret z.
  Proof.
    intros m Hm HB fuel Hf. unfold doubling_sample_search_over_log2_prob_bound.
    apply (search_terminates Rgeb Rgtb f _ 53); [lia| |exact Hf].
    apply passes_pow2; [lia|]. apply (B_up m); [lia|exact HB].
  Qed.

  Lemma search_no_arith : forall fuel, search fuel <> ErrArith.
  Proof. intros. apply (search_no_err_arith Rgeb Rgtb f _ Rge_not_gt). Qed.

  Lemma search_overflow_bound : forall fuel, (1000 <= fuel)%nat ->
    (search fuel = ErrOverflow <-> B (Z.to_nat (2 ^ 996)) > 1 - p).
  Proof.
    intros fuel Hf. unfold doubling_sample_search_over_log2_prob_bound. split.
    - intros H. destruct (Rle_lt_dec (B (Z.to_nat (2 ^ 996))) (1 - p)) as [Hle|]; [|assumption].
      apply passes_pow2 in Hle; [|lia].
      pose proof (search_overflow_inv Rgeb Rgtb f L Rge_not_gt fuel H 996 ltac:(lia)). congruence.
    - intros H. apply (search_overflow Rgeb Rgtb f L); [exact Hf|].
      intros j Hj. destruct (passes Rgeb f L (2 ^ j)) eqn:E; [|reflexivity]. exfalso.
      apply passes_pow2 in E; [|lia].
      assert (2 ^ j <= 2 ^ 996)%Z by (apply Z.pow_le_mono_r; lia).
      assert (Hle : (Z.to_nat (2 ^ j) <= Z.to_nat (2 ^ 996))%nat).
      { apply Z2Nat.inj_le; [apply Z.pow_nonneg; lia|apply Z.pow_nonneg; lia|assumption]. }
      pose proof (B_up _ (Z.to_nat (2 ^ 996)) Hle E). lra.
  Qed.

  Lemma search_diverges_bound : B (Z.to_nat (2 ^ 53)) > 1 - p -> B (Z.to_nat (2 ^ 996)) <= 1 - p ->
    forall fuel, search fuel = OutOfFuel.
  Proof.
    intros H1 H2 fuel. unfold doubling_sample_search_over_log2_prob_bound.
    apply (search_diverges Rgeb Rgtb f L Rge_not_gt 996); [lia|apply passes_pow2; [lia|exact H2]|].
    intros m Hm. replace m with (Z.of_nat (Z.to_nat m)) by lia.
    apply rejects_bound. destruct (Rle_lt_dec (B (Z.to_nat m)) (1 - p)) as [Hle|]; [|assumption].
    assert (Hm' : (Z.to_nat m <= Z.to_nat (2 ^ 53))%nat) by (apply Z2Nat.inj_le; lia).
    pose proof (B_up _ (Z.to_nat (2 ^ 53)) Hm' Hle). lra.
  Qed.
End BoundSearch.
