(** Properties C130, C131: the tail bounds of bound.py 174-262 bound the probability that some sample
    has [k] others within the radius. *)
From Coq Require Import Reals List Arith Lra Lia Bool ZArith QArith Qreals.
From Verif Require Import Prob Geom_Spec Search_Model Bound_Model Bound_Spec Bound_Proofs Bound_Proofs2 Bound_Props Vc_Props EpsNet_Props.
Import ListNotations.
Close Scope Q_scope.
Open Scope R_scope.

(** *** Specification *)
(** all but the i-th *)
Definition others {P} (i : nat) (t : list P) : list P := firstn i t ++ skipn (S i) t.
(** The i-th sample has [k] others within [rad]. *)
Definition crowded_at {P} (pos : P -> list R) (rad : R) (k : nat) (i : nat) (t : list P) : Prop :=
  exists p, nth_error t i = Some p /\ (k <= count (fun q => in_ball (pos p) rad (pos q)) (others i t))%nat.
Definition crowded {P} (pos : P -> list R) (rad : R) (k : nat) (t : list P) : Prop := exists i, crowded_at pos rad k i t.
(** No ball of radius [rad] around a point of the population holds more than the share of it that a
    uniform draw from a region of volume [vol] would give it. *)
Definition sparse_balls {P} (dim : nat) (pos : P -> list R) (X : list P) (vol rad : R) : Prop :=
  forall x, In x X -> INR (count (fun q => in_ball (pos x) rad (pos q)) X) <= unit_ball_volume dim * rad ^ dim / vol * INR (length X).

(** *** One sample against the others *)
Fixpoint pick {P} (i : nat) (t : list P) : option (P * list P) :=
  match t with
  | [] => None
  | x :: u => match i with O => Some (x, u) | S j => match pick j u with Some (y, v) => Some (y, x :: v) | None => None end end
  end.
Lemma pick_others {P} i : forall t : list P, pick i t = match nth_error t i with Some p => Some (p, others i t) | None => None end.
Proof.
  induction i as [|i IH]; intros [|x t]; try reflexivity. cbn [pick nth_error]. rewrite IH. destruct (nth_error t i); reflexivity.
Qed.
Lemma tsum_pick {P} (X : list P) (g : P -> list P -> R) n : forall i, (i <= n)%nat -> forall f,
  (forall t p u, pick i t = Some (p, u) -> length t = S n -> f t = g p u) -> tsum X (S n) f = rsum X (fun x => tsum X n (g x)).
Proof.
  revert g. induction n as [|n IH]; intros g i Hi f H.
  - assert (i = 0)%nat by lia. subst i. cbn [tsum]. apply rsum_ext. intros x _. now apply (H [x]).
  - destruct i as [|i].
    + cbn [tsum]. apply rsum_ext. intros x _. apply rsum_ext. intros y _. apply tsum_ext. intros t [L _]. apply H; [reflexivity|simpl; lia].
    + change (rsum X (fun y => tsum X (S n) (fun t => f (y :: t))) = rsum X (fun x => rsum X (fun y => tsum X n (fun u => g x (y :: u))))).
      rewrite (rsum_ext X _ (fun y => rsum X (fun x => tsum X n (fun u => g x (y :: u))))); [apply rsum_swap|].
      intros y _. apply (IH (fun x u => g x (y :: u)) i); [lia|]. intros t p u E L. apply H; [cbn [pick]; now rewrite E|simpl; lia].
Qed.
Definition leb_hits {P} (r : P -> bool) (k : nat) (u : list P) : bool := (k <=? hits r u)%nat.
Definition crowded_at_b {P} (pos : P -> list R) (rad : R) (k i : nat) (t : list P) : bool :=
  match nth_error t i with Some p => leb_hits (fun q => in_ball (pos p) rad (pos q)) k (others i t) | None => false end.
Lemma crowded_at_bool {P} (pos : P -> list R) rad k i t : crowded_at_b pos rad k i t = true <-> crowded_at pos rad k i t.
Proof.
  unfold crowded_at_b, crowded_at, leb_hits, hits. destruct (nth_error t i) as [p|]; [|split; [discriminate|intros (p & E & _); discriminate]].
  rewrite Nat.leb_le. split; [eauto|intros (p' & E & H); now injection E as <-].
Qed.
Lemma one_sample {P} (X : list P) pos rad k i n b : (i <= n)%nat -> 0 <= b ->
  (forall x, In x X -> tsum X n (fun u => ind (leb_hits (fun q => in_ball (pos x) rad (pos q)) k u)) <= b * INR (length X) ^ n) ->
  tsum X (S n) (fun t => ind (crowded_at_b pos rad k i t)) <= b * INR (length X) ^ (S n).
Proof.
  intros Hi Hb H. rewrite (tsum_pick X (fun p u => ind (leb_hits (fun q => in_ball (pos p) rad (pos q)) k u)) n i Hi).
  - apply Rle_trans with (rsum X (fun _ => b * INR (length X) ^ n)); [now apply rsum_le|]. rewrite rsum_const. simpl pow. lra.
  - intros t p u E L. rewrite pick_others in E. unfold crowded_at_b. destruct (nth_error t i); [|discriminate]. now injection E as <- <-.
Qed.
Lemma crowded_at_bound {P} (X : list P) pos rad k i n b : (i <= n)%nat -> 0 <= b ->
  (forall x, In x X -> tsum X n (fun u => ind (leb_hits (fun q => in_ball (pos x) rad (pos q)) k u)) <= b * INR (length X) ^ n) ->
  event_at_most X (S n) (crowded_at pos rad k i) b.
Proof.
  intros Hi Hb H bad Hbad. apply probability_sum. apply Rle_trans with (2 := one_sample X pos rad k i n b Hi Hb H).
  apply tsum_le. intros t D. destruct (bad t) eqn:B; [|apply ind_nonneg]. apply (Hbad t D) in B. apply crowded_at_bool in B. rewrite B. apply Rle_refl.
Qed.
Lemma crowded_bound {P} (X : list P) pos rad k n b : 0 <= b ->
  (forall x, In x X -> tsum X n (fun u => ind (leb_hits (fun q => in_ball (pos x) rad (pos q)) k u)) <= b * INR (length X) ^ n) ->
  event_at_most X (S n) (crowded pos rad k) (INR (S n) * b).
Proof.
  intros Hb H bad Hbad. apply probability_sum.
  apply Rle_trans with (tsum X (S n) (fun t => rsum (seq 0 (S n)) (fun i => ind (crowded_at_b pos rad k i t)))).
  - apply tsum_le. intros t D. destruct (bad t) eqn:B; [|apply rsum_nonneg; intros; apply ind_nonneg].
    destruct (Hbad t D B) as (i & C). assert (Li : (i < S n)%nat) by (destruct C as (p & E & _); destruct D as [<- _]; apply nth_error_Some; congruence).
    apply crowded_at_bool in C. eapply Rle_trans; [|apply existsb_sum]. replace (existsb _ (seq 0 (S n))) with true; [apply Rle_refl|].
    symmetry. apply existsb_exists. exists i. split; auto. apply in_seq. lia.
  - rewrite tsum_rsum. apply Rle_trans with (rsum (seq 0 (S n)) (fun _ => b * INR (length X) ^ S n)).
    + apply rsum_le. intros i Ii. apply in_seq in Ii. apply one_sample; auto. lia.
    + rewrite rsum_const, seq_length. lra.
Qed.
(** *** Markov's inequality for the number of hits *)
Lemma markov_hits {A} (X : list A) r n k p th : 1 <= th -> 0 <= p -> INR (count r X) <= p * INR (length X) ->
  th ^ k * tsum X n (fun u => ind (leb_hits r k u)) <= (1 + p * (th - 1)) ^ n * INR (length X) ^ n.
Proof.
  intros Ht Hp Hc. assert (0 <= th ^ k) by (apply pow_le; lra).
  rewrite <- tsum_scal. apply Rle_trans with (tsum X n (fun u => th ^ hits r u)).
  - apply tsum_le. intros u _. unfold leb_hits. destruct (Nat.leb_spec k (hits r u)) as [L|L]; simpl ind.
    + rewrite Rmult_1_r. now apply Rle_pow.
    + rewrite Rmult_0_r. apply pow_le. lra.
  - rewrite tsum_pow_hits, <- Rpow_mult_distr. pose proof (pos_INR (length X)). pose proof (pos_INR (count r X)). apply pow_incr. nra.
Qed.
Lemma too_many {A} (X : list A) r n k : (n < k)%nat -> tsum X n (fun u => ind (leb_hits r k u)) = 0.
Proof.
  intro L. rewrite (tsum_ext X n _ (fun _ => 0)); [rewrite tsum_const; lra|]. intros u [Lu _]. unfold leb_hits.
  destruct (Nat.leb_spec k (hits r u)) as [G|G]; auto. pose proof (count_le r u). unfold hits in G. lia.
Qed.
(** [th^(-k) (1 + p (th - 1))^n], as an exponential *)
Lemma hits_tail {A} (X : list A) r n k p s e : 0 <= s -> 0 <= p -> INR (count r X) <= p * INR (length X) ->
  (1 + p * (exp s - 1)) ^ n <= exp (INR k * s + e) -> tsum X n (fun u => ind (leb_hits r k u)) <= exp e * INR (length X) ^ n.
Proof.
  intros Hs Hp Hc He. assert (H1 : 1 <= exp s) by (pose proof (exp_ineq1_le s); lra).
  pose proof (markov_hits X r n k p (exp s) H1 Hp Hc) as M. assert (NN : 0 <= INR (length X) ^ n) by apply pow_le, pos_INR.
  assert (E : exp s ^ k = exp (INR k * s)).
  { clear. induction k as [|k IH]; [simpl; rewrite Rmult_0_l; symmetry; apply exp_0|]. cbn [pow]. rewrite IH, S_INR, <- exp_plus. f_equal. ring. }
  rewrite E in M. assert (P0 : 0 < exp (INR k * s)) by apply exp_pos. apply (Rmult_le_reg_l (exp (INR k * s))); auto.
  apply Rle_trans with (1 := M). rewrite exp_plus in He. nra.
Qed.
Lemma trivial_tail {A} (X : list A) r n k e : 0 <= e -> tsum X n (fun u => ind (leb_hits r k u)) <= exp e * INR (length X) ^ n.
Proof.
  intro He. assert (1 <= exp e) by (pose proof (exp_ineq1_le e); lra). apply Rle_trans with (tsum X n (fun _ => 1)); [apply tsum_le; intros; apply ind_le1|].
  rewrite tsum_const. assert (0 <= INR (length X) ^ n) by apply pow_le, pos_INR. nra.
Qed.
Lemma pow_exp_le a c n : 0 <= a -> a <= exp c -> a ^ n <= exp (INR n * c).
Proof.
  intros Ha H. induction n as [|n IH]; [simpl; rewrite Rmult_0_l, exp_0; lra|]. cbn [pow]. rewrite S_INR.
  replace ((INR n + 1) * c) with (c + INR n * c) by ring. rewrite exp_plus. apply Rmult_le_compat; auto. now apply pow_le.
Qed.
(** *** Generic Chernoff *)
Lemma generic_tail {A} (X : list A) r n k p : (1 <= k)%nat -> 0 < p -> INR (count r X) <= p * INR (length X) -> INR n * p <= INR k -> (0 < n)%nat ->
  tsum X n (fun u => ind (leb_hits r k u)) <= exp (- (INR n * p) + INR k * (1 + ln (INR n * p) - ln (INR k))) * INR (length X) ^ n.
Proof.
  intros Hk Hp Hc Hm Hn. assert (N0 : 0 < INR n) by (apply lt_0_INR; lia). assert (K0 : 0 < INR k) by (apply lt_0_INR; lia).
  set (mu := INR n * p) in *. assert (M0 : 0 < mu) by (unfold mu; nra).
  apply (hits_tail X r n k p (ln (INR k) - ln mu)); auto; try lra.
  - enough (ln mu <= ln (INR k)) by lra. destruct Hm as [Hm| ->]; [left; now apply ln_increasing|lra].
  - unfold Rminus at 2. rewrite exp_plus, exp_Ropp, !exp_ln by auto.
    apply Rle_trans with (exp (INR n * (p * (INR k * / mu - 1)))).
    + apply pow_exp_le; [|apply exp_ineq1_le]. assert (1 <= INR k * / mu) by (apply (Rmult_le_reg_r mu); auto; rewrite Rmult_assoc, Rinv_l by lra; lra). nra.
    + right. f_equal. replace (INR n * (p * (INR k * / mu - 1))) with (mu * (INR k * / mu - 1)) by (unfold mu; ring).
      replace (mu * (INR k * / mu - 1)) with (INR k - mu) by (field; lra). ring.
Qed.
(** *** Kullback-Leibler *)
Lemma kl_tail {A} (X : list A) r n k p x : 0 < p < 1 -> p <= x < 1 -> INR (count r X) <= p * INR (length X) -> INR n * x <= INR k ->
  tsum X n (fun u => ind (leb_hits r k u)) <= exp (- (x * ln (x / p) + (1 - x) * ln ((1 - x) / (1 - p))) * INR n) * INR (length X) ^ n.
Proof.
  intros Hp Hx Hc Hk. unfold Rdiv. rewrite !ln_mult by (try apply Rinv_0_lt_compat; lra). rewrite !ln_Rinv by lra.
  set (s := ln x - ln p + (ln (1 - p) - ln (1 - x))).
  assert (Mon : forall a b, 0 < a -> a <= b -> ln a <= ln b) by (intros a b Ha [Hab| ->]; [left; now apply ln_increasing|lra]).
  assert (S0 : 0 <= s) by (unfold s; pose proof (Mon p x); pose proof (Mon (1 - x) (1 - p)); lra).
  apply (hits_tail X r n k p s); auto; try lra.
  assert (Es : 1 + p * (exp s - 1) = exp (ln (1 - p) - ln (1 - x))).
  { assert (Ed : forall a b, 0 < a -> 0 < b -> exp (ln a - ln b) = a * / b) by (intros a b Ha Hb; unfold Rminus; rewrite exp_plus, exp_Ropp, !exp_ln by auto; reflexivity).
    unfold s. rewrite exp_plus, !Ed by lra. field. lra. }
  rewrite Es. apply Rle_trans with (exp (INR n * (ln (1 - p) - ln (1 - x)))); [apply pow_exp_le; [left; apply exp_pos|lra]|].
  pose proof (Rmult_le_compat_r s _ _ S0 Hk) as G.
  match goal with |- exp ?a <= exp ?b => assert (L : a <= b) end.
  { replace (INR n * (ln (1 - p) - ln (1 - x))) with (INR n * x * s + - (x * (ln x + - ln p) + (1 - x) * (ln (1 - x) + - ln (1 - p))) * INR n) by (unfold s; ring). lra. }
  destruct L as [L| ->]; [left; now apply exp_increasing|lra].
Qed.
(** *** Hoeffding *)
Lemma mono_derive f f' a b : a <= b -> (forall c, a <= c <= b -> derivable_pt_lim f c (f' c)) -> (forall c, a <= c <= b -> 0 <= f' c) -> f a <= f b.
Proof.
  intros [H| ->] D P; [|lra]. destruct (MVT_cor2 f f' a b H D) as (c & E & Hc). specialize (P c ltac:(lra)). nra.
Qed.
Lemma hoeffding_lemma p s : 0 < p < 1 -> 0 <= s -> 1 + p * (exp s - 1) <= exp (p * s + s * s / 8).
Proof.
  intros Hp Hs. set (d := fun t => 1 - p + p * exp t).
  assert (Dp : forall t, 0 < d t) by (intro t; unfold d; pose proof (exp_pos t); nra).
  assert (De : forall t, derivable_pt_lim d t (p * exp t)).
  { intro t. unfold d. replace (p * exp t) with (0 + (p * exp t)) by ring. apply derivable_pt_lim_plus; [apply derivable_pt_lim_const|].
    apply (derivable_pt_lim_scal exp p t (exp t)), derivable_pt_lim_exp. }
  (* q(t) <= p + t / 4 *)
  assert (Q : forall t, 0 <= t -> p * exp t / d t <= p + t / 4).
  { intros t Ht. set (h := fun u => p + u / 4 - p * exp u / d u).
    assert (h 0 <= h t).
    { apply (mono_derive h (fun u => (1 / 4) - (p * exp u * d u - p * exp u * (p * exp u)) / (d u * d u))); auto.
      - intros u _. unfold h. apply derivable_pt_lim_minus.
        + replace (1 / 4) with (0 + 1 * (/ 4)) by field. apply derivable_pt_lim_plus; [apply derivable_pt_lim_const|].
          replace (1 * / 4) with (1 * / 4 + u * 0) by ring. apply (derivable_pt_lim_mult id (fun _ => / 4) u 1 0); [apply derivable_pt_lim_id|apply derivable_pt_lim_const].
        + replace (p * exp u * d u - p * exp u * (p * exp u)) with (p * exp u * d u - (p * exp u) * (p * exp u)) by ring.
          replace (d u * d u) with (Rsqr (d u)) by reflexivity.
          apply (derivable_pt_lim_div (fun u => p * exp u) d u (p * exp u) (p * exp u)); [|apply De|specialize (Dp u); lra].
          apply (derivable_pt_lim_scal exp p u (exp u)), derivable_pt_lim_exp.
      - intros u _. specialize (Dp u). set (a := p * exp u) in *. set (D := d u) in *.
        assert (I : 0 < / (D * D)) by (apply Rinv_0_lt_compat; nra).
        replace (1 / 4 - (a * D - a * a) / (D * D)) with ((D - 2 * a) * (D - 2 * a) * (/ (D * D)) / 4) by (field; lra).
        pose proof (Rle_0_sqr (D - 2 * a)) as Sq. unfold Rsqr in Sq. nra. }
    unfold h in H at 1. unfold d in H at 1. rewrite exp_0 in H. unfold h in H. replace (1 - p + p * 1) with 1 in H by ring. lra. }
  set (g := fun t => p * t + t * t / 8 - ln (d t)).
  assert (G : g 0 <= g s).
  { apply (mono_derive g (fun t => p + t / 4 - p * exp t / d t)); auto.
    - intros t _. unfold g. apply derivable_pt_lim_minus.
      + replace (p + t / 4) with (p * 1 + ((1 * t + t * 1) * (/ 8) + (t * t) * 0)) by field. apply derivable_pt_lim_plus.
        * apply (derivable_pt_lim_scal id p t 1), derivable_pt_lim_id.
        * apply (derivable_pt_lim_mult (fun t => t * t) (fun _ => / 8) t); [|apply derivable_pt_lim_const].
          apply (derivable_pt_lim_mult id id t 1 1); apply derivable_pt_lim_id.
      + replace (p * exp t / d t) with (/ d t * (p * exp t)) by (unfold Rdiv; ring).
        apply (derivable_pt_lim_comp d ln t); [apply De|]. apply derivable_pt_lim_ln, Dp.
    - intros t Ht. specialize (Q t ltac:(lra)). lra. }
  unfold g in G. unfold d in G at 1. rewrite exp_0 in G. replace (1 - p + p * 1) with 1 in G by ring. rewrite ln_1 in G.
  replace (1 + p * (exp s - 1)) with (d s) by (unfold d; ring). rewrite <- (exp_ln (d s)) by apply Dp.
  assert (L : ln (d s) <= p * s + s * s / 8) by lra. destruct L as [L| ->]; [left; now apply exp_increasing|lra].
Qed.
Lemma hoeffding_tail {A} (X : list A) r n k p x : 0 < p -> p <= x -> x <= 1 -> INR (count r X) <= p * INR (length X) -> INR n * x <= INR k ->
  tsum X n (fun u => ind (leb_hits r k u)) <= exp (- (2 * INR n * (x - p) ^ 2)) * INR (length X) ^ n.
Proof.
  intros Hp Hx H1 Hc Hk. destruct (Req_dec p 1) as [->|N1].
  - assert (x = 1) by lra. subst x. apply trivial_tail. lra.
  - apply (hits_tail X r n k p (4 * (x - p))); auto; try lra.
    apply Rle_trans with (exp (INR n * (p * (4 * (x - p)) + 4 * (x - p) * (4 * (x - p)) / 8))).
    + apply pow_exp_le; [|apply hoeffding_lemma; lra]. assert (1 <= exp (4 * (x - p))) by (pose proof (exp_ineq1_le (4 * (x - p))); lra). nra.
    + match goal with |- exp ?a <= exp ?b => assert (L : a <= b) end.
      { pose proof (Rmult_le_compat_r (4 * (x - p)) _ _ ltac:(lra) Hk) as G. replace (INR n * (p * (4 * (x - p)) + 4 * (x - p) * (4 * (x - p)) / 8)) with (INR n * x * (4 * (x - p)) + - (2 * INR n * (x - p) ^ 2)) by field. lra. }
      destruct L as [L| ->]; [left; now apply exp_increasing|lra].
Qed.
(** *** The bounds of bound.py *)
Lemma exp_ln_plus m e : (1 <= m)%nat -> INR m * exp e = exp (ln (IZR (Z.of_nat m)) + e).
Proof. intro H. rewrite exp_plus, exp_ln, <- INR_IZR_INZ; auto. rewrite <- INR_IZR_INZ. apply lt_0_INR. lia. Qed.
Lemma unit_ball_pos d : 0 < unit_ball_volume d.
Proof.
  enough (0 < unit_ball_volume d /\ 0 < unit_ball_volume (S d)) by tauto. induction d as [|d [A B]]; [simpl; lra|]. split; auto.
  change (unit_ball_volume (S (S d))) with (2 * PI / INR (S (S d)) * unit_ball_volume d). apply Rmult_lt_0_compat; auto.
  apply Rdiv_lt_0_compat; [pose proof PI_RGT_0; lra|apply lt_0_INR; lia].
Qed.
Lemma ball_share_pos dim rad vol : 0 < vol -> 0 < rad -> 0 < unit_ball_volume dim * rad ^ dim / vol.
Proof. intros Hv Hr. apply Rdiv_lt_0_compat; auto. apply Rmult_lt_0_compat; [apply unit_ball_pos|now apply pow_lt]. Qed.
Lemma model_share dim rad vol : compute_vol_unit_sphere dim / vol * rad ^ dim = unit_ball_volume dim * rad ^ dim / vol.
Proof. rewrite unit_ball_volume_correct. unfold Rdiv. ring. Qed.
Lemma capped_share {P} dim (pos : P -> list R) X vol rad x : sparse_balls dim pos X vol rad -> In x X ->
  INR (count (fun q => in_ball (pos x) rad (pos q)) X) <= Rmin (unit_ball_volume dim * rad ^ dim / vol) 1 * INR (length X).
Proof.
  intros H I. specialize (H x I). unfold Rmin. destruct (Rle_dec _ _); auto. rewrite Rmult_1_l. apply le_INR, count_le.
Qed.

(** Some sample has [k] others within the radius with probability at most the exponential of the
    Hoeffding bound. *)
Theorem hoeffding_bound_sound : forall (P : Type) dim (pos : P -> list R) X vol rad m k, (2 <= m)%nat -> 0 < vol -> 0 < rad ->
  sparse_balls dim pos X vol rad ->
  event_at_most X m (crowded pos rad k) (exp (compute_tail_knn_radius_log_prob_hoeffding (Z.of_nat m) (Z.of_nat k) rad dim vol)).
Proof.
  intros P dim pos X vol rad m k Hm Hv Hr Sp. destruct m as [|n]; [lia|].
  unfold compute_tail_knn_radius_log_prob_hoeffding. rewrite model_share. set (p := unit_ball_volume dim * rad ^ dim / vol).
  assert (Pp : 0 < p) by now apply ball_share_pos.
  rewrite <- !INR_IZR_INZ. replace (INR (S n) - 1) with (INR n) by (rewrite S_INR; ring).
  assert (N0 : 0 < INR n) by (apply lt_0_INR; lia).
  set (tl := Rmax (INR k / INR n - p) 0).
  replace (ln (INR (S n)) - 2 * INR n * tl ^ 2) with (ln (IZR (Z.of_nat (S n))) + - (2 * INR n * tl ^ 2)) by (rewrite <- INR_IZR_INZ; ring).
  rewrite <- exp_ln_plus by lia. apply crowded_bound; [left; apply exp_pos|]. intros x Ix. unfold tl, Rmax.
  assert (NN : 0 <= INR (length X) ^ n) by apply pow_le, pos_INR.
  destruct (Rle_dec _ 0) as [Y|Y]; [apply trivial_tail; simpl; lra|].
  destruct (le_lt_dec k n) as [L|L]; [|rewrite too_many by auto; apply Rmult_le_pos; auto; left; apply exp_pos].
  apply hoeffding_tail; auto; try lra; [|right; field; lra].
  apply (Rmult_le_reg_r (INR n)); auto. unfold Rdiv. rewrite Rmult_assoc, Rinv_l by lra. apply le_INR in L. lra.
Qed.
Print Assumptions hoeffding_bound_sound.
Lemma kl_sample {A} (X : list A) r n k p h : (1 <= n)%nat -> 0 < p <= 1 -> INR (count r X) <= p * INR (length X) ->
  entropy2 (p + Rmax (INR k / INR (S n) - p) 0) p = Some h ->
  tsum X n (fun u => ind (leb_hits r k u)) <= exp (- h * INR n) * INR (length X) ^ n.
Proof.
  intros Hn Hp Hc E. set (x := p + Rmax (INR k / INR (S n) - p) 0) in *.
  assert (N0 : 0 < INR n) by (apply lt_0_INR; lia). assert (N1 : INR (S n) = INR n + 1) by apply S_INR.
  assert (NN : 0 <= INR (length X) ^ n) by apply pow_le, pos_INR.
  assert (Px : p <= x) by (unfold x; pose proof (Rmax_r (INR k / INR (S n) - p) 0); lra).
  destruct (le_lt_dec k n) as [L|L]; [|rewrite too_many by auto; apply Rmult_le_pos; auto; left; apply exp_pos].
  assert (Kx : INR n * (INR k / INR (S n)) <= INR k).
  { pose proof (pos_INR k). apply (Rmult_le_reg_r (INR (S n))); [lra|]. replace (INR n * (INR k / INR (S n)) * INR (S n)) with (INR n * INR k) by (field; lra). nra. }
  assert (K1 : INR k / INR (S n) < 1).
  { apply (Rmult_lt_reg_r (INR (S n))); [lra|]. unfold Rdiv. rewrite Rmult_assoc, Rinv_l by lra. apply le_INR in L. lra. }
  unfold Rmax in x. destruct (Rle_dec (INR k / INR (S n) - p) 0) as [Y|Y].
  - (* at or below the mean the entropy is zero *)
    replace x with p in * by (unfold x; ring).
    assert (h = 0).
    { unfold entropy2, rel_entr in E. destruct (Rlt_dec 0 p); [|lra]. replace (p / p) with 1 in E by (field; lra). rewrite ln_1 in E.
      destruct (Rlt_dec 0 (1 - p)).
      - replace ((1 - p) / (1 - p)) with 1 in E by (field; lra). rewrite ln_1 in E. injection E as <-. ring.
      - destruct (Req_EM_T (1 - p) 0); [|discriminate]. destruct (Rle_dec 0 (1 - p)); [|discriminate]. injection E as <-. ring. }
    subst h. apply trivial_tail. lra.
  - replace x with (INR k / INR (S n)) in * by (unfold x; ring). set (y := INR k / INR (S n)) in *.
    assert (Hy : p < y) by lra. unfold entropy2, rel_entr in E. destruct (Rlt_dec 0 y); [|lra]. destruct (Rlt_dec 0 p); [|lra].
    destruct (Rlt_dec 0 (1 - y)); [|lra]. destruct (Rlt_dec 0 (1 - p)); [|lra]. injection E as <-. apply kl_tail; auto; lra.
Qed.
Lemma kl_infinite_sample {A} (X : list A) r n k p : (1 <= n)%nat -> 0 < p <= 1 ->
  entropy2 (p + Rmax (INR k / INR (S n) - p) 0) p = None -> tsum X n (fun u => ind (leb_hits r k u)) = 0.
Proof.
  intros Hn Hp E. apply too_many. destruct (le_lt_dec k n) as [L|L]; auto. exfalso. revert E.
  assert (N1 : INR (S n) = INR n + 1) by apply S_INR. assert (N0 : 0 < INR n) by (apply lt_0_INR; lia).
  assert (K1 : INR k / INR (S n) < 1).
  { apply (Rmult_lt_reg_r (INR (S n))); [lra|]. unfold Rdiv. rewrite Rmult_assoc, Rinv_l by lra. apply le_INR in L. lra. }
  unfold Rmax. destruct (Rle_dec (INR k / INR (S n) - p) 0) as [Y|Y].
  - replace (p + 0) with p by ring. unfold entropy2, rel_entr. destruct (Rlt_dec 0 p); [|lra]. destruct (Rlt_dec 0 (1 - p)); [discriminate|].
    destruct (Req_EM_T (1 - p) 0); [|lra]. destruct (Rle_dec 0 (1 - p)); [discriminate|lra].
  - replace (p + (INR k / INR (S n) - p)) with (INR k / INR (S n)) by ring. unfold entropy2, rel_entr.
    destruct (Rlt_dec 0 (INR k / INR (S n))); [|lra]. destruct (Rlt_dec 0 p); [|lra].
    destruct (Rlt_dec 0 (1 - INR k / INR (S n))); [|lra]. destruct (Rlt_dec 0 (1 - p)); [discriminate|lra].
Qed.
(** the probability whose logarithm is given ([None]: minus infinity) *)
Definition exp_ext (l : option R) : R := match l with Some x => exp x | None => 0 end.
(** The same for the Kullback-Leibler bound with the union bound factor ... *)
Theorem chernoff_kl_bound_sound : forall (P : Type) dim (pos : P -> list R) X vol rad m k, (2 <= m)%nat -> 0 < vol -> 0 < rad ->
  sparse_balls dim pos X vol rad ->
  event_at_most X m (crowded pos rad k) (exp_ext (compute_tail_knn_radius_log_prob_chernoff_kl (Z.of_nat m) (Z.of_nat k) rad dim vol true)).
Proof.
  intros P dim pos X vol rad m k Hm Hv Hr Sp. destruct m as [|n]; [lia|].
  unfold compute_tail_knn_radius_log_prob_chernoff_kl. rewrite model_share. set (p := Rmin (unit_ball_volume dim * rad ^ dim / vol) 1).
  assert (Pp : 0 < p <= 1) by (unfold p; split; [apply Rmin_pos; [now apply ball_share_pos|lra]|apply Rmin_r]).
  rewrite <- !INR_IZR_INZ. destruct (entropy2 _ p) as [h|] eqn:E; cbn [exp_ext].
  - replace (ln (INR (S n)) - h * (INR (S n) - 1)) with (ln (IZR (Z.of_nat (S n))) + - h * INR n) by (rewrite <- INR_IZR_INZ, S_INR; ring).
    rewrite <- exp_ln_plus by lia. apply crowded_bound; [left; apply exp_pos|]. intros x Ix. apply kl_sample with p; auto; [lia|]. now apply capped_share.
  - replace 0 with (INR (S n) * 0) by ring. apply crowded_bound; [lra|]. intros x Ix. right. rewrite (kl_infinite_sample X _ n k p); auto; [ring|lia].
Qed.
Print Assumptions chernoff_kl_bound_sound.
(** ... and, without it, for one sample. *)
Theorem chernoff_kl_bound_one_sample : forall (P : Type) dim (pos : P -> list R) X vol rad m k i, (2 <= m)%nat -> (i < m)%nat -> 0 < vol -> 0 < rad ->
  sparse_balls dim pos X vol rad ->
  event_at_most X m (crowded_at pos rad k i) (exp_ext (compute_tail_knn_radius_log_prob_chernoff_kl (Z.of_nat m) (Z.of_nat k) rad dim vol false)).
Proof.
  intros P dim pos X vol rad m k i Hm Hi Hv Hr Sp. destruct m as [|n]; [lia|].
  unfold compute_tail_knn_radius_log_prob_chernoff_kl. rewrite model_share. set (p := Rmin (unit_ball_volume dim * rad ^ dim / vol) 1).
  assert (Pp : 0 < p <= 1) by (unfold p; split; [apply Rmin_pos; [now apply ball_share_pos|lra]|apply Rmin_r]).
  rewrite <- !INR_IZR_INZ. destruct (entropy2 _ p) as [h|] eqn:E; cbn [exp_ext].
  - replace (INR (S n) - 1) with (INR n) by (rewrite S_INR; ring).
    apply crowded_at_bound; [lia|left; apply exp_pos|]. intros x Ix. apply kl_sample with p; auto; [lia|]. now apply capped_share.
  - apply crowded_at_bound; [lia|lra|]. intros x Ix. right. rewrite (kl_infinite_sample X _ n k p); auto; [ring|lia].
Qed.
Print Assumptions chernoff_kl_bound_one_sample.
(** The generic Chernoff bound holds up to the expected number of neighbours. *)
Theorem chernoff_generic_bound_sound : forall (P : Type) dim (pos : P -> list R) X vol rad m k, (2 <= m)%nat -> (1 <= k)%nat -> 0 < vol -> 0 < rad ->
  sparse_balls dim pos X vol rad -> expected_ball_count (Z.of_nat m) rad dim vol <= INR k ->
  event_at_most X m (crowded pos rad k) (exp (compute_tail_knn_radius_log_prob_chernoff_generic (Z.of_nat m) (Z.of_nat k) rad dim vol)).
Proof.
  intros P dim pos X vol rad m k Hm Hk Hv Hr Sp He. destruct m as [|n]; [lia|].
  unfold expected_ball_count in He. unfold compute_tail_knn_radius_log_prob_chernoff_generic. rewrite model_share. rewrite <- !INR_IZR_INZ in *.
  set (p := Rmin (unit_ball_volume dim * rad ^ dim / vol) 1) in *.
  assert (Pp : 0 < p) by (unfold p; apply Rmin_pos; [now apply ball_share_pos|lra]).
  replace (INR (S n) - 1) with (INR n) in * by (rewrite S_INR; ring).
  replace (ln (INR (S n)) - INR n * p + INR k * (1 + ln (INR n * p) - ln (INR k)))
    with (ln (IZR (Z.of_nat (S n))) + (- (INR n * p) + INR k * (1 + ln (INR n * p) - ln (INR k)))) by (rewrite <- INR_IZR_INZ; ring).
  rewrite <- exp_ln_plus by lia. apply crowded_bound; [left; apply exp_pos|]. intros x Ix. apply generic_tail; auto; [|lia]. now apply capped_share.
Qed.
Print Assumptions chernoff_generic_bound_sound.

(** *** Where the other bounds fail *)
(** Two far points, radius one, volume four: each ball holds half of the population. *)
Definition far2 : list Z := [0; 10]%Z.
Lemma zball a rad b : in_ball (zcoord a) rad (zcoord b) = true <-> Rabs (IZR (b - a)) <= rad.
Proof.
  unfold zcoord. change (in_ball [IZR a] rad (zcoord b) = true <-> Rabs (IZR (b - a)) <= rad). rewrite in_ball_line, minus_IZR. split; intro H.
  - apply Rabs_le. lra.
  - destruct (Rle_dec 0 (IZR b - IZR a)); [rewrite Rabs_pos_eq in H by lra|rewrite Rabs_left in H by lra]; lra.
Qed.
Lemma zball_Z a rad b : in_ball (zcoord a) (IZR rad) (zcoord b) = (Z.abs (b - a) <=? rad)%Z.
Proof.
  apply eq_true_iff_eq. rewrite zball, Z.leb_le, <- abs_IZR. split; [apply le_IZR|apply IZR_le].
Qed.
Lemma count_ext {A} (f g : A -> bool) l : (forall x, f x = g x) -> count f l = count g l.
Proof. intro H. unfold count. induction l as [|a l IH]; auto. simpl. rewrite H. destruct (g a); simpl; auto. Qed.
Lemma far2_sparse : sparse_balls 1 zcoord far2 4 1.
Proof.
  intros x Ix. rewrite (count_ext _ (fun q => (Z.abs (q - x) <=? 1)%Z)) by (intro; apply zball_Z).
  destruct Ix as [<-|[<-|[]]]; vm_compute count; simpl; lra.
Qed.
(** The mean variant promises more than holds: two draws coincide half of the time. *)
Theorem hoeffding_mean_variant_sound_refuted : exists (P : Type) dim (pos : P -> list R) X vol rad m k,
  (2 <= m)%nat /\ (1 <= k < m)%nat /\ (1 <= dim)%nat /\ 0 < vol /\ 0 < rad /\ sparse_balls dim pos X vol rad /\
  ~ event_at_most X m (crowded pos rad k) (exp (compute_tail_knn_radius_log_prob_hoeffding_mean_variant (Z.of_nat m) (Z.of_nat k) rad dim vol)).
Proof.
  exists Z, 1%nat, zcoord, far2, 4, 1, 2%nat, 1%nat. do 3 (split; [lia|]). do 2 (split; [lra|]). split; [apply far2_sparse|]. intro H.
  specialize (H (fun t => match t with [a; b] => (a =? b)%Z | _ => false end)).
  assert (G : probability_at_most far2 2 (fun t => match t with [a; b] => (a =? b)%Z | _ => false end) (exp (compute_tail_knn_radius_log_prob_hoeffding_mean_variant (Z.of_nat 2) (Z.of_nat 1) 1 1 4))).
  { apply H. intros t _ B. destruct t as [|a [|b [|? ?]]]; try discriminate. apply Z.eqb_eq in B. subst b.
    exists 0%nat, a. split; [reflexivity|]. rewrite (count_ext _ (fun q => (Z.abs (q - a) <=? 1)%Z)) by (intro; apply zball_Z).
    unfold others. simpl. unfold count. simpl. replace (Z.abs (a - a) <=? 1)%Z with true by (symmetry; apply Z.leb_le; lia). simpl. lia. }
  clear H. unfold probability_at_most in G. vm_compute (count _ _) in G. vm_compute (length _) in G.
  unfold compute_tail_knn_radius_log_prob_hoeffding_mean_variant in G. rewrite model_share in G. simpl unit_ball_volume in G.
  replace (Z.of_nat 2) with 2%Z in G by reflexivity. replace (Z.of_nat 1) with 1%Z in G by reflexivity.
  replace (2 * 1 ^ 1 / 4) with (1 / 2) in G by field. replace (1 / (2 - 1) / (1 / 2) - 1) with 1 in G by field. rewrite Rmax_left in G by lra.
  replace (ln 2 - 2 * (2 - 1) * 1 ^ 2 / (1 / 2) ^ 2) with (ln 2 + - (8)) in G by field. rewrite exp_plus, exp_ln in G by lra.
  assert (E8 : exp (- (8)) < 1 / 8).
  { rewrite exp_Ropp. pose proof (exp_ineq1 8 ltac:(lra)). apply (Rmult_lt_reg_r (exp 8)); [apply exp_pos|]. rewrite Rinv_l by lra. lra. }
  simpl INR in G. lra.
Qed.
Print Assumptions hoeffding_mean_variant_sound_refuted.
Lemma exp_nat n : exp (INR n) = exp 1 ^ n.
Proof. induction n as [|n IH]; [apply exp_0|]. rewrite S_INR, exp_plus, IH. simpl pow. ring. Qed.
Lemma exp_m8 : exp (- (8)) < 1 / 256.
Proof.
  replace (- (8)) with (- INR 8) by (simpl; ring). rewrite exp_Ropp, exp_nat. assert (E1 : 2 < exp 1) by (pose proof (exp_ineq1 1 ltac:(lra)); lra).
  assert (P8 : 256 < exp 1 ^ 8).
  { set (w := exp 1) in *. assert (4 < w * w) by nra. assert (16 < w * w * (w * w)) by nra. simpl pow. nra. }
  unfold Rdiv. rewrite Rmult_1_l. apply Rinv_lt_contravar; nra.
Qed.
(** Beyond the expected number of neighbours the generic bound is wrong: everything within the radius. *)
Definition near2 : list Z := [0; 1]%Z.
Lemma near2_sparse vol : 0 < vol <= 1 -> sparse_balls 1 zcoord near2 vol 1.
Proof.
  intros Hv x Ix. apply Rle_trans with (INR (length near2)); [apply le_INR, count_le|]. simpl unit_ball_volume. simpl pow. simpl length. simpl INR.
  assert (1 <= / vol) by (rewrite <- Rinv_1; apply Rinv_le_contravar; lra). unfold Rdiv. lra.
Qed.
Lemma all_near {P} (pos : P -> list R) X rad m k t : (forall x y, In x X -> In y X -> in_ball (pos x) rad (pos y) = true) ->
  (1 <= m)%nat -> (k <= m - 1)%nat -> drawn X m t -> crowded pos rad k t.
Proof.
  intros H Hm Hk [L F]. destruct t as [|p u]; [simpl in L; lia|]. exists 0%nat, p. split; [reflexivity|].
  change (others 0 (p :: u)) with u. inversion F; subst. replace (count _ u) with (length u); [simpl in Hk; lia|].
  unfold count. clear Hm Hk F. induction u as [|q u IH]; auto. inversion H3; subst. simpl. rewrite H by auto. simpl. f_equal. auto.
Qed.
Lemma sure_event {P} (X : list P) m (E : list P -> Prop) b : X <> [] -> (forall t, drawn X m t -> E t) -> event_at_most X m E b -> 1 <= b.
Proof.
  intros HX H G. specialize (G (fun _ => true) (fun t D _ => H t D)). apply probability_sum in G. simpl ind in G. rewrite tsum_const in G.
  assert (0 < INR (length X) ^ m) by (apply pow_lt, lt_0_INR; destruct X; [congruence|simpl; lia]). nra.
Qed.
Theorem chernoff_generic_bound_sound_refuted : exists (P : Type) dim (pos : P -> list R) X vol rad m k,
  (2 <= m)%nat /\ (1 <= k < m)%nat /\ (1 <= dim)%nat /\ 0 < vol /\ 0 < rad /\ sparse_balls dim pos X vol rad /\
  ~ event_at_most X m (crowded pos rad k) (exp (compute_tail_knn_radius_log_prob_chernoff_generic (Z.of_nat m) (Z.of_nat k) rad dim vol)).
Proof.
  exists Z, 1%nat, zcoord, near2, 1, 1, 10%nat, 1%nat. do 3 (split; [lia|]). do 2 (split; [lra|]). split; [apply near2_sparse; lra|]. intro G.
  apply sure_event in G; [|discriminate|].
  - unfold compute_tail_knn_radius_log_prob_chernoff_generic in G. rewrite model_share in G. simpl unit_ball_volume in G.
    replace (2 * 1 ^ 1 / 1) with 2 in G by field. rewrite Rmin_right in G by lra. replace (Z.of_nat 10) with 10%Z in G by reflexivity. replace (Z.of_nat 1) with 1%Z in G by reflexivity.
    rewrite ln_1 in G. replace (ln 10 - (10 - 1) * 1 + 1 * (1 + ln ((10 - 1) * 1) - 0)) with (ln 10 + ln 9 + - (8)) in G by (replace ((10 - 1) * 1) with 9 by ring; ring).
    rewrite <- ln_mult in G by lra. rewrite exp_plus, exp_ln in G by lra.
    pose proof exp_m8.
    lra.
  - intros t D. apply (all_near zcoord near2 1 10); auto; try lia. intros x y [<-|[<-|[]]] [<-|[<-|[]]]; rewrite (zball_Z _ 1); reflexivity.
Qed.
Print Assumptions chernoff_generic_bound_sound_refuted.

(** *** The closed form for the effective radius *)
Lemma eff_rad_count m k dim vol q r : (2 <= m)%Z -> (1 <= k)%Z -> (1 <= dim)%nat -> unit_ball_volume dim <= vol ->
  compute_eff_conn_rad_bound m k dim vol q = Some r -> 0 < r -> expected_ball_count m r dim vol <= IZR k.
Proof.
  intros Hm Hk Hd Hv E Hr. apply IZR_le in Hm. pose proof (unit_ball_pos dim) as V0.
  unfold expected_ball_count. apply Rle_trans with ((IZR m - 1) * (unit_ball_volume dim * r ^ dim / vol)); [apply Rmult_le_compat_l; [lra|apply Rmin_l]|].
  unfold compute_eff_conn_rad_bound in E. rewrite unit_ball_volume_correct in E.
  assert (V1 : unit_ball_volume dim / vol <= 1) by (apply (Rmult_le_reg_r vol); [lra|]; unfold Rdiv; rewrite Rmult_assoc, Rinv_l by lra; lra).
  rewrite Rmin_left in E by auto. set (V := unit_ball_volume dim / vol) in *. assert (VP : 0 < V) by (apply Rdiv_lt_0_compat; lra).
  set (s := sqrt _) in *. assert (S0 : 0 <= s) by apply sqrt_pos. set (nu := IZR k - s) in *.
  destruct (Rlt_dec 0 (nu / ((IZR m - 1) * V))) as [Y|Y].
  - injection E as <-. rewrite <- Rpower_pow, Rpower_mult by (apply exp_pos).
    replace (1 / INR dim * INR dim) with 1 by (field; apply not_0_INR; lia). rewrite Rpower_1 by auto.
    replace ((IZR m - 1) * (unit_ball_volume dim * (nu / ((IZR m - 1) * V)) / vol)) with ((IZR m - 1) * V * (nu / ((IZR m - 1) * V))) by (unfold V; field; split; [|split]; try lra; apply Rgt_not_eq; lra).
    replace ((IZR m - 1) * V * (nu / ((IZR m - 1) * V))) with nu by (field; lra). unfold nu. lra.
  - destruct (Req_EM_T _ 0); [injection E as <-; lra|discriminate].
Qed.
(** The radius of compute_eff_conn_rad_bound: fewer than [k] others within it around every sample,
    except with the given probability, if the unit ball is no larger than the region ... *)
Theorem eff_conn_rad_probability_partial : forall (P : Type) dim (pos : P -> list R) X vol failure_prob m k r,
  (2 <= m)%nat -> (1 <= k)%nat -> (1 <= dim)%nat -> unit_ball_volume dim <= vol -> 0 < failure_prob < 1 ->
  compute_eff_conn_rad_bound (Z.of_nat m) (Z.of_nat k) dim vol failure_prob = Some r -> 0 < r ->
  sparse_balls dim pos X vol r -> event_at_most X m (crowded pos r k) failure_prob.
Proof.
  intros P dim pos X vol q m k r Hm Hk Hd Hv Hq E Hr Sp. pose proof (unit_ball_pos dim).
  eapply event_mono; [apply (chernoff_generic_bound_sound P dim pos X vol r m k); auto; try lra| auto |].
  - rewrite INR_IZR_INZ. eapply eff_rad_count; eauto; lia.
  - pose proof (eff_conn_rad_certified_partial (Z.of_nat m) (Z.of_nat k) dim vol q r ltac:(lia) ltac:(lia) Hd Hv Hq E Hr) as G.
    rewrite <- (exp_ln q) by lra. destruct G as [G| ->]; [left; now apply exp_increasing|lra].
Qed.
Print Assumptions eff_conn_rad_probability_partial.
(** ... but not in general: in an interval shorter than two, the radius can cover everything. *)
Definition halves (z : Z) : list R := [IZR z / 2].
Theorem eff_conn_rad_probability_refuted : exists (P : Type) dim (pos : P -> list R) X vol failure_prob m k r,
  (2 <= m)%nat /\ (1 <= k < m)%nat /\ (1 <= dim)%nat /\ 0 < vol /\ 0 < failure_prob < 1 /\ 0 < r /\
  compute_eff_conn_rad_bound (Z.of_nat m) (Z.of_nat k) dim vol failure_prob = Some r /\
  sparse_balls dim pos X vol r /\ ~ event_at_most X m (crowded pos r k) failure_prob.
Proof.
  set (q := 101 * exp (- (8))).
  assert (Q : 0 < q < 1) by (unfold q; pose proof (exp_pos (- (8))); pose proof exp_m8; lra).
  exists Z, 1%nat, halves, [0; 1]%Z, 1, q, 101%nat, 100%nat, (6 / 10).
  do 3 (split; [lia|]). split; [lra|]. split; [exact Q|]. split; [lra|]. split; [|split].
  - unfold compute_eff_conn_rad_bound. rewrite unit_ball_volume_correct. simpl unit_ball_volume. rewrite Rmin_right by lra.
    replace (Z.of_nat 101) with 101%Z by reflexivity. replace (Z.of_nat 100) with 100%Z by reflexivity.
    replace (ln 101 - ln q) with 8 by (unfold q; rewrite ln_mult, ln_exp by (try lra; apply exp_pos); lra).
    replace (2 * 100 * 8) with (40 * 40) by ring. rewrite sqrt_square by lra. replace ((100 - 40) / ((101 - 1) * 1)) with (6 / 10) by field.
    destruct (Rlt_dec 0 (6 / 10)); [|lra]. f_equal. simpl INR. replace (1 / 1) with 1 by field. apply Rpower_1. lra.
  - intros x Ix. apply Rle_trans with (INR 2); [apply (le_INR _ 2), (count_le _ [0; 1]%Z)|]. simpl. lra.
  - intro G. apply sure_event in G; [lra|discriminate|]. intros t D. apply (all_near halves [0; 1]%Z (6 / 10) 101); auto; try lia.
    intros x y Ix Iy. unfold in_ball, halves. destruct (Rle_dec _ _) as [Y|Y]; auto. exfalso. apply Y.
    unfold dist. simpl. match goal with |- sqrt (?a * ?a + 0) <= _ => replace (a * a + 0) with (Rsqr a) by (unfold Rsqr; ring); rewrite sqrt_Rsqr_abs end.
    destruct Ix as [<-|[<-|[]]]; destruct Iy as [<-|[<-|[]]]; apply Rabs_le; lra.
Qed.
Print Assumptions eff_conn_rad_probability_refuted.

(** *** The radius search with these bounds (bound.py 265-290) *)
(** Python's comparisons on values that may be minus infinity *)
Definition ext_geb (a b : option R) : bool :=
  match a, b with _, None => true | None, Some _ => false | Some x, Some y => Rgeb x y end.
Definition ext_gtb (a b : option R) : bool :=
  match a, b with None, _ => false | Some _, None => true | Some x, Some y => Rgtb x y end.
Lemma halving_passed (f : Q -> option R) L tol fuel : forall lb ub r, halving_loop ext_geb ext_gtb f L tol fuel lb ub = Ret r -> r = lb \/ ext_gtb (f r) L = false.
Proof.
  induction fuel as [|fuel IH]; intros lb ub r; [discriminate|]. cbn [halving_loop].
  destruct (Qle_bool (ub - lb) tol); [intro E; injection E as <-; now left|]. destruct (negb _); [discriminate|].
  destruct (ext_gtb (f ((lb + ub) / 2)%Q) L) eqn:T.
  - rewrite orb_true_r. apply IH.
  - rewrite orb_false_r. destruct (ext_geb _ _); [apply IH|]. intro E. destruct (IH _ _ _ E) as [->|G]; auto.
Qed.
Lemma search_passed (f : Q -> option R) p tol fuel lb ub r : 0 < p < 1 ->
  halving_search ext_geb ext_gtb f (Some (ln (1 - p))) tol fuel lb ub = Some (Ret r) -> r = lb \/ exp_ext (f r) <= 1 - p.
Proof.
  intros Hp E. unfold halving_search in E. destruct (negb _); [|discriminate]. injection E as E.
  destruct (halving_passed _ _ _ _ _ _ _ E) as [G|G]; [now left|]. right. unfold ext_gtb, Rgtb in G. destruct (f r) as [x|]; simpl; [|lra].
  destruct (Rlt_dec _ _); [discriminate|]. rewrite <- (exp_ln (1 - p)) by lra. destruct (Rle_lt_or_eq_dec x (ln (1 - p)) ltac:(lra)) as [H| ->]; [left; now apply exp_increasing|lra].
Qed.
(** A radius found with the Kullback-Leibler or the Hoeffding bound is the lower end of the interval or
    holds fewer than [k] others around every sample except with probability [1 - p]. *)
Theorem radius_search_sound : forall (P : Type) dim (pos : P -> list R) X vol p m k tol fuel lb ub r bound, (2 <= m)%nat -> 0 < vol -> 0 < p < 1 ->
  bound = (fun q => compute_tail_knn_radius_log_prob_chernoff_kl (Z.of_nat m) (Z.of_nat k) (Q2R q) dim vol true) \/
  bound = (fun q => Some (compute_tail_knn_radius_log_prob_hoeffding (Z.of_nat m) (Z.of_nat k) (Q2R q) dim vol)) ->
  halving_search ext_geb ext_gtb bound (Some (ln (1 - p))) tol fuel lb ub = Some (Ret r) -> 0 < Q2R r -> sparse_balls dim pos X vol (Q2R r) ->
  r = lb \/ event_at_most X m (crowded pos (Q2R r) k) (1 - p).
Proof.
  intros P dim pos X vol p m k tol fuel lb ub r bound Hm Hv Hp HB E Hr Sp.
  destruct (search_passed _ _ _ _ _ _ _ Hp E) as [G|G]; [now left|right]. destruct HB as [-> | ->].
  - eapply event_mono; [apply (chernoff_kl_bound_sound P dim pos X vol (Q2R r) m k); auto|auto|exact G].
  - eapply event_mono; [apply (hoeffding_bound_sound P dim pos X vol (Q2R r) m k); auto|auto|exact G].
Qed.
Print Assumptions radius_search_sound.

(** *** Examples *)
Lemma far2_hoeffding rad : compute_tail_knn_radius_log_prob_hoeffding 21 20 rad 1 4 = ln 21 - 40 * Rmax (1 - rad / 2) 0 ^ 2.
Proof.
  unfold compute_tail_knn_radius_log_prob_hoeffding. rewrite model_share. simpl unit_ball_volume.
  replace (20 / (21 - 1)) with 1 by field. replace (2 * rad ^ 1 / 4) with (rad / 2) by field. replace (2 * (21 - 1)) with 40 by ring. reflexivity.
Qed.
Lemma far2_small : exp (ln 21 - 40 * Rmax (1 - 1 / 2) 0 ^ 2) <= 1 - 1 / 2.
Proof.
  rewrite Rmax_left by lra. replace (ln 21 - 40 * (1 - 1 / 2) ^ 2) with (ln 21 + - (8) + - (2)) by field. rewrite !exp_plus, exp_ln by lra.
  pose proof exp_m8. pose proof (exp_pos (- (8))). assert (exp (- (2)) < 1) by (rewrite <- exp_0; apply exp_increasing; lra). pose proof (exp_pos (- (2))). nra.
Qed.
(** twenty-one draws from two far points: all on the same one with probability at most one half *)
Example far2_hoeffding_case : sparse_balls 1 zcoord far2 4 1 /\
  exp (compute_tail_knn_radius_log_prob_hoeffding (Z.of_nat 21) (Z.of_nat 20) 1 1 4) <= 1 / 2 /\
  crowded zcoord 1 20 (repeat 0%Z 21) /\ ~ crowded zcoord 1 20 (10%Z :: repeat 0%Z 20).
Proof.
  split; [apply far2_sparse|]. split; [|split].
  - change (Z.of_nat 21) with 21%Z. change (Z.of_nat 20) with 20%Z. rewrite far2_hoeffding. pose proof far2_small. lra.
  - exists 0%nat, 0%Z. split; [reflexivity|]. rewrite (count_ext _ (fun q => (Z.abs (q - 0) <=? 1)%Z)) by (intro; apply zball_Z). vm_compute. lia.
  - intros (i & p & E & H). rewrite (count_ext _ (fun q => (Z.abs (q - p) <=? 1)%Z)) in H by (intro; apply zball_Z).
    assert (Li : (i < 21)%nat) by (change 21%nat with (length (10%Z :: repeat 0%Z 20)); apply nth_error_Some; congruence).
    do 21 (destruct i as [|i]; [injection E as <-; vm_compute in H; lia|]). lia.
Qed.
(** the search between nought and two finds the radius one *)
Example far2_search : exists fuel, halving_search ext_geb ext_gtb
    (fun q => Some (compute_tail_knn_radius_log_prob_hoeffding (Z.of_nat 21) (Z.of_nat 20) (Q2R q) 1 4)) (Some (ln (1 - 1 / 2))) 1 fuel 0 2 = Some (Ret ((0 + 2) / 2)%Q) /\
  sparse_balls 1 zcoord far2 4 (Q2R ((0 + 2) / 2)) /\ ((0 + 2) / 2)%Q <> 0%Q.
Proof.
  exists 2%nat. assert (Q1 : Q2R ((0 + 2) / 2) = 1) by (unfold Q2R; simpl; field). assert (Q2 : Q2R ((0 + 2) / 2 - 1 / 2) = 1 / 2) by (unfold Q2R; simpl; field).
  split; [|split; [rewrite Q1; apply far2_sparse|discriminate]].
  unfold halving_search. cbn [Qle_bool negb]. change (negb (Qle_bool 2 0)) with true. cbv iota. f_equal.
  cbn [halving_loop]. change (Qle_bool (2 - 0) 1) with false. change (negb (Qle_bool 0 2)) with false. cbv iota.
  change (Z.of_nat 21) with 21%Z. change (Z.of_nat 20) with 20%Z. rewrite Q1, Q2, !far2_hoeffding.
  unfold ext_geb, ext_gtb, Rgeb, Rgtb. destruct (Rle_dec _ _) as [Y|Y].
  - exfalso. rewrite !Rmax_left in Y by lra. lra.
  - destruct (Rlt_dec _ _) as [Z|Z].
    + exfalso. apply exp_increasing in Z. rewrite (exp_ln (1 - 1 / 2)) in Z by lra. pose proof far2_small. lra.
    + reflexivity.
Qed.
(** five points one apart and the closed form for a hundred draws *)
Example five_apart : exists r, compute_eff_conn_rad_bound (Z.of_nat 100) (Z.of_nat 48) 1 2 (100 * exp (-6)) = Some r /\ 0 < r /\
  sparse_balls 1 zcoord [0; 1; 2; 3; 4]%Z 2 r.
Proof.
  assert (E : exists r, compute_eff_conn_rad_bound 100 48 1 2 (100 * exp (-6)) = Some r /\ r = 24 / 99).
  { exists (24 / 99). split; [|reflexivity]. unfold compute_eff_conn_rad_bound. rewrite unit_ball_volume_correct. simpl unit_ball_volume.
    replace (ln 100 - ln (100 * exp (-6))) with 6 by (rewrite ln_mult, ln_exp by (try lra; apply exp_pos); lra).
    rewrite Rmin_left by lra. replace (2 * 48 * 6) with (24 * 24) by ring. rewrite sqrt_square by lra. replace ((48 - 24) / ((100 - 1) * (2 / 2))) with (24 / 99) by field.
    destruct (Rlt_dec 0 (24 / 99)); [|lra]. f_equal. simpl INR. replace (1 / 1) with 1 by field. apply Rpower_1. lra. }
  destruct E as (r & E & Er). exists r. split; [exact E|]. rewrite Er. split; [lra|]. intros x Ix.
  assert (C : (count (fun q => in_ball (zcoord x) (24 / 99) (zcoord q)) [0; 1; 2; 3; 4]%Z <= 1)%nat).
  { rewrite (count_ext _ (fun q => (q =? x)%Z)).
    - destruct Ix as [<-|[<-|[<-|[<-|[<-|[]]]]]]; vm_compute; lia.
    - intro q. apply eq_true_iff_eq. rewrite zball, Z.eqb_eq, <- abs_IZR. split; intro H.
      + assert (Z.abs (q - x) < 1)%Z by (apply lt_IZR; lra). lia.
      + subst q. rewrite Z.sub_diag. simpl. lra. }
  apply le_INR in C. simpl (INR 1) in C. simpl length. simpl. lra.
Qed.
