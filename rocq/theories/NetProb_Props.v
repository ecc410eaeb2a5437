(** Property C129: bound.py's sample count and connection radius together with prm.py's
    full-connection roadmap: the probability that some query with a clear solution is not answered
    within the tolerance. *)
From Coq Require Import Reals List Arith Lra Lia Bool ZArith QArith Qreals Classical.
From Verif Require Import Prob Geom_Spec Geom_Proofs Search_Model Bound_Model Bound_Spec Bound_Proofs Bound_Proofs2 Bound_Props Vc_Props EpsNet_Props
  NkGraph_Model NkGraph_Spec Prm_Model Prm_Spec Sp_Oracle PrmEx PrmFc_Props Net_Spec Net_Proofs Net_Props.
Import ListNotations.
Close Scope Q_scope.
Open Scope R_scope.

(** *** Specification *)
(** Every point within [delta] of [c] is free. *)
Definition clear_point (dim : nat) (free : list R -> Prop) (delta : R) (c : list R) : Prop :=
  length c = dim /\ forall x, length x = dim -> dist x c <= delta -> free x.
(** A query whose end points are joined by a curve of length at most [L] that is [delta] away from
    everything that is not free. *)
Definition clear_query {P} (dim : nat) (pos : P -> list R) (free : list R -> Prop) (delta L : R) (start goal : P) : Prop :=
  exists c, 0 <= L /\ curve dim L c /\ has_clearance dim free delta L c /\ pos start = c 0 /\ pos goal = c L.
(** The sampler that is asked for one state by the constructor and then gives the drawn ones
    (prm.py 209, 218-219). *)
Definition feed {P} (p0 : P) (t : list P) (i : nat) : P := nth i (p0 :: t) p0.

Lemma feed_all {P} (p0 : P) t : map (feed p0 t) (seq 1 (length t)) = t.
Proof.
  rewrite <- seq_shift, map_map. unfold feed. cbn [nth].
  induction t as [|x t IH]; auto. cbn [length seq map nth]. f_equal. rewrite <- seq_shift, map_map. exact IH.
Qed.
Lemma not_net_along {P} dim (pos : P -> list R) free delta rho L c t : curve dim L c -> has_clearance dim free delta L c ->
  ~ net_along pos rho L c t -> ball_missed pos rho (clear_point dim free delta) t.
Proof.
  intros [Lc _] Cl N. apply not_all_ex_not in N as [s N]. apply imply_to_and in N as [Hs N].
  exists (c s). split; [split; [now apply Lc|intros x Lx D; now apply (Cl s x)]|].
  intros x Ix. apply Rnot_le_lt. intro D. apply N. apply In_nth_error in Ix as [i Ei]. eauto.
Qed.

Section Prob.
  Context {P : Type}.
  Variable dst : P -> P -> Q.
  Variable check : P -> P -> bool.
  Variable sp : sp_oracle.
  Hypothesis dst_nonneg : forall p q, (0 <= dst p q)%Q.
  Hypothesis dst_sym : forall p q, (dst p q == dst q p)%Q.
  Hypothesis SP : sp_correct sp.
  (** a new full-connection roadmap with radius [r], grown to the drawn samples *)
  Definition grown (r : Q) (p0 : P) (t : list P) : fc_state :=
    fc_run dst check (feed p0 t) sp [FGrow (length t)] (fc_new r 0).
  Lemma grown_samples r p0 t : fc_samples (grown r p0 t) = Some t /\ fc_conn_r (grown r p0 t) = r.
  Proof.
    unfold grown. cbn [fc_run fold_left fc_step].
    destruct (full_conn_grow_samples dst check (feed p0 t) (fc_new r 0) (length t)) as [H _].
    destruct H as (ds & st' & E & Es & _ & _); [simpl; lia|].
    unfold fc_run. simpl fold_left. unfold fc_step. rewrite E. cbn [snd]. split.
    - rewrite Es. cbn [fc_samples fc_new app length fc_next]. rewrite Nat.sub_0_r. now rewrite feed_all.
    - unfold fc_grow in E. simpl in E. injection E as _ <-. reflexivity.
  Qed.

  (** With the sample count and the radius of compute_numerical_bound, a roadmap over random samples
      answers every clear query within the tolerance, except with probability [1 - prob]. *)
  Theorem full_conn_success_probability : forall dim pos free X eta delta tol prob vol fuel z conn_r r p0 m,
    0 < delta -> 0 < tol ->
    compute_numerical_bound delta prob vol dim (Some tol) fuel = Some (Ret z, conn_r) -> (z <= Z.of_nat m)%Z ->
    coordinates dim pos -> accepts_free_motions pos free check -> distances_within pos dst eta ->
    fair_balls dim pos X vol (compute_epsilon_net_radius delta (Some tol)) (clear_point dim free delta) ->
    conn_r + eta <= Q2R r ->
    event_at_most X m (fun t => exists start goal L, clear_query dim pos free delta L start goal /\
      ~ exists d path, fst (fc_query dst check sp (grown r p0 t) start goal) = Ok (Some d, path) /\ stretch_bound delta tol eta L (Q2R d))
      (1 - prob).
  Proof.
    intros dim pos free X eta delta tol prob vol fuel z conn_r r p0 m Hd Ht B Hm Co Ac Di Fb Hr.
    eapply event_mono; [apply (numerical_bound_net P dim pos X (clear_point dim free delta) delta prob vol (Some tol) fuel z conn_r m B Hm Fb)| |apply Rle_refl].
    intros t D (start & goal & L & (c & L0 & Cu & Cl & S0 & SL) & N).
    apply (not_net_along dim pos free delta _ L c); auto. intro NA. apply N.
    destruct (grown_samples r p0 t) as [Es Er].
    apply (net_full_conn_stretch dst check (feed p0 t) sp dst_nonneg dst_sym SP dim pos free eta delta tol L c start goal prob vol dim fuel (Ret z) conn_r r 0
      [FGrow (length t)] t Hd Ht B Es); [|unfold grown in Er; rewrite Er; auto].
    do 8 (split; auto).
  Qed.

  (** Without a tolerance it answers every clear query. *)
  Theorem full_conn_feasible_probability : forall dim pos free X eta delta tol prob vol fuel z conn_r r p0 m,
    0 <= delta -> (forall t, tol = Some t -> 0 <= t) ->
    compute_numerical_bound delta prob vol dim tol fuel = Some (Ret z, conn_r) -> (z <= Z.of_nat m)%Z ->
    coordinates dim pos -> accepts_free_motions pos free check -> distances_within pos dst eta ->
    fair_balls dim pos X vol (compute_epsilon_net_radius delta tol) (clear_point dim free delta) ->
    conn_r + eta <= Q2R r ->
    event_at_most X m (fun t => exists start goal L, clear_query dim pos free delta L start goal /\
      ~ exists d path, fst (fc_query dst check sp (grown r p0 t) start goal) = Ok (Some d, path))
      (1 - prob).
  Proof.
    intros dim pos free X eta delta tol prob vol fuel z conn_r r p0 m Hd Ht B Hm Co Ac Di Fb Hr.
    eapply event_mono; [apply (numerical_bound_net P dim pos X (clear_point dim free delta) delta prob vol tol fuel z conn_r m B Hm Fb)| |apply Rle_refl].
    intros t D (start & goal & L & (c & L0 & Cu & Cl & S0 & SL) & N).
    apply (not_net_along dim pos free delta _ L c); auto. intro NA. apply N.
    destruct (grown_samples r p0 t) as [Es Er].
    apply (net_full_conn_feasible dst check (feed p0 t) sp dst_nonneg dst_sym SP dim pos free eta delta tol L c start goal prob vol dim fuel (Ret z) conn_r r 0
      [FGrow (length t)] t Hd Ht B Es); [|unfold grown in Er; rewrite Er; auto].
    do 8 (split; auto).
  Qed.
End Prob.
Print Assumptions full_conn_success_probability.
Print Assumptions full_conn_feasible_probability.

(** *** Example: the integers 0..40 on a line of which the stretch from 0 to 40 is free; clearance ten,
    tolerance one, success probability one half *)
Definition stretch (n : Z) (x : list R) : Prop := exists y, x = [y] /\ 0 <= y <= IZR n.
Definition check_to (n : Z) (a b : Z) : bool := ((0 <=? a)%Z && (a <=? n)%Z && (0 <=? b)%Z && (b <=? n)%Z)%bool.
Lemma dist_line a b : dist [a] [b] = Rabs (a - b).
Proof. unfold dist. simpl. replace ((a - b) * (a - b) + 0) with (Rsqr (a - b)) by (unfold Rsqr; ring). apply sqrt_Rsqr_abs. Qed.
Lemma clear_between n c : clear_point 1 (stretch n) 10 c -> between 10 (IZR n - 10) c.
Proof.
  intros [L H]. destruct c as [|x [|y c]]; try discriminate. exists x. split; auto.
  assert (A : forall y, Rabs (y - x) <= 10 -> 0 <= y <= IZR n).
  { intros y Hy. destruct (H [y] eq_refl) as (y' & E & B); [rewrite dist_line; auto|]. injection E as <-. exact B. }
  pose proof (A (x - 10)) as A1. pose proof (A (x + 10)) as A2.
  replace (x - 10 - x) with (- (10)) in A1 by ring. replace (x + 10 - x) with 10 in A2 by ring.
  rewrite Rabs_Ropp in A1. rewrite Rabs_pos_eq in A1, A2 by lra. lra.
Qed.
Lemma ten_radius : 7 < compute_epsilon_net_radius 10 (Some 1) < 71 / 10.
Proof.
  split; [apply ten_radii|]. unfold compute_epsilon_net_radius, alpha_of_tol. replace (1 + 1 ^ 2) with 2 by ring.
  assert (H2 : sqrt 2 * sqrt 2 = 2) by (apply sqrt_sqrt; lra). assert (P2 : 0 < sqrt 2) by (apply sqrt_lt_R0; lra).
  assert (B : 141 / 100 < sqrt 2) by (apply Rnot_le_lt; intro; nra).
  assert (I2 : / sqrt 2 = sqrt 2 / 2) by (apply (Rmult_eq_reg_l (sqrt 2)); [rewrite Rinv_r; lra|lra]).
  assert (B2 : sqrt 2 < 1415 / 1000) by (apply Rnot_le_lt; intro; nra). unfold Rdiv at 1. rewrite I2. lra.
Qed.
Lemma line40_fair : fair_balls 1 zcoord (zrange 41) 42 (compute_epsilon_net_radius 10 (Some 1)) (clear_point 1 (stretch 40) 10).
Proof.
  pose proof ten_radius as E. set (e := compute_epsilon_net_radius 10 (Some 1)) in *. split; [reflexivity|].
  intros c Hc. apply clear_between in Hc as (x & -> & Hx). split; [reflexivity|]. unfold share_at_least. simpl unit_ball_volume.
  assert (C : (14 <= count (fun z => in_ball [x] e (zcoord z)) (zrange 41))%nat) by (apply zrange_share; simpl INR; lra).
  apply le_INR in C. apply Rle_trans with (INR 14); auto. unfold zrange. rewrite map_length, seq_length.
  replace (INR 14) with 14 by (simpl; lra). replace (INR 41) with 41 by (simpl; lra). simpl pow. lra.
Qed.
Lemma line40_returns : exists z conn_r, compute_numerical_bound 10 (1 / 2) 42 1 (Some 1) 1000 = Some (Ret z, conn_r) /\ (z <= 200)%Z.
Proof.
  assert (Rho : 1 / 3 <= ball_measure 10 (Some 1) 1 42).
  { unfold ball_measure. pose proof ten_radius as E. unfold compute_epsilon_net_radius, alpha_of_tol in E. replace (1 + 1 ^ 2) with (1 + 1 * 1) in E by ring. simpl. lra. }
  assert (B : net_failure_bound (ball_measure 10 (Some 1) 1 42) (1 + 1) 200 <= 1 - 1 / 2).
  { unfold net_failure_bound. rewrite <- psum_spec. replace (psum (2 * 200) (1 + 1)) with 80201%Z by (vm_compute; reflexivity).
    apply Rle_trans with (2 * 80201 * Rpower 2 (- INR 20)).
    - apply Rmult_le_compat_l; [lra|]. apply Rle_Rpower; [lra|]. replace (INR 200) with 200 by (rewrite INR_IZR_INZ; reflexivity). replace (INR 20) with 20 by (simpl; lra). lra.
    - rewrite Rpower_Ropp, Rpower_pow by lra. simpl pow. lra. }
  destruct (numerical_bound_outcomes 10 (1 / 2) 42 1 (Some 1) 1000 ltac:(lra) (le_n _)) as [[_ H] _].
  destruct H as [z Hz]; [exists 200%nat; split; [lia|apply B]|].
  destruct (compute_numerical_bound 10 (1 / 2) 42 1 (Some 1) 1000) as [[s conn_r]|] eqn:E; [|discriminate].
  simpl in Hz. injection Hz as ->. exists z, conn_r. split; auto.
  destruct (numerical_bound_least _ _ _ _ _ _ _ _ E) as (n & -> & Hn & _ & _ & Hl). destruct (le_lt_dec n 200); [lia|]. specialize (Hl 200%nat ltac:(lia)). lra.
Qed.
Lemma line_space n : coordinates 1 zcoord /\ accepts_free_motions zcoord (stretch n) (check_to n) /\ distances_within zcoord zdist 0.
Proof.
  split; [intro; reflexivity|]. split.
  - intros p q H. assert (E : forall z, stretch n (zcoord z) -> (0 <= z <= n)%Z).
    { intros z (y & Ey & B). injection Ey as <-. split; apply le_IZR; lra. }
    assert (Hp : (0 <= p <= n)%Z).
    { apply E. specialize (H 0 ltac:(lra)). unfold zcoord, at_time in *. simpl in H. replace (IZR p + 0 * (IZR q - IZR p)) with (IZR p) in H by ring. exact H. }
    assert (Hq : (0 <= q <= n)%Z).
    { apply E. specialize (H 1 ltac:(lra)). unfold zcoord, at_time in *. simpl in H. replace (IZR p + 1 * (IZR q - IZR p)) with (IZR q) in H by ring. exact H. }
    unfold check_to. rewrite !andb_true_iff, !Z.leb_le. lia.
  - intros p q. unfold zdist, zcoord. rewrite dist_line, <- minus_IZR, <- abs_IZR.
    replace (Q2R (inject_Z (Z.abs (p - q)))) with (IZR (Z.abs (p - q))) by (unfold Q2R; simpl; field).
    rewrite Rminus_diag_eq, Rabs_R0 by auto. lra.
Qed.
Lemma line_query n : (30 + 10 <= n)%Z -> clear_query 1 zcoord (stretch n) 10 20 10%Z 30%Z.
Proof.
  intro Hn. apply IZR_le in Hn. simpl in Hn. exists (fun s => [10 + s]). split; [lra|]. split; [split; [reflexivity|]|split; [|split; unfold zcoord; f_equal; simpl; lra]].
  - intros s t _ _. rewrite dist_line. replace (10 + s - (10 + t)) with (s - t) by ring. lra.
  - intros s x Hs L D. destruct x as [|y [|? ?]]; try discriminate. rewrite dist_line in D. exists y. split; auto.
    destruct (Rle_dec 0 (y - (10 + s))); [rewrite Rabs_pos_eq in D by lra|rewrite Rabs_left in D by lra]; lra.
Qed.
Example line40_success : clear_query 1 zcoord (stretch 40) 10 20 10%Z 30%Z /\
  event_at_most (zrange 41) 200 (fun t => exists start goal L, clear_query 1 zcoord (stretch 40) 10 L start goal /\
    ~ exists d path, fst (fc_query zdist (check_to 40) sp_enum (grown zdist (check_to 40) sp_enum 29 0%Z t) start goal) = Ok (Some d, path) /\
      stretch_bound 10 1 0 L (Q2R d)) (1 / 2).
Proof.
  split; [apply line_query; lia|]. destruct line40_returns as (z & conn_r & E & Hz). destruct (line_space 40) as (Co & Ac & Di).
  replace (1 / 2) with (1 - 1 / 2) by lra.
  eapply (full_conn_success_probability zdist (check_to 40) sp_enum zdist_nonneg zdist_sym sp_enum_correct 1 zcoord (stretch 40) (zrange 41) 0 10 1 (1 / 2) 42 1000 z conn_r); auto; try lra; [apply line40_fair|].
  apply connection_radius_formulas_agree in E. subst conn_r. destruct ten_radii as (_ & C & _). unfold Q2R. simpl. lra.
Qed.
