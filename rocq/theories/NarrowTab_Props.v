(** C168 (success rates of the narrow passage experiments), C169 (the predictions listed beside them) and C170 (the tables
    of the paper): notebooks/narrow_clearance_exps_results.ipynb *)
From Coq Require Import ZArith Reals List Bool Arith Lra Lia.
From Verif Require Import Search_Model Bound_Model Bound_Spec Bound_Proofs Bound_Proofs2 Notebook_Spec Notebook_Proofs Notebook_Proofs2 NotebookBatch_Props NarrowTab_Model NarrowTab_Spec NarrowTab_Proofs.
Import ListNotations.
Open Scope R_scope.

(** * C168 *)
(** Entry i of a list of estimates is the share of the trials of its setting that were solved with the ith radius, or
    with i neighbours; there are no estimates exactly when no trial of the setting was run. *)
Theorem estimate_exact c out t delta d n : let k := mkKey t delta d n in
  (estimates c out k = None <-> forall r, In r out -> ~ ran t delta d n r) /\
  forall es, estimates c out k = Some es ->
    (t = KnnPrm -> length es = max_knn c /\ forall i, (i < max_knn c)%nat -> exists p, nth_error es i = Some p /\ rate out t delta d n (INR i) p) /\
    (t = RadiusPrm -> length es = length (deltas c) /\ forall i x, nth_error (deltas c) i = Some x -> exists p, nth_error es i = Some p /\ rate out t delta d n (2 * x) p).
Proof.
  intros k. split; [apply (estimates_none c out k)|]. intros es E. split; intros T; (split; [apply estimates_some in E as (_ & ->); rewrite map_length; subst t; cbn [k k_type conns]|]).
  - now rewrite map_length, seq_length.
  - intros i Hi. apply (estimates_nth c out k es i); [assumption|]. unfold k. cbn [k_type]. subst t. cbn [conns]. apply map_nth_error. rewrite nth_error_nth' with (d := 0%nat) by (now rewrite seq_length). now rewrite seq_nth.
  - unfold rads. now rewrite map_length.
  - intros i x X. apply (estimates_nth c out k es i); [assumption|]. unfold k. cbn [k_type]. subst t. cbn [conns]. unfold rads. replace (2 * x) with (x * 2) by ring. apply (map_nth_error (fun y => y * 2)), X.
Qed.
Print Assumptions estimate_exact.
(** The estimates are probabilities and do not fall as the radius or the number of neighbours grows. *)
Theorem estimate_order c out t delta d n es i j x y p q : estimates c out (mkKey t delta d n) = Some es ->
  nth_error (conns c t) i = Some x -> nth_error (conns c t) j = Some y -> nth_error es i = Some p -> nth_error es j = Some q -> x <= y -> 0 <= p <= q /\ q <= 1.
Proof.
  intros E X Y P Q L. destruct (estimates_nth c out (mkKey t delta d n) es i x E X) as (p' & P' & Rp). destruct (estimates_nth c out (mkKey t delta d n) es j y E Y) as (q' & Q' & Rq).
  assert (p' = p) by congruence. assert (q' = q) by congruence. subst. cbn in *. pose proof (rate_range _ _ _ _ _ _ _ Rp). pose proof (rate_range _ _ _ _ _ _ _ Rq). pose proof (rate_mono _ _ _ _ _ _ _ _ _ L Rp Rq). lra.
Qed.
Print Assumptions estimate_order.
(** The largest number of neighbours the experiments try is compared with nothing: trials that need it count as failures. *)
Theorem knn_limit_refuted : exists c out t delta d n es, estimates c out (mkKey t delta d n) = Some es /\ t = KnnPrm /\ out <> [] /\
  (forall r, In r out -> ran t delta d n r /\ solved (INR (max_knn c)) r) /\ (length es = max_knn c /\ (0 < max_knn c)%nat) /\ forall p, In p es -> p = 0.
Proof.
  set (r := mkRow KnnPrm 2 (1 / 4) 100 (Some 3)).
  assert (N : near (1 / 4) (1 / 4)) by apply near_refl.
  assert (F : mc_trial_rows [r; r] (mkKey KnnPrm (1 / 4) 2 100) = [r; r]).
  { unfold mc_trial_rows, r. cbn [filter r_type r_dim r_clear r_n k_type k_dim k_clear k_n prm_eqb Nat.eqb andb]. apply isclose_iff in N. rewrite N. reflexivity. }
  assert (L : forall i, (i < 3)%nat -> Rleb 3 (INR i) = false).
  { intros i Hi. destruct (Rleb 3 (INR i)) eqn:E; [|reflexivity]. apply Rleb_iff in E. assert (i <= 2)%nat as H by lia. apply le_INR in H. cbn in H. lra. }
  exists (mkConfig [1 / 4] [] [] [2]%nat [100]%nat 3), [r; r], KnnPrm, (1 / 4), 2%nat, 100%nat. eexists. split; [unfold estimates; rewrite F; reflexivity|].
  split; [reflexivity|]. split; [discriminate|]. split; [|split; [split; [reflexivity|cbn; lia]|]].
  - intros r' [<-|[<-|[]]]; (split; [repeat split; cbn; auto|exists 3; cbn; split; [reflexivity|lra]]).
  - intros p. cbn [conns max_knn k_type]. intros H. apply in_map_iff in H as (x & <- & H). apply in_map_iff in H as (i & <- & H). apply in_seq in H.
    unfold above, r. cbn [filter r_ub]. rewrite (L i) by lia. cbn. unfold Rdiv. ring.
Qed.
Print Assumptions knn_limit_refuted.

(** * C169 *)
(** Every prediction listed for a radius is the least number of samples for which the bound reaches the estimated success
    rate, for the ball that goes with the LAST clearance of the configuration; beside it stands the bound on the
    probability of failure for the ball that goes with the radius.  For nearest neighbours the ball is the one of the
    clearance and the rate is 0.99. *)
Theorem prediction_exact c out fuel df e : plot_df c out fuel = Ok df -> In e df -> (1 <= e_dim e)%nat -> 0 <= e_clear e -> e_theory e = true ->
  let ball_of r := net_measure (e_dim e) (e_clear e) r in
  match e_type e with
  | RadiusPrm => (exists p, rate out RadiusPrm (e_clear e) (e_dim e) (e_n e) (e_conn e) p /\
        least_count (ball_of (Rmin (last (deltas c) 0 / 2) (e_clear e / 2))) (e_dim e + 1) (1 - p + 1 / 10 ^ 6) (e_pred e)) /\
      e_p e = net_failure_bound (ball_of (Rmin (e_conn e / 4) (e_clear e / 2))) (e_dim e + 1) (e_n e)
  | KnnPrm => least_count (ball_of (e_clear e / 2)) (e_dim e + 1) (1 / 100) (e_pred e) /\
      e_p e = net_failure_bound (ball_of (e_clear e / 2)) (e_dim e + 1) (e_n e)
  end.
Proof.
  intros P I Hd Hc T. apply (plot_df_in _ _ _ _ P) in I as (k & f & Ik & K & I). destruct (key_frame_in _ _ _ _ _ _ K I) as (E1 & E2 & E3 & E4 & es & i & p & E & Ep & X & _ & F).
  specialize (F T) as (_ & F). rewrite E2, E3, E4, E1 in *. specialize (F Hd Hc). cbv zeta. destruct (k_type k) eqn:Tk; [|exact F]. destruct F as (L & B). split; [|exact B]. exists p. split; [|exact L].
  rewrite <- Tk in X. destruct (estimates_nth _ _ _ _ _ _ E X) as (p' & Ep' & R0). assert (p' = p) by congruence. subst p'. rewrite Tk in R0. exact R0.
Qed.
Print Assumptions prediction_exact.
(** Beside them stand the rates, with the number of samples that was used. *)
Theorem estimated_entries c out fuel df e : plot_df c out fuel = Ok df -> In e df -> e_theory e = false ->
  rate out (e_type e) (e_clear e) (e_dim e) (e_n e) (e_conn e) (e_p e) /\ e_pred e = Z.of_nat (e_n e) /\ In (e_clear e) (deltas c).
Proof.
  intros P I T. apply (plot_df_in _ _ _ _ P) in I as (k & f & Ik & K & I). destruct (key_frame_in _ _ _ _ _ _ K I) as (E1 & E2 & E3 & E4 & es & i & p & E & Ep & X & F & _).
  destruct (F T) as (-> & ->). rewrite E1, E2, E3, E4. destruct (estimates_nth _ _ _ _ _ _ E X) as (p' & Ep' & R0). assert (p' = p) by congruence. subst p'. split; [assumption|]. split; [reflexivity|].
  apply all_trials_in in Ik. tauto.
Qed.
Print Assumptions estimated_entries.
Lemma net_mono d delta r r' : 0 <= delta -> 0 <= r <= r' -> net_measure d delta r <= net_measure d delta r'.
Proof.
  intros Hc Hr. unfold net_measure, passage_volume. assert (0 <= (2 * delta) ^ (d - 1)) by (apply pow_le; lra). apply Rmult_le_compat_r; [left; apply Rinv_0_lt_compat; lra|].
  apply Rmult_le_compat_l; [|now apply pow_incr]. rewrite <- unit_ball_correct. left. apply unit_ball_pos.
Qed.
(** At the radius of the table, twice the clearance, the prediction is the right one when the last clearance is at least
    as large, and at least the right one in any case. *)
Theorem prediction_when_last_largest c out fuel df e p : plot_df c out fuel = Ok df -> In e df -> (1 <= e_dim e)%nat -> 0 <= e_clear e -> e_theory e = true ->
  e_type e = RadiusPrm -> rate out RadiusPrm (e_clear e) (e_dim e) (e_n e) (e_conn e) p ->
  (e_clear e <= last (deltas c) 0 -> least_count (net_measure (e_dim e) (e_clear e) (e_clear e / 2)) (e_dim e + 1) (1 - p + 1 / 10 ^ 6) (e_pred e)) /\
  (0 <= last (deltas c) 0 -> forall z, least_count (net_measure (e_dim e) (e_clear e) (e_clear e / 2)) (e_dim e + 1) (1 - p + 1 / 10 ^ 6) z -> (z <= e_pred e)%Z).
Proof.
  intros P I Hd Hc T Ty R0. pose proof (prediction_exact _ _ _ _ _ P I Hd Hc T) as H. cbv zeta in H. rewrite Ty in H. destruct H as ((p' & R1 & L) & _). rewrite (rate_fun _ _ _ _ _ _ _ _ R1 R0) in L. split.
  - intros Hl. rewrite Rmin_right in L by lra. exact L.
  - intros Hl z Lz. eapply least_mono; [| |exact Lz|exact L]; [|lra]. apply net_mono; [assumption|]. split; [apply Rmin_glb; lra|apply Rmin_r].
Qed.
Print Assumptions prediction_when_last_largest.

(** ** What the predictions of the repository's configuration come to *)
Lemma PI_upper : PI <= 33 / 10.
Proof.
  destruct (PI_ineq 3) as (_ & H). unfold tg_alt, PI_tg in H. cbn [Nat.mul Nat.add sum_f_R0 pow] in H. rewrite !INR_IZR_INZ in H. cbn [Z.of_nat Pos.of_succ_nat Pos.succ] in H. lra.
Qed.
Lemma ball2 : unit_ball_volume 2 = PI.
Proof. cbn [unit_ball_volume]. rewrite INR_IZR_INZ. cbn. field. Qed.
Lemma comb_1 n : comb n 1 = Z.of_nat n.
Proof. induction n as [|n IH]; [reflexivity|]. cbn [comb]. rewrite IH, comb_0_r. lia. Qed.
Lemma comb_2 n : (2 * comb n 2 = Z.of_nat n * (Z.of_nat n - 1))%Z.
Proof. induction n as [|n IH]; [reflexivity|]. change (comb (S n) 2) with (comb n 1 + comb n 2)%Z. rewrite Z.mul_add_distr_l, IH, comb_1. lia. Qed.
Lemma psum_3 n : (6 * psum n 3 = 6 + 6 * Z.of_nat n + 3 * (Z.of_nat n * (Z.of_nat n - 1)) + Z.of_nat n * (Z.of_nat n - 1) * (Z.of_nat n - 2))%Z.
Proof.
  rewrite !psum_S. replace (psum n 0) with 1%Z by (unfold psum; cbn; now rewrite comb_0_r). pose proof (comb_3 n). pose proof (comb_2 n). rewrite comb_1. lia.
Qed.
Lemma psum_3600 : (psum 3600 3 <= 2 ^ 33)%Z.
Proof. pose proof (psum_3 3600) as H. change (Z.of_nat 3600) with 3600%Z in H. lia. Qed.
Lemma wide_count z : least_count (net_measure 2 (499 / 1000) (499 / 1000 / 2)) 3 (1 / 10 ^ 6) z -> IZR z <= 1800.
Proof.
  intros (m & -> & Hm & HB & Hl). rewrite <- INR_IZR_INZ. pose proof PI_3_4 as HP.
  destruct (Nat.le_gt_cases m 1800) as [G|G]; [apply le_INR in G; replace (INR 1800) with 1800 in G by (rewrite INR_IZR_INZ; reflexivity); exact G|exfalso].
  specialize (Hl 1800%nat ltac:(lia)). unfold net_failure_bound in Hl. rewrite <- psum_spec in Hl. change (2 * 1800)%nat with 3600%nat in Hl.
  pose proof psum_3600 as H. apply IZR_le in H. change (2 ^ 33)%Z with (2 ^ Z.of_nat 33)%Z in H. rewrite <- (pow_IZR 2 33) in H.
  assert (HR : 622 / 10000 <= net_measure 2 (499 / 1000) (499 / 1000 / 2)).
  { unfold net_measure, passage_volume. rewrite ball2. cbn [Nat.sub pow]. lra. }
  set (rho := net_measure 2 (499 / 1000) (499 / 1000 / 2)) in *.
  assert (P : Rpower 2 (- rho * INR 1800 / 2) <= / 2 ^ 55).
  { rewrite <- (Rpower_pow 55 2) by lra. rewrite <- Rpower_Ropp. apply Rle_Rpower; [lra|]. rewrite !INR_IZR_INZ. simpl (Z.of_nat _). lra. }
  pose proof (psum_pos_R 3600 3).
  assert (2 * IZR (psum 3600 3) * Rpower 2 (- rho * INR 1800 / 2) <= 2 * 2 ^ 33 * / 2 ^ 55); [|lra].
  apply Rmult_le_compat; try lra. left. apply exp_pos.
Qed.
Lemma thin_count z : least_count (net_measure 2 (499 / 1000) (1 / 16 / 2)) 3 (1 / 10 ^ 6) z -> 126000 < IZR z.
Proof.
  intros (m & -> & Hm & HB & _). pose proof PI_3_4 as HP. pose proof PI_upper as HU. rewrite <- INR_IZR_INZ.
  destruct (nat_above 126000) as (k & Hk1 & Hk2); [lra|].
  destruct (Nat.le_gt_cases m k) as [G|G]; [exfalso|apply lt_INR in G; lra].
  assert (HR : 0 <= net_measure 2 (499 / 1000) (1 / 16 / 2) <= 11 / 10000).
  { unfold net_measure, passage_volume. rewrite ball2. cbn [Nat.sub pow]. lra. }
  set (rho := net_measure 2 (499 / 1000) (1 / 16 / 2)) in *.
  pose proof (nfb_permanent rho 3 m k G ltac:(lra)) as HN.
  assert (HL : 1 / 2 ^ 19 <= net_failure_bound rho 3 k); [|lra].
  unfold net_failure_bound. rewrite <- psum_spec.
  assert (H8 : (8 <= k)%nat) by (apply INR_le; simpl; lra).
  pose proof (psum_cube k H8) as HC. apply IZR_le in HC. change 3%Z with (Z.of_nat 3) in HC. rewrite <- (pow_IZR (Z.of_nat k) 3), <- INR_IZR_INZ in HC.
  assert (H50 : 2 ^ 50 <= INR k ^ 3). { apply Rle_trans with (126000 ^ 3); [lra|]. apply pow_incr. lra. }
  assert (P : / 2 ^ 70 <= Rpower 2 (- rho * INR k / 2)).
  { replace (- rho * INR k / 2) with (- (rho * INR k / 2)) by field. apply Rpower_2_neg. replace (INR 70) with 70 by (rewrite INR_IZR_INZ; reflexivity). nra. }
  apply Rle_trans with (2 * 2 ^ 50 * / 2 ^ 70); [lra|]. apply Rmult_le_compat; lra.
Qed.

(** ** When the frame is built *)
Lemma ball_two d : (1 <= d <= 7)%nat -> 2 <= unit_ball_volume d.
Proof.
  intros H. pose proof PI_3_4 as HP. assert (9 <= PI * PI <= 16) by nra. assert (27 <= PI * PI * PI <= 64) by nra.
  do 8 (destruct d as [|d]; [cbn [unit_ball_volume]; rewrite ?INR_IZR_INZ; cbn [Z.of_nat Pos.of_succ_nat Pos.succ]; try lra; lia|]). lia.
Qed.
Lemma net_large d delta r : (1 <= d <= 7)%nat -> 0 <= delta <= 1 / 2 -> 1 / 32 <= r -> 1 / 10 ^ 12 <= net_measure d delta r.
Proof.
  intros Hd Hc Hr. pose proof (ball_two d Hd). unfold net_measure, passage_volume.
  assert (0 <= (2 * delta) ^ (d - 1) <= 1). { split; [apply pow_le; lra|]. rewrite <- (pow1 (d - 1)). apply pow_incr. lra. }
  assert (P : (1 / 32) ^ 7 <= r ^ d).
  { apply Rle_trans with ((1 / 32) ^ d); [|apply pow_incr; lra]. do 8 (destruct d as [|d]; [cbn [pow]; lra|]). lia. }
  apply Rle_trans with (2 * (1 / 32) ^ 7 * / 3); [lra|]. apply Rmult_le_compat; [lra|lra|apply Rmult_le_compat; lra|]. apply Rinv_le_contravar; lra.
Qed.
Lemma search_runs rho vc sp fuel : 1 / 10 ^ 12 <= rho -> (1 <= vc <= 21)%nat -> -1 < sp <= 1 - 1 / 10 ^ 6 -> (1000 <= fuel)%nat ->
  exists z, search (fun ns => compute_sauer_shelah_bound_log2 ns rho vc) sp fuel = Ok z.
Proof.
  intros Hr Hv Hs Hf. unfold search, doubling_sample_search_over_log2_prob_bound. destruct (search_any rho vc (1 - sp) fuel) as (z & ->); [assumption|assumption|lra|assumption|]. eauto.
Qed.
Lemma search_all_runs fuel rho vc : 1 / 10 ^ 12 <= rho -> (1 <= vc <= 21)%nat -> (1000 <= fuel)%nat -> forall fs sps, (forall f, In f fs -> f = fun ns => compute_sauer_shelah_bound_log2 ns rho vc) ->
  (forall sp, In sp sps -> 0 <= sp <= 1) -> exists zs, search_all fs sps fuel = Ok zs.
Proof.
  intros Hr Hv Hf. induction fs as [|f fs IH]; intros [|sp sps] F S; cbn [search_all]; eauto. rewrite (F f (or_introl eq_refl)).
  destruct (search_runs rho vc (sp - machine_eps) fuel) as (z & ->); [assumption|assumption|pose proof (S sp (or_introl eq_refl)); unfold machine_eps; lra|assumption|]. cbn [bind].
  destruct (IH sps) as (zs & ->); [intros; apply F; now right|intros; apply S; now right|]. cbn [bind]. eauto.
Qed.
Definition reasonable (c : config) : Prop := deltas c <> [] /\ (0 < max_knn c)%nat /\ (forall x, In x (deltas c) -> 1 / 16 <= x <= 1 / 2) /\
  (forall d, In d (radius_dims c) \/ In d (knn_dims c) -> (1 <= d)%nat).
Lemma last_in {A} (l : list A) a : l <> [] -> In (last l a) l.
Proof. induction l as [|x [|y l] IH]; intros N; [contradiction|now left|]. right. apply IH. discriminate. Qed.
Lemma key_frame_runs c out fuel k : reasonable c -> (1000 <= fuel)%nat -> In k (all_trials c) -> exists f, key_frame c out fuel k = Ok f.
Proof.
  intros (N & M & D & P) Hf I. apply all_trials_in in I as (Ix & Id & In'). unfold key_frame.
  assert (Hd : (1 <= k_dim k)%nat) by (apply P; destruct (k_type k); auto). pose proof (D _ Ix) as Hx.
  destruct (conns c (k_type k)) as [|x0 xs0] eqn:X. { exfalso. unfold conns, rads in X. destruct (k_type k); [destruct (deltas c); [contradiction|discriminate X]|destruct (max_knn c); [lia|discriminate X]]. }
  destruct (estimates c out k) as [es|] eqn:E; [|eauto]. destruct (k_dim k <=? 7)%nat eqn:D7; [apply Nat.leb_le in D7|eauto]. destruct (k_type k) eqn:T.
  - pose proof (D _ (last_in _ 0 N)) as Hl. set (rho := net_measure (k_dim k) (k_clear k) (used_net c (k_clear k))).
    assert (Hr : 1 / 10 ^ 12 <= rho) by (apply net_large; [lia|lra|unfold used_net; apply Rmin_glb; lra]).
    edestruct (search_all_runs fuel rho (k_dim k + 1) Hr) as (zs & Z); [lia|assumption| | |rewrite Z; cbn [bind]; eauto].
    + intros f F. unfold ss_log2_bound_funcs in F. apply in_map_iff in F as (? & <- & _).
      assert (EQ : last (map (rho_of (k_dim k) (k_clear k)) (map (fun r => Rmin (r / 4) (k_clear k / 2)) (rads c))) 0 = rho); [|rewrite EQ; reflexivity].
      rewrite map_map, (last_map _ (rads c) 0) by (unfold rads; destruct (deltas c); [contradiction|discriminate]). rewrite rho_of_spec by (auto; lra). unfold rads. rewrite (last_map _ (deltas c) 0) by assumption.
      unfold rho, used_net. replace (last (deltas c) 0 / 2) with (last (deltas c) 0 * 2 / 4) by field. reflexivity.
    + intros sp S. apply In_nth_error in S as (i & S). eapply estimates_nth' in S as (x & _ & R0); [|exact E]. now apply rate_range in R0.
  - destruct (search_runs (rho_of (k_dim k) (k_clear k) (k_clear k / 2)) (k_dim k + 1) (99 / 100) fuel) as (z & ->); [|lia|lra|assumption|cbn [bind]; eauto].
    rewrite rho_of_spec by (auto; lra). apply net_large; [lia|lra|lra].
Qed.
Lemma frames_run c out fuel : (forall k, In k (all_trials c) -> exists f, key_frame c out fuel k = Ok f) -> forall ks, (forall k, In k ks -> In k (all_trials c)) -> exists fs, frames c out fuel ks = Ok fs.
Proof.
  intros H. induction ks as [|k ks IH]; intros S; cbn [frames]; [eauto|]. destruct (H k) as (f & ->); [apply S; now left|]. cbn [bind]. destruct IH as (fs & ->); [intros; apply S; now right|]. cbn [bind]. eauto.
Qed.
Lemma key_frame_has c out fuel k f i x : key_frame c out fuel k = Ok f -> estimates c out k <> None -> nth_error (conns c (k_type k)) i = Some x ->
  (exists e, In e f /\ e_theory e = false /\ e_conn e = x) /\ ((k_dim k <= 7)%nat -> exists e, In e f /\ e_theory e = true /\ e_conn e = x).
Proof.
  intros K N X. unfold key_frame in K. destruct (conns c (k_type k)) as [|x0 xs0] eqn:C; [destruct i; discriminate X|]. rewrite <- C in *.
  destruct (estimates c out k) as [es|] eqn:E; [clear N|contradiction]. destruct (estimates_nth _ _ _ _ _ _ E X) as (p & Ep & _).
  assert (A : In (mkEntry p x false (k_n k) (Z.of_nat (k_n k)) (k_type k) (k_clear k) (k_dim k)) (entries k false es (conns c (k_type k)) (repeat (Z.of_nat (k_n k)) (length (conns c (k_type k)))))).
  { apply entries_has with i; [assumption|assumption|]. apply nth_repeat. apply nth_error_Some. congruence. }
  destruct (k_dim k <=? 7)%nat eqn:D; [|injection K as <-; split; [eexists; split; [exact A|auto]|apply Nat.leb_gt in D; lia]].
  assert (Li : (i < length (conns c (k_type k)))%nat) by (apply nth_error_Some; congruence).
  destruct (k_type k) eqn:T.
  - destruct (search_all _ _ fuel) as [zs|] eqn:S; [|discriminate K]. cbn [bind] in K. injection K as <-. split; [eexists; split; [apply in_app_iff; left; exact A|auto]|]. intros _.
    assert (L : length zs = length (conns c RadiusPrm)).
    { apply search_all_length in S. unfold ss_log2_bound_funcs in S. rewrite !map_length in S. apply estimates_some in E as (_ & Es). rewrite S, Es, map_length, T. unfold conns. lia. }
    destruct (nth_error zs i) as [z|] eqn:Z; [|apply nth_error_None in Z; lia].
    eexists. split; [apply in_app_iff; right; eapply entries_has with (i := i); [|exact X|exact Z]|auto].
    rewrite !nth_error_map. unfold conns in X. rewrite X. reflexivity.
  - destruct (search _ _ fuel) as [z|] eqn:S; [|discriminate K]. cbn [bind] in K. injection K as <-. split; [eexists; split; [apply in_app_iff; left; exact A|auto]|]. intros _.
    eexists. split; [apply in_app_iff; right; eapply entries_has with (i := i); [apply nth_repeat; exact Li|exact X|apply nth_repeat; exact Li]|auto].
Qed.
(** Clearances from a sixteenth to a half, dimensions of at least one, any schedules and any results: the frame is built
    as soon as one trial of one setting has been run. *)
Theorem frame_runs c out fuel : reasonable c -> (1000 <= fuel)%nat -> (exists t delta d n r, In (mkKey t delta d n) (all_trials c) /\ In r out /\ ran t delta d n r) ->
  exists df, plot_df c out fuel = Ok df.
Proof.
  intros H Hf (t & delta & d & n & r & I & Ir & R0). unfold plot_df.
  destruct (frames_run c out fuel (fun k => key_frame_runs c out fuel k H Hf) (keys_from [] (all_trials c))) as (fs & F); [intros k; apply keys_in|]. rewrite F. cbn [bind].
  destruct (forallb _ fs) eqn:B; [exfalso|eauto]. rewrite forallb_forall in B. set (k := mkKey t delta d n) in *.
  destruct (key_frame_runs c out fuel k H Hf I) as (f & K).
  assert (Ne : estimates c out k <> None). { intros Z. apply (estimates_none c out k) with (r := r) in Z; [apply Z; exact R0|exact Ir]. }
  destruct (nth_error (conns c t) 0) as [x|] eqn:X.
  - destruct (key_frame_has c out fuel k f 0 x K Ne X) as ((e & Ie & _) & _).
    assert (J : In e (concat fs)). { apply (frames_in _ _ _ _ _ F). exists k, f. split; [|auto]. destruct (keys_has _ _ I []) as [J|[]]. exact J. }
    apply in_concat in J as (g & G & J). apply B in G. destruct g; [destruct J|discriminate G].
  - destruct H as (N & M & _). unfold conns, rads in X. destruct t; [destruct (deltas c); [contradiction|discriminate X]|destruct (max_knn c); [lia|discriminate X]].
Qed.
Print Assumptions frame_runs.

(** * C170 *)
Inductive cells_ok (Q : nat -> R -> Z -> Prop) : bool -> list nat -> list cell -> Prop :=
| cells_nil : forall seen, cells_ok Q seen [] []
| cells_cons : forall seen n p z ns cs, Q n p z -> cells_ok Q (seen || isclose p 1)%bool ns cs -> cells_ok Q seen (n :: ns) ((if seen then Dash else Shown p z) :: cs).
Definition box_has (df : list entry) (t : prm) (d : nat) (delta conn : R) (n : nat) (th : bool) (e : entry) : Prop :=
  In e df /\ e_type e = t /\ e_dim e = d /\ e_n e = n /\ near (e_conn e) conn /\ near (e_clear e) delta /\ e_theory e = th.
Lemma box_in df t d n conn delta e : In e (box_items df t d n conn delta) <-> In e df /\ e_type e = t /\ e_dim e = d /\ e_n e = n /\ near (e_conn e) conn /\ near (e_clear e) delta.
Proof. unfold box_items. rewrite filter_In, !andb_true_iff, prm_eqb_iff, !Nat.eqb_eq, !isclose_iff. tauto. Qed.
Lemma first_ok {A} (f : A -> bool) l x : first (filter f l) = Ok x -> In x l /\ f x = true.
Proof. intros H. destruct (filter f l) as [|y l'] eqn:E; [discriminate H|]. injection H as ->. apply filter_In. rewrite E. now left. Qed.
Lemma first_runs {A} (f : A -> bool) l x : In x l -> f x = true -> exists y, first (filter f l) = Ok y.
Proof. intros I F. assert (J : In x (filter f l)) by (now apply filter_In). destruct (filter f l) as [|y l']; [destruct J|]. exists y. reflexivity. Qed.
Lemma row_cells_ok b df t d delta conn : forall ns seen cs, row_cells b df t d delta conn ns seen = Ok cs ->
  cells_ok (fun n p z => exists est th, box_has df t d delta conn n false est /\ box_has df t d delta conn n true th /\ p = e_p est /\ z = e_pred th) seen ns cs.
Proof.
  induction ns as [|n ns IH]; intros seen cs H; cbn [row_cells] in H; [injection H as <-; constructor|]. cbv zeta in H.
  destruct (first (filter (fun e => negb (e_theory e)) _)) as [est|] eqn:E; [|discriminate H]. cbn [bind] in H. destruct (first (filter e_theory _)) as [th|] eqn:T; [|discriminate H]. cbn [bind] in H.
  destruct (negb seen && negb b)%bool; [discriminate H|]. destruct (row_cells _ _ _ _ _ _ _ _) as [cs'|] eqn:C; [|discriminate H]. cbn [bind] in H. injection H as <-.
  constructor; [|apply IH, C]. apply first_ok in E as (E & E'). apply first_ok in T as (T & T'). apply box_in in E, T. apply negb_true_iff in E'. exists est, th. unfold box_has. tauto.
Qed.
Lemma row_cells_run b df t d delta conn : b = true -> forall ns, (forall n, In n ns -> (exists e, box_has df t d delta conn n false e) /\ exists e, box_has df t d delta conn n true e) ->
  forall seen, exists cs, row_cells b df t d delta conn ns seen = Ok cs.
Proof.
  intros ->. induction ns as [|n ns IH]; intros H seen; cbn [row_cells]; [eauto|]. cbv zeta. destruct (H n (or_introl eq_refl)) as ((e & E) & (e' & E')).
  destruct (first_runs (fun e => negb (e_theory e)) (box_items df t d n conn delta) e) as (est & ->); [apply box_in; unfold box_has in E; tauto|destruct E as (_ & _ & _ & _ & _ & _ & ->); reflexivity|].
  destruct (first_runs e_theory (box_items df t d n conn delta) e') as (th & ->); [apply box_in; unfold box_has in E'; tauto|apply E'|]. cbn [bind]. rewrite andb_false_r.
  destruct (IH (fun m Hm => H m (or_intror Hm)) (seen || isclose (e_p est) 1)%bool) as (cs & ->). cbn [bind]. eauto.
Qed.
Lemma cells_nth Q seen ns cs : cells_ok Q seen ns cs -> List.length cs = List.length ns /\ forall j n, nth_error ns j = Some n -> exists p z, Q n p z /\
  ((nth_error cs j = Some (Shown p z) /\ seen = false /\ forall j' n', (j' < j)%nat -> nth_error ns j' = Some n' -> exists p' z', Q n' p' z' /\ ~ near p' 1) \/
   (nth_error cs j = Some Dash /\ (seen = true \/ exists j' n' p' z', (j' < j)%nat /\ nth_error ns j' = Some n' /\ Q n' p' z' /\ near p' 1))).
Proof.
  induction 1 as [seen|seen n p z ns cs Hq H (L & IH)]; [split; [reflexivity|intros [|j] n E; discriminate E]|]. split; [cbn; congruence|]. intros [|j] m E; cbn in E.
  - injection E as <-. exists p, z. split; [assumption|]. destruct seen; [right; split; [reflexivity|now left]|left]. split; [reflexivity|]. split; [reflexivity|]. intros j' n' F. lia.
  - destruct (IH j m E) as (p2 & z2 & Q2 & D). exists p2, z2. split; [assumption|]. destruct D as [(N & S & A)|(N & S)].
    + apply orb_false_iff in S as (S & S'). left. split; [exact N|]. split; [assumption|]. intros [|j'] n' F E'; cbn in E'; [|apply (A j'); [lia|assumption]]. injection E' as <-. exists p, z. split; [assumption|]. intros C. apply isclose_iff in C. congruence.
    + right. split; [exact N|]. destruct S as [S|(j' & n' & p' & z' & F & E' & Q' & C)]; [|right; exists (S j'), n', p', z'; repeat split; auto; lia].
      apply orb_true_iff in S as [S|S]; [now left|]. apply isclose_iff in S. right. exists 0%nat, n, p, z. repeat split; auto. lia.
Qed.
Lemma table_rows_nth b df t d conn_of ns : forall ds tb, table_rows b df t d conn_of ns ds = Ok tb -> List.length tb = List.length ds /\
  forall i delta, nth_error ds i = Some delta -> exists cs, nth_error tb i = Some (delta, cs) /\ row_cells b df t d delta (conn_of delta) ns false = Ok cs.
Proof.
  induction ds as [|x ds IH]; intros tb H; cbn [table_rows] in H; [injection H as <-; split; [reflexivity|intros [|i] delta E; discriminate E]|].
  destruct (row_cells _ _ _ _ _ _ _ _) as [cs|] eqn:C; [|discriminate H]. cbn [bind] in H. destruct (table_rows _ _ _ _ _ _ ds) as [tb'|] eqn:T; [|discriminate H]. cbn [bind] in H. injection H as <-.
  destruct (IH _ eq_refl) as (L & A). split; [cbn; congruence|]. intros [|i] delta E; cbn in E |- *; [injection E as <-; eauto|]. now apply A.
Qed.
Lemma table_rows_run b df t d conn_of ns : forall ds, (forall delta, In delta ds -> exists cs, row_cells b df t d delta (conn_of delta) ns false = Ok cs) -> exists tb, table_rows b df t d conn_of ns ds = Ok tb.
Proof.
  induction ds as [|x ds IH]; intros H; cbn [table_rows]; [eauto|]. destruct (H x (or_introl eq_refl)) as (cs & ->). cbn [bind]. destruct IH as (tb & ->); [intros; apply H; now right|]. cbn [bind]. eauto.
Qed.

(** no two clearances are nearly the same *)
Definition apart (l : list R) : Prop := forall x y, In x l -> In y l -> near x y -> x = y.
Lemma near_twice x y : near (x * 2) (y * 2) -> near x y.
Proof.
  unfold near. replace (x * 2 - y * 2) with ((x - y) * 2) by ring. rewrite !Rabs_mult. rewrite (Rabs_pos_eq 2) by lra. lra.
Qed.
Lemma near_32 i : near (INR i) 32 -> i = 32%nat.
Proof.
  unfold near. rewrite (Rabs_pos_eq 32) by lra. intros H. apply INR_eq. replace (INR 32) with 32 by (rewrite INR_IZR_INZ; reflexivity).
  destruct (Nat.lt_trichotomy i 32) as [L|[->|L]]; [exfalso|rewrite INR_IZR_INZ; reflexivity|exfalso].
  - assert (A : (i <= 31)%nat) by lia. apply le_INR in A. replace (INR 31) with 31 in A by (rewrite INR_IZR_INZ; reflexivity). rewrite Rabs_left in H; lra.
  - assert (A : (33 <= i)%nat) by lia. apply le_INR in A. replace (INR 33) with 33 in A by (rewrite INR_IZR_INZ; reflexivity). rewrite Rabs_right in H; lra.
Qed.
(** the conn of a box item *)
Lemma box_conn c out fuel df t d delta n th e : plot_df c out fuel = Ok df -> apart (deltas c) -> In delta (deltas c) ->
  box_has df t d delta (match t with RadiusPrm => delta * 2 | KnnPrm => 32 end) n th e ->
  e_conn e = (match t with RadiusPrm => 2 * delta | KnnPrm => 32 end) /\ e_clear e = delta /\ In n (match t with RadiusPrm => radius_ns c | KnnPrm => knn_ns c end) /\
  In d (match t with RadiusPrm => radius_dims c | KnnPrm => knn_dims c end) /\ (t = KnnPrm -> (32 < max_knn c)%nat) /\ (th = true -> (d <= 7)%nat) /\ exists p, rate out t delta d n (e_conn e) p.
Proof.
  intros P A Id (I & T & D & N & Cn & Cl & Th). apply (plot_df_in _ _ _ _ P) in I as (k & f & Ik & K & I). destruct (key_frame_in _ _ _ _ _ _ K I) as (E1 & E2 & E3 & E4 & es & i & p & E & Ep & X & _ & F).
  apply all_trials_in in Ik as (Ix & Idim & Ins). assert (Tk : k_type k = t) by congruence. assert (Xc : k_clear k = delta) by (apply A; [assumption|assumption|congruence]).
  pose proof (estimates_nth _ _ _ _ _ _ E X) as (p' & _ & R0). rewrite Tk in *. rewrite <- E2, <- E3, <- E4, N, D in *. split; [|split; [congruence|split; [assumption|split; [assumption|split; [|split]]]]].
  - destruct t; cbn [conns] in X.
    + unfold rads in X. rewrite nth_error_map in X. destruct (nth_error (deltas c) i) as [y|] eqn:Y; [|discriminate X]. cbn in X. injection X as X. rewrite <- X in *. apply near_twice in Cn. apply nth_error_In in Y. rewrite (A y delta Y Id Cn). ring.
    + rewrite nth_error_map in X. destruct (nth_error (seq 0 (max_knn c)) i) as [y|] eqn:Y; [|discriminate X]. cbn in X. injection X as X. rewrite <- X in *. apply near_32 in Cn. subst y. rewrite INR_IZR_INZ. reflexivity.
  - intros ->. cbn [conns] in X. rewrite nth_error_map in X. destruct (nth_error (seq 0 (max_knn c)) i) as [y|] eqn:Y; [|discriminate X]. cbn in X. injection X as X. rewrite <- X in *. apply near_32 in Cn. subst y.
    apply nth_error_In, in_seq in Y. lia.
  - intros ->. apply F. assumption.
  - exists p'. assert (Xe : e_clear e = delta) by congruence. rewrite Xe in R0. exact R0.
Qed.

(** The share of a setting in a table and the number of samples beside it: for a radius twice the clearance, or for 32
    neighbours, with the ball of the LAST clearance where that is the smaller one, or that of the clearance. *)
Definition tabled (c : config) (out : list row) (t : prm) (d : nat) (delta : R) (n : nat) (p : R) (z : Z) : Prop :=
  match t with
  | RadiusPrm => rate out t delta d n (2 * delta) p /\ least_count (net_measure d delta (Rmin (last (deltas c) 0 / 2) (delta / 2))) (d + 1) (1 - p + 1 / 10 ^ 6) z
  | KnnPrm => rate out t delta d n 32 p /\ least_count (net_measure d delta (delta / 2)) (d + 1) (1 / 100) z
  end.
Definition full (out : list row) (t : prm) (d : nat) (delta : R) (n : nat) : Prop :=
  exists p, rate out t delta d n (match t with RadiusPrm => 2 * delta | KnnPrm => 32 end) p /\ near p 1.
Lemma box_tabled c out fuel df t d delta n est th : plot_df c out fuel = Ok df -> apart (deltas c) -> In delta (deltas c) -> (1 <= d)%nat -> 0 <= delta ->
  box_has df t d delta (match t with RadiusPrm => delta * 2 | KnnPrm => 32 end) n false est -> box_has df t d delta (match t with RadiusPrm => delta * 2 | KnnPrm => 32 end) n true th ->
  tabled c out t d delta n (e_p est) (e_pred th).
Proof.
  intros P A Id Hd Hc B1 B2. pose proof (box_conn _ _ _ _ _ _ _ _ _ _ P A Id B1) as (C1 & X1 & _). pose proof (box_conn _ _ _ _ _ _ _ _ _ _ P A Id B2) as (C2 & X2 & _).
  destruct B1 as (I1 & T1 & D1 & N1 & _ & _ & Th1). destruct B2 as (I2 & T2 & D2 & N2 & _ & _ & Th2).
  pose proof (estimated_entries _ _ _ _ _ P I1 Th1) as (R1 & _). rewrite T1, D1, N1, C1, X1 in R1.
  assert (Hd' : (1 <= e_dim th)%nat) by now rewrite D2. assert (Hc' : 0 <= e_clear th) by now rewrite X2.
  pose proof (prediction_exact _ _ _ _ _ P I2 Hd' Hc' Th2) as H. cbv zeta in H. rewrite T2, D2, N2, C2, X2 in H. unfold tabled. destruct t; (split; [assumption|]).
  - destruct H as ((p & R2 & L) & _). rewrite (rate_fun _ _ _ _ _ _ _ _ R2 R1) in L. exact L.
  - apply H.
Qed.
Lemma table_cells c out fuel df t d b conn_of ns tb : plot_df c out fuel = Ok df -> table_rows b df t d conn_of ns (deltas c) = Ok tb -> (1 <= d)%nat ->
  (forall delta, conn_of delta = match t with RadiusPrm => delta * 2 | KnnPrm => 32 end) -> apart (deltas c) -> (forall x, In x (deltas c) -> 0 <= x) ->
  List.length tb = List.length (deltas c) /\ forall i delta, nth_error (deltas c) i = Some delta -> exists cs, nth_error tb i = Some (delta, cs) /\ List.length cs = List.length ns /\
  forall j n, nth_error ns j = Some n -> exists p z, tabled c out t d delta n p z /\
    ((nth_error cs j = Some (Shown p z) /\ forall j' n', (j' < j)%nat -> nth_error ns j' = Some n' -> ~ full out t d delta n') \/
     (nth_error cs j = Some Dash /\ exists j' n', (j' < j)%nat /\ nth_error ns j' = Some n' /\ full out t d delta n')).
Proof.
  intros P T Hd Hcn A Hc. apply table_rows_nth in T as (L & T). split; [assumption|]. intros i delta E. destruct (T _ _ E) as (cs & N & C). exists cs. split; [assumption|]. rewrite Hcn in C.
  apply nth_error_In in E. pose proof (Hc _ E) as H0. apply row_cells_ok, cells_nth in C as (Lc & C). split; [assumption|].
  assert (TB : forall n p z, (exists est th, box_has df t d delta (match t with RadiusPrm => delta * 2 | KnnPrm => 32 end) n false est /\ box_has df t d delta (match t with RadiusPrm => delta * 2 | KnnPrm => 32 end) n true th /\ p = e_p est /\ z = e_pred th) -> tabled c out t d delta n p z).
  { intros n p z (est & th & B1 & B2 & -> & ->). eapply box_tabled; eassumption. }
  assert (RT : forall n p z, tabled c out t d delta n p z -> rate out t delta d n (match t with RadiusPrm => 2 * delta | KnnPrm => 32 end) p) by (intros n p z; unfold tabled; destruct t; tauto).
  intros j n J. destruct (C j n J) as (p & z & Q & D). exists p, z. split; [now apply TB|]. destruct D as [(D & _ & F)|(D & [[=]|(j' & n' & p' & z' & F & E' & Q' & C')])].
  - left. split; [assumption|]. intros j' n' F' E' (q & Rq & Nq). destruct (F j' n' F' E') as (p' & z' & Q' & N'). apply N'. apply TB, RT in Q'. rewrite (rate_fun _ _ _ _ _ _ _ _ Q' Rq). assumption.
  - right. split; [assumption|]. exists j', n'. split; [assumption|]. split; [assumption|]. exists p'. split; [eapply RT, TB, Q'|assumption].
Qed.
(** One row for each clearance and one cell for each number of samples; a cell shows the share of solved trials and the
    prediction until a share close to one has been shown in its row, and dashes from there on. *)
Theorem radius_cells c out fuel df d tb : plot_df c out fuel = Ok df -> radius_table c df d = Ok tb -> (1 <= d)%nat -> apart (deltas c) -> (forall x, In x (deltas c) -> 0 <= x) ->
  List.length tb = List.length (deltas c) /\ forall i delta, nth_error (deltas c) i = Some delta -> exists cs, nth_error tb i = Some (delta, cs) /\ List.length cs = List.length (radius_ns c) /\
  forall j n, nth_error (radius_ns c) j = Some n -> exists p z, tabled c out RadiusPrm d delta n p z /\
    ((nth_error cs j = Some (Shown p z) /\ forall j' n', (j' < j)%nat -> nth_error (radius_ns c) j' = Some n' -> ~ full out RadiusPrm d delta n') \/
     (nth_error cs j = Some Dash /\ exists j' n', (j' < j)%nat /\ nth_error (radius_ns c) j' = Some n' /\ full out RadiusPrm d delta n')).
Proof. intros P T Hd A Hc. eapply table_cells; try eassumption. reflexivity. Qed.
Print Assumptions radius_cells.
(** The same for nearest neighbours, with columns for 100 and 1000 samples whatever the configuration. *)
Theorem knn_cells c out fuel df d tb : plot_df c out fuel = Ok df -> knn_table c df d = Ok tb -> (1 <= d)%nat -> apart (deltas c) -> (forall x, In x (deltas c) -> 0 <= x) ->
  List.length tb = List.length (deltas c) /\ forall i delta, nth_error (deltas c) i = Some delta -> exists cs, nth_error tb i = Some (delta, cs) /\ List.length cs = 2%nat /\
  forall j n, nth_error [100; 1000]%nat j = Some n -> exists p z, tabled c out KnnPrm d delta n p z /\
    ((nth_error cs j = Some (Shown p z) /\ forall j' n', (j' < j)%nat -> nth_error [100; 1000]%nat j' = Some n' -> ~ full out KnnPrm d delta n') \/
     (nth_error cs j = Some Dash /\ exists j' n', (j' < j)%nat /\ nth_error [100; 1000]%nat j' = Some n' /\ full out KnnPrm d delta n')).
Proof. intros P T Hd A Hc. eapply (table_cells c out fuel df KnnPrm d _ _ table_ns); try eassumption. reflexivity. Qed.
Print Assumptions knn_cells.
(** The tables are made when every setting in them was run. *)
Lemma box_there c out fuel df t d delta n : plot_df c out fuel = Ok df -> In (mkKey t delta d n) (all_trials c) -> (exists r, In r out /\ ran t delta d n r) -> (d <= 7)%nat -> (t = KnnPrm -> (32 < max_knn c)%nat) ->
  forall th, exists e, box_has df t d delta (match t with RadiusPrm => delta * 2 | KnnPrm => 32 end) n th e.
Proof.
  intros P I (r & Ir & R0) D7 M. set (k := mkKey t delta d n) in *. destruct (plot_df_each _ _ _ _ _ P I) as (f & K).
  assert (Ne : estimates c out k <> None). { intros Z. apply (estimates_none c out k) with (r := r) in Z; [apply Z; exact R0|exact Ir]. }
  assert (X : exists i, nth_error (conns c t) i = Some (match t with RadiusPrm => delta * 2 | KnnPrm => 32 end)).
  { destruct t; cbn [conns].
    - apply all_trials_in in I as (Ix & _). cbn in Ix. apply In_nth_error in Ix as (i & Ix). exists i. unfold rads. now apply (map_nth_error (fun y => y * 2)).
    - exists 32%nat. rewrite nth_error_map, nth_error_nth' with (d := 0%nat) by (rewrite seq_length; auto). rewrite seq_nth by auto. cbn [option_map Nat.add]. f_equal. rewrite INR_IZR_INZ. reflexivity. }
  destruct X as (i & X). destruct (key_frame_has c out fuel k f i _ K Ne X) as ((e & Ie & Te & Ce) & H2). destruct (H2 D7) as (e' & Ie' & Te' & Ce').
  assert (G : forall e0 th, In e0 f -> e_theory e0 = th -> e_conn e0 = (match t with RadiusPrm => delta * 2 | KnnPrm => 32 end) -> box_has df t d delta (match t with RadiusPrm => delta * 2 | KnnPrm => 32 end) n th e0).
  { intros e0 th I0 T0 C0. destruct (key_frame_in _ _ _ _ _ _ K I0) as (E1 & E2 & E3 & E4 & _). split; [apply (plot_df_in _ _ _ _ P); eauto|]. repeat (split; [assumption|]). rewrite C0, E2. split; [apply near_refl|]. split; [apply near_refl|assumption]. }
  intros [|]; [exists e'|exists e]; now apply G.
Qed.
Theorem tables_run c out fuel df d : plot_df c out fuel = Ok df -> (d <= 7)%nat ->
  (In d (radius_dims c) -> (forall delta n, In delta (deltas c) -> In n (radius_ns c) -> exists r, In r out /\ ran RadiusPrm delta d n r) -> exists tb, radius_table c df d = Ok tb) /\
  (In d (knn_dims c) -> (forall delta n, In delta (deltas c) -> n = 100%nat \/ n = 1000%nat -> In n (knn_ns c) /\ exists r, In r out /\ ran KnnPrm delta d n r) -> (32 < max_knn c)%nat -> radius_dims c <> [] ->
     exists tb, knn_table c df d = Ok tb).
Proof.
  intros P D7. split.
  - intros Id H. unfold radius_table. apply table_rows_run. intros delta I. apply row_cells_run; [reflexivity|]. intros n N.
    assert (B : forall th, exists e, box_has df RadiusPrm d delta (delta * 2) n th e); [|split; apply B].
    apply (box_there c out fuel df RadiusPrm); [assumption|apply all_trials_in; cbn; auto|now apply H|assumption|discriminate].
  - intros Id H M Rd. unfold knn_table. apply table_rows_run. intros delta I. apply row_cells_run; [destruct (radius_dims c); [contradiction|reflexivity]|]. intros n N.
    assert (N' : n = 100%nat \/ n = 1000%nat). { unfold table_ns in N. destruct N as [N|[N|[]]]; auto. } destruct (H delta n I N') as (Nk & R0).
    assert (B : forall th, exists e, box_has df KnnPrm d delta 32 n th e); [|split; apply B].
    apply (box_there c out fuel df KnnPrm); [assumption|apply all_trials_in; cbn; auto|assumption|assumption|auto].
Qed.
Print Assumptions tables_run.
(** and not otherwise: a table of nearest neighbours needs both sample counts in the schedule, more than 32 neighbours, a
    dimension of at most seven, and a radius table before it *)
Theorem knn_table_needs c out fuel df d tb : plot_df c out fuel = Ok df -> knn_table c df d = Ok tb -> apart (deltas c) -> deltas c <> [] ->
  (d <= 7)%nat /\ (32 < max_knn c)%nat /\ In d (knn_dims c) /\ In 100%nat (knn_ns c) /\ In 1000%nat (knn_ns c) /\ radius_dims c <> [] /\
  forall delta n, In delta (deltas c) -> n = 100%nat \/ n = 1000%nat -> exists r, In r out /\ ran KnnPrm delta d n r.
Proof.
  intros P T A Ne. apply table_rows_nth in T as (_ & T).
  assert (B : forall delta n, In delta (deltas c) -> n = 100%nat \/ n = 1000%nat -> exists est th, box_has df KnnPrm d delta 32 n false est /\ box_has df KnnPrm d delta 32 n true th).
  { intros delta n I N. apply In_nth_error in I as (i & I). destruct (T _ _ I) as (cs & _ & C). apply row_cells_ok, cells_nth in C as (_ & C).
    assert (J : exists j, nth_error table_ns j = Some n) by (destruct N as [->| ->]; [exists 0%nat|exists 1%nat]; reflexivity). destruct J as (j & J).
    destruct (C _ _ J) as (p & z & (est & th & B1 & B2 & _) & _). eauto. }
  destruct (deltas c) as [|x ds] eqn:Ds; [contradiction|]. rewrite <- Ds in *. assert (Ix : In x (deltas c)) by (rewrite Ds; now left).
  destruct (B x 100%nat Ix (or_introl eq_refl)) as (e1 & t1 & B1 & B1'). destruct (B x 1000%nat Ix (or_intror eq_refl)) as (e2 & t2 & B2 & B2').
  pose proof (box_conn _ _ _ _ _ _ _ _ _ _ P A Ix B1') as (_ & _ & N1 & Dd & M & D7 & _). pose proof (box_conn _ _ _ _ _ _ _ _ _ _ P A Ix B2') as (_ & _ & N2 & _).
  split; [auto|]. split; [auto|]. split; [assumption|]. split; [assumption|]. split; [assumption|]. split.
  - intros E. destruct (T 0%nat x) as (cs & _ & C); [now rewrite Ds|]. rewrite E in C. unfold table_ns in C. cbn [row_cells] in C. cbv zeta in C.
    destruct (first (filter (fun e => negb (e_theory e)) _)); [|discriminate C]. cbn [bind] in C. destruct (first (filter e_theory _)); [|discriminate C]. cbn [bind negb andb] in C. discriminate C.
  - intros delta n I N. destruct (B delta n I N) as (e & _ & Be & _). pose proof (box_conn _ _ _ _ _ _ _ _ _ _ P A I Be) as (_ & _ & _ & _ & _ & _ & p & a & b & Cb & _ & Pb & _).
    eapply counts_in in Cb. apply Cb in Pb. exact Pb.
Qed.
Print Assumptions knn_table_needs.

(** ** The repository's full configuration, exps/config/narrow_full_run.json *)
Definition full_run : config := mkConfig [499 / 1000; 1 / 4; 1 / 8; 1 / 16] [2; 3; 4; 5; 6]%nat [100; 1000]%nat [2; 3; 6; 7; 10; 14; 20]%nat [1000; Z.to_nat 10000; Z.to_nat 100000; Z.to_nat 1000000]%nat 254.
Lemma far x y : 1 / 16 <= x <= 1 / 2 -> 1 / 16 <= y <= 1 / 2 -> near x y -> x - y < 1 / 1000 /\ y - x < 1 / 1000.
Proof. intros Hx Hy N. unfold near in N. rewrite (Rabs_pos_eq y) in N by lra. unfold Rabs in N. destruct (Rcase_abs (x - y)); lra. Qed.
Lemma full_apart : apart [499 / 1000; 1 / 4; 1 / 8; 1 / 16].
Proof.
  intros x y X Y N. assert (F : forall v, In v [499 / 1000; 1 / 4; 1 / 8; 1 / 16] -> 1 / 16 <= v <= 1 / 2) by (intros v V; cbn in V; decompose [or] V; try contradiction; subst; lra).
  pose proof (far x y (F _ X) (F _ Y) N). cbn in X, Y. decompose [or] X; decompose [or] Y; try contradiction; subst; try reflexivity; exfalso; lra.
Qed.
Lemma full_reasonable : reasonable full_run.
Proof.
  split; [discriminate|]. split; [cbn; lia|]. split.
  - intros x X; cbn in X; decompose [or] X; try contradiction; subst; lra.
  - intros d [D|D]; cbn in D; decompose [or] D; try contradiction; subst; lia.
Qed.
(** Whatever its results are, cell 15 makes none of its tables of nearest neighbours: they look for 100 samples, which the
    configuration never uses. *)
Theorem full_run_refuted : exists c, c = full_run /\ (exists out df, plot_df c out 1000 = Ok df) /\ forall out fuel df d, plot_df c out fuel = Ok df -> forall tb, knn_table c df d <> Ok tb.
Proof.
  exists full_run. split; [reflexivity|]. split.
  - exists [mkRow KnnPrm 20 (1 / 4) 1000 None]. apply frame_runs; [apply full_reasonable|lia|]. exists KnnPrm, (1 / 4), 20%nat, 1000%nat, (mkRow KnnPrm 20 (1 / 4) 1000 None). split; [|split; [now left|repeat split; apply near_refl]].
    apply all_trials_in. cbn [k_type k_clear k_dim k_n full_run deltas knn_dims knn_ns]. split; [right; now left|]. split; [cbn; auto 10|now left].
  - intros out fuel df d P tb T. pose proof (knn_table_needs _ _ _ _ _ _ P T full_apart ltac:(discriminate)) as (_ & _ & _ & N & _). cbn [full_run knn_ns In] in N. lia.
Qed.
Print Assumptions full_run_refuted.

(** The prediction for the widest passage of that configuration, in two dimensions, with every trial solved: the table
    shows more than seventy times the samples that the bound asks for. *)
Definition wide_run : config := mkConfig [499 / 1000; 1 / 4; 1 / 8; 1 / 16] [2]%nat [100]%nat [] [] 254.
Definition wide_out : list row := map (fun x => mkRow RadiusPrm 2 x 100 (Some (1 / 10))) (deltas wide_run).
Lemma wide_ran x : In x (deltas wide_run) -> exists r, In r wide_out /\ ran RadiusPrm x 2 100 r.
Proof. intros I. exists (mkRow RadiusPrm 2 x 100 (Some (1 / 10))). split; [unfold wide_out; apply in_map_iff; eauto|]. repeat split. apply near_refl. Qed.
Lemma wide_frame : exists df, plot_df wide_run wide_out 1000 = Ok df.
Proof.
  apply frame_runs; [|lia|].
  - destruct full_reasonable as (A & B & C & _). split; [exact A|]. split; [exact B|]. split; [exact C|]. intros d [[<-|[]]|[]]. lia.
  - destruct (wide_ran (1 / 4)) as (r & Ir & R0); [right; now left|]. exists RadiusPrm, (1 / 4), 2%nat, 100%nat, r. split; [|auto]. apply all_trials_in. cbn. auto.
Qed.
Lemma wide_rate p : rate wide_out RadiusPrm (499 / 1000) 2 100 (2 * (499 / 1000)) p -> p = 1.
Proof.
  intros (a & b & B & A & P & ->). rewrite (counts_fun _ _ _ A b).
  - apply Rinv_r. apply not_0_INR. lia.
  - clear A. assert (S : forall r, In r wide_out -> solved (2 * (499 / 1000)) r).
    { intros r I. unfold wide_out in I. apply in_map_iff in I as (x & <- & _). exists (1 / 10). cbn. split; [reflexivity|lra]. }
    clear P. induction B as [|r l n Q B IH|r l n Q B IH]; [constructor| |]; (assert (IH' := IH (fun r' I => S r' (or_intror I)))).
    + constructor; [|assumption]. split; [assumption|]. apply S. now left.
    + constructor; [tauto|assumption].
Qed.
Theorem prediction_refuted : exists c out df tb cs p z z0, plot_df c out 1000 = Ok df /\ radius_table c df 2 = Ok tb /\ nth_error tb 0 = Some (499 / 1000, cs) /\ nth_error cs 0 = Some (Shown p z) /\
  rate out RadiusPrm (499 / 1000) 2 100 (2 * (499 / 1000)) p /\ deltas c = deltas full_run /\
  least_count (net_measure 2 (499 / 1000) (499 / 1000 / 2)) 3 (1 - p + 1 / 10 ^ 6) z0 /\ (70 * z0 < z)%Z.
Proof.
  destruct wide_frame as (df & P). destruct (tables_run _ _ _ _ 2 P ltac:(lia)) as (T & _). destruct T as (tb & T); [now left|intros x n I [<-|[]]; now apply wide_ran|].
  pose proof T as T'. destruct (radius_cells _ _ _ _ _ _ P T' ltac:(lia)) as (_ & C); [exact full_apart|intros x X; cbn in X; decompose [or] X; try contradiction; subst; lra|].
  destruct (C 0%nat (499 / 1000) eq_refl) as (cs & N & _ & D). destruct (D 0%nat 100%nat eq_refl) as (p & z & (R0 & L) & [(S & _)|(_ & j' & n' & F & _)]); [|lia].
  destruct (search_any (net_measure 2 (499 / 1000) (499 / 1000 / 2)) 3 (1 - p + 1 / 10 ^ 6) 1000) as (z0 & Z).
  { apply net_large; [lia|lra|lra]. } { lia. } { rewrite (wide_rate p R0). lra. } { lia. }
  apply g_search_least in Z; [|rewrite (wide_rate p R0); lra].
  exists wide_run, wide_out, df, tb, cs, p, z, z0. repeat (split; [assumption|]). split; [reflexivity|]. split; [assumption|].
  rewrite (wide_rate p R0) in L, Z. replace (1 - 1 + 1 / 10 ^ 6) with (1 / 10 ^ 6) in L, Z by ring. cbn [wide_run deltas last] in L. rewrite Rmin_left in L by lra.
  apply wide_count in Z. apply thin_count in L. apply lt_IZR. rewrite mult_IZR. lra.
Qed.
Print Assumptions prediction_refuted.
(** The theoretical entries of the column of success rates are bounds on failures, and can exceed one. *)
Theorem theory_p_refuted : exists c out df e, plot_df c out 1000 = Ok df /\ In e df /\ e_theory e = true /\ e_p e > 1.
Proof.
  destruct wide_frame as (df & P).
  destruct (box_there wide_run wide_out 1000 df RadiusPrm 2 (499 / 1000) 100 P) with (th := true) as (e & B); [apply all_trials_in; cbn; auto|apply wide_ran; now left|lia|discriminate|].
  exists wide_run, wide_out, df, e. split; [assumption|]. pose proof (box_conn _ _ _ _ RadiusPrm _ (499 / 1000) _ _ _ P full_apart (or_introl eq_refl) B) as (C & X & _). destruct B as (I & T & D & N & _ & _ & Th). split; [assumption|]. split; [assumption|].
  pose proof (prediction_exact _ _ _ _ _ P I ltac:(lia) ltac:(lra) Th) as H. cbv zeta in H. rewrite T, D, N, X, C in H. destruct H as (_ & ->).
  rewrite Rmin_left by lra. replace (2 * (499 / 1000) / 4) with (499 / 1000 / 2) by field. pose proof PI_3_4. pose proof PI_upper.
  assert (HR : 0 <= net_measure 2 (499 / 1000) (499 / 1000 / 2) <= 7 / 100) by (unfold net_measure, passage_volume; rewrite ball2; cbn [Nat.sub pow]; lra).
  set (rho := net_measure 2 (499 / 1000) (499 / 1000 / 2)) in *. unfold net_failure_bound. rewrite <- psum_spec. change (2 * 100)%nat with 200%nat. change (2 + 1)%nat with 3%nat.
  assert (S : 1000000 <= IZR (psum 200 3)). { apply IZR_le. pose proof (psum_3 200) as Q. change (Z.of_nat 200) with 200%Z in Q. lia. }
  assert (Pw : / 2 ^ 4 <= Rpower 2 (- rho * INR 100 / 2)).
  { replace (- rho * INR 100 / 2) with (- (rho * INR 100 / 2)) by field. apply Rpower_2_neg. rewrite !INR_IZR_INZ. cbn [Z.of_nat Pos.of_succ_nat Pos.succ]. lra. }
  apply Rlt_le_trans with (2 * 1000000 * / 2 ^ 4); [lra|]. apply Rmult_le_compat; lra.
Qed.
Print Assumptions theory_p_refuted.

(** ** Headers *)
Lemma nth_app_repeat {A} (a b : A) n m i : (i < n + m)%nat -> nth_error (repeat a n ++ repeat b m) i = Some (if (i <? n)%nat then a else b).
Proof.
  intros H. destruct (Nat.ltb_spec i n).
  - rewrite nth_error_app1 by (now rewrite repeat_length). now apply nth_repeat.
  - rewrite nth_error_app2 by (now rewrite repeat_length). rewrite repeat_length. apply nth_repeat. lia.
Qed.
(** The radius tables are headed by the numbers of samples of their columns.  The first tables of nearest neighbours, as
    many as there are radius tables, are headed by those of the radius tables. *)
Theorem headers_exact c it : radius_header c it = (if (it <? List.length (radius_dims c))%nat then Some (radius_ns c) else None) /\
  knn_header c it = (if (it <? List.length (knn_dims c))%nat then Some (if (it <? List.length (radius_dims c))%nat then radius_ns c else [100; 1000]%nat) else None).
Proof.
  unfold radius_header, knn_header, sample_schedules. split.
  - destruct (Nat.ltb_spec it (List.length (radius_dims c))); [|reflexivity]. rewrite nth_app_repeat by lia. rewrite (proj2 (Nat.ltb_lt _ _)) by assumption. reflexivity.
  - destruct (Nat.ltb_spec it (List.length (knn_dims c))); [|reflexivity]. rewrite nth_app_repeat by lia. reflexivity.
Qed.
Print Assumptions headers_exact.
(** The clearances and schedules of exps/config/narrow_micro_test_run.json: columns of 100 and 1000 samples under the
    headings 10 and 100, so that the cell under 100 is the dash of 1000 samples. *)
Definition micro_run : config := mkConfig [1 / 10; 1 / 5] [2]%nat [10; 100]%nat [2]%nat [100; 1000]%nat 40.
Definition micro_out : list row := flat_map (fun x => [mkRow RadiusPrm 2 x 10 None; mkRow KnnPrm 2 x 100 (Some 5); mkRow KnnPrm 2 x 1000 (Some 4)]) (deltas micro_run).
Theorem knn_header_refuted : exists c out df tb h, plot_df c out 1000 = Ok df /\ knn_table c df 2 = Ok tb /\ knn_header c 0 = Some h /\ nth_error (knn_dims c) 0 = Some 2%nat /\
  exists j n, nth_error h j = Some n /\ n = 100%nat /\ exists delta cs p z, In (delta, cs) tb /\ nth_error cs j = Some Dash /\ nth_error cs 0 = Some (Shown p z) /\ tabled c out KnnPrm 2 delta n p z.
Proof.
  assert (M : reasonable micro_run).
  { split; [discriminate|]. split; [cbn; lia|]. split; [intros x [<-|[<-|[]]]; lra|]. intros d [[<-|[]]|[<-|[]]]; lia. }
  destruct (frame_runs micro_run micro_out 1000 M ltac:(lia)) as (df & P).
  { exists RadiusPrm, (1 / 10), 2%nat, 10%nat, (mkRow RadiusPrm 2 (1 / 10) 10 None). split; [apply all_trials_in; cbn; auto|]. split; [now left|]. repeat split. apply near_refl. }
  destruct (tables_run _ _ _ _ 2 P ltac:(lia)) as (_ & T). destruct T as (tb & T); [now left| |cbn; lia|discriminate|].
  { intros x n I N. split; [cbn; destruct N; auto|]. destruct N as [->| ->]; [exists (mkRow KnnPrm 2 x 100 (Some 5))|exists (mkRow KnnPrm 2 x 1000 (Some 4))]; (split; [|repeat split; apply near_refl]); unfold micro_out; apply in_flat_map; exists x; (split; [exact I|]); cbn [In]; auto. }
  assert (A : apart (deltas micro_run)).
  { intros x y [<-|[<-|[]]] [<-|[<-|[]]] N; try reflexivity; exfalso; apply far in N; lra. }
  destruct (knn_cells _ _ _ _ _ _ P T ltac:(lia) A) as (_ & C); [intros x [<-|[<-|[]]]; lra|].
  destruct (C 0%nat (1 / 10) eq_refl) as (cs & N & _ & D). destruct (D 0%nat 100%nat eq_refl) as (p & z & Tb & [(S & _)|(_ & j' & n' & F & _)]); [|lia].
  destruct (D 1%nat 1000%nat eq_refl) as (p2 & z2 & _ & [(_ & F)|(S2 & _)]).
  - exfalso. apply (F 0%nat 100%nat ltac:(lia) eq_refl). exists p. split; [apply Tb|]. destruct Tb as ((a & b & B & Aa & Pb & ->) & _). rewrite (counts_fun _ _ _ Aa b).
    + unfold Rdiv. rewrite Rinv_r by (apply not_0_INR; lia). apply near_refl.
    + assert (S5 : forall r, In r micro_out -> ran KnnPrm (1 / 10) 2 100 r -> solved 32 r).
      { intros r I (Q1 & _). unfold micro_out in I. apply in_flat_map in I as (x & _ & [<-|[<-|[<-|[]]]]); [discriminate Q1|exists 5|exists 4]; cbn; (split; [reflexivity|lra]). }
      clear - B S5. induction B as [|r l n Q B IH|r l n Q B IH]; [constructor| |]; (assert (IH' := IH (fun r' I => S5 r' (or_intror I)))).
      * constructor; [|assumption]. split; [assumption|]. apply S5; [now left|assumption].
      * constructor; [tauto|assumption].
  - exists micro_run, micro_out, df, tb, [10; 100]%nat. split; [assumption|]. split; [assumption|]. split; [reflexivity|]. split; [reflexivity|]. exists 1%nat, 100%nat. split; [reflexivity|]. split; [reflexivity|].
    exists (1 / 10), cs, p, z. split; [eapply nth_error_In; exact N|]. auto.
Qed.
Print Assumptions knn_header_refuted.
(** one of two trials solved within the radius one half, neither within one quarter *)
Example estimate_ex : let r u := mkRow RadiusPrm 2 (1 / 4) 100 u in
  exists p q, estimates (mkConfig [1 / 8; 1 / 4] [2]%nat [100]%nat [] [] 5) [r (Some (3 / 10)); r None] (mkKey RadiusPrm (1 / 4) 2 100) = Some [p; q] /\ p = 0 /\ q = 1 / 2.
Proof.
  intros r. pose proof (near_refl (1 / 4)) as N. apply isclose_iff in N. do 2 eexists. split.
  - unfold estimates, mc_trial_rows, r. cbn [filter r_type r_dim r_clear r_n k_type k_dim k_clear k_n prm_eqb Nat.eqb andb]. rewrite N. cbn [andb conns rads deltas k_type map]. reflexivity.
  - unfold above. cbn [filter r_ub]. assert (A : Rleb (3 / 10) (1 / 8 * 2) = false) by (unfold Rleb; destruct (Rle_dec _ _); [lra|reflexivity]). assert (B : Rleb (3 / 10) (1 / 4 * 2) = true) by (apply Rleb_iff; lra).
    rewrite A, B. cbn [List.length INR]. split; lra.
Qed.
(** clearances in increasing order: the predictions are the right ones *)
Example increasing_ex : exists df e, plot_df micro_run micro_out 1000 = Ok df /\ In e df /\ e_theory e = true /\ e_type e = RadiusPrm /\ e_clear e <= last (deltas micro_run) 0 /\
  exists p, least_count (net_measure 2 (1 / 10) (1 / 10 / 2)) 3 (1 - p + 1 / 10 ^ 6) (e_pred e) /\ rate micro_out RadiusPrm (1 / 10) 2 10 (1 / 5) p.
Proof.
  assert (M : reasonable micro_run).
  { split; [discriminate|]. split; [cbn; lia|]. split; [intros x [<-|[<-|[]]]; lra|]. intros d [[<-|[]]|[<-|[]]]; lia. }
  assert (Rn : ran RadiusPrm (1 / 10) 2 10 (mkRow RadiusPrm 2 (1 / 10) 10 None)) by (repeat split; apply near_refl).
  assert (It : In (mkKey RadiusPrm (1 / 10) 2 10) (all_trials micro_run)) by (apply all_trials_in; cbn; auto).
  destruct (frame_runs micro_run micro_out 1000 M ltac:(lia)) as (df & P).
  { exists RadiusPrm, (1 / 10), 2%nat, 10%nat, (mkRow RadiusPrm 2 (1 / 10) 10 None). split; [assumption|]. split; [now left|assumption]. }
  destruct (box_there micro_run micro_out 1000 df RadiusPrm 2 (1 / 10) 10 P It) with (th := true) as (e & B); [eexists; split; [now left|exact Rn]|lia|discriminate|].
  assert (A : apart (deltas micro_run)).
  { intros x y [<-|[<-|[]]] [<-|[<-|[]]] N; try reflexivity; exfalso; apply far in N; lra. }
  pose proof (box_conn _ _ _ _ RadiusPrm _ (1 / 10) _ _ _ P A (or_introl eq_refl) B) as (C & X & _ & _ & _ & _ & p & R0). destruct B as (I & T & D & N & _ & _ & Th).
  exists df, e. split; [assumption|]. split; [assumption|]. split; [assumption|]. split; [assumption|]. split; [rewrite X; cbn; lra|]. exists p.
  rewrite C in R0. replace (2 * (1 / 10)) with (1 / 5) in R0 by field. split; [|assumption].
  destruct (prediction_when_last_largest _ _ _ _ _ p P I ltac:(lia) ltac:(lra) Th T) as (L & _); [rewrite X, D, N, C; replace (2 * (1 / 10)) with (1 / 5) by field; assumption|].
  rewrite X, D in L. apply L. cbn. lra.
Qed.
