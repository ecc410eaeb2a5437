(** Property C144: the radius roadmap of prm.py (SimpleRadiusPRM) over random samples, with
    bound.py's sample count and connection radius. *)
From Coq Require Import Reals List Arith Lra Lia Bool ZArith QArith Qreals.
From Verif Require Import Prob Geom_Spec Geom_Proofs Search_Model Bound_Model Bound_Spec Bound_Proofs Bound_Proofs2 Bound_Props Vc_Props EpsNet_Props
  NkGraph_Model NkGraph_Spec Prm_Model Prm_Spec Sp_Oracle PrmEx PrmAnn_Inst PrmNn_Proofs PrmNn_Props PrmRp_Proofs PrmRp_Props Net_Spec Net_Proofs Net_Props NetProb_Props Tail_Props KnnProb_Props.
Import ListNotations.
Close Scope Q_scope.
Open Scope R_scope.

Section Radius.
  Context {P : Type}.
  Variable dst : P -> P -> Q.
  Variable check : P -> P -> bool.
  Variable ann : list P -> nat -> rows.
  Variable sp : sp_oracle.
  Hypothesis dst_nonneg : forall p q, (0 <= dst p q)%Q.
  Hypothesis dst_sym : forall p q, (dst p q == dst q p)%Q.
  Hypothesis SP : sp_correct sp.
  Hypothesis ANX : ann_exact dst ann.

  (** a new roadmap of radius [r], with at most about [max_k] neighbours per sample, grown to the drawn samples *)
  Definition radius_grow (fuel : nat) (r : Q) (max_k : nat) (p0 : P) (t : list P) : option (res unit * rp_state) :=
    rp_grow check (feed p0 t) ann fuel (rp_new r max_k 0) (length t).

  (** The roadmap links every valid pair closer than [s], where [s] is the radius if the neighbour
      lists were not cut off, and the least last distance of the lists otherwise. *)
  Lemma radius_grow_links fuel r max_k p0 t : (max_k < fuel)%nat ->
    exists st g k, radius_grow fuel r max_k p0 t = Some (Ok tt, st) /\ rp_samples st = Some t /\ rp_conn_r st = r /\ rp_graph st = Some g /\
      forall s, ((s <= r)%Q \/ (k < length t /\ max_k <= k)%nat) ->
        ((k < length t /\ max_k <= k)%nat -> all_last (fun d => Qgeb d s) (ann t k) = true) ->
        forall i j p q, nth_error t i = Some p -> nth_error t j = Some q -> i <> j -> (dst p q < s)%Q -> check p q = true ->
        exists w, edge g i j w.
  Proof.
    intro F. set (ANN := exact_shape dst ann ANX). unfold radius_grow, rp_grow. cbn [rp_new rp_samples rp_next rp_max_k rp_conn_r rp_k rp_graph].
    assert (D : draw (feed p0 t) 1 (length t) = t) by (unfold draw; apply feed_all). rewrite D.
    destruct (build_index_ends ann t (length t) max_k r fuel 16 ltac:(lia)) as (nn & k & Eb & Hnn & L1 & L2 & L3); [lia|].
    rewrite Eb, Hnn. cbv zeta.
    destruct (shape_to_graph dst check t _ (ann t k) 0 None (ANN t k)) as (g & Eg & Hg & Ug). rewrite Eg.
    eexists _, g, k. split; [reflexivity|]. cbn [rp_samples rp_conn_r rp_graph]. do 3 (split; auto).
    intros s Hs Hc i j p q Ei Ej Hij Dq C.
    apply (complete_rows dst check (feed p0 t) t (Nat.min k (length t - 1)) (ann t k) s g i j p q); auto.
    destruct (le_lt_dec (length t) k) as [Lk|Lk]; [left; lia|]. right.
    destruct (le_lt_dec max_k k) as [Mk|Mk]; [apply Hc; auto|].
    destruct L3 as [L3|[L3|L3]]; [lia|lia|]. destruct Hs as [Hs|Hs]; [|lia].
    revert L3. unfold all_last. rewrite !forallb_forall. intros A row I. specialize (A row I). destruct (last_dist row) as [d|]; auto.
    unfold Qgeb in *. apply Qle_bool_iff in A. apply Qle_bool_iff. eapply Qle_trans; eauto.
  Qed.

  Lemma crowded_less pos rad k k' (t : list P) : (k <= k')%nat -> crowded pos rad k' t -> crowded pos rad k t.
  Proof. intros L (i & p & E & C). exists i, p. split; auto. lia. Qed.

  (** A net whose links reach far enough answers the query. *)
  Lemma radius_net_answers fuel r max_k p0 t dim pos free eta delta tol L c start goal :
    0 < delta -> 0 < tol -> (max_k < fuel)%nat ->
    net_query dim pos free check dst eta delta (compute_epsilon_net_radius delta (Some tol)) L c t start goal ->
    compute_connection_radius delta tol + eta < Q2R r ->
    ((length t <= max_k)%nat \/ exists rad, compute_connection_radius delta tol + 2 * eta <= rad /\ (1 <= max_k)%nat /\
       distances_within pos dst eta /\ ~ crowded pos rad max_k t) ->
    exists st d path, radius_grow fuel r max_k p0 t = Some (Ok tt, st) /\
      fst (rp_query dst check sp st start goal) = Ok (Some d, path) /\ stretch_bound delta tol eta L (Q2R d).
  Proof.
    intros Hd Ht F N Hr Cut.
    destruct (radius_grow_links fuel r max_k p0 t F) as (st & g & k & Eg & Es & Er & Egr & Links).
    assert (Far : exists s, compute_connection_radius delta tol + eta < Q2R s /\
      forall i j p q, nth_error t i = Some p -> nth_error t j = Some q -> i <> j -> (dst p q < s)%Q -> check p q = true ->
        exists w, edge g i j w).
    { destruct (le_lt_dec (length t) k) as [Lk|Lk].
      - exists r. split; auto. apply Links; [left; apply Qle_refl|lia].
      - destruct (le_lt_dec max_k k) as [Mk|Mk].
        + destruct Cut as [Cut|(rad & Hrad & K1 & Di & NC)]; [lia|].
          assert (Em : exists cert, min_last (ann t k) = Some cert).
          { destruct (exact_shape dst ann ANX t k) as (Ln & Lr & _). destruct (min_last_some (ann t k)) as (cert & E & _); [| |eauto].
            - intro E. rewrite E in Ln. simpl in Ln. lia.
            - intros row I E. specialize (Lr row I). rewrite E in Lr. simpl in Lr. lia. }
          destruct Em as [cert Em]. exists cert. split.
          * pose proof (uncrowded_cert dst ann ANX pos eta rad k t cert ltac:(lia) Di (fun C => NC (crowded_less pos rad max_k k t Mk C)) Em). lra.
          * apply Links; [right; lia|]. intros _. unfold all_last. apply forallb_forall. intros row I.
            destruct (min_last_le (ann t k) cert Em row I) as (d & -> & Le). unfold Qgeb. now apply Qle_bool_iff.
        + exists r. split; auto. apply Links; [left; apply Qle_refl|lia]. }
    destruct Far as (s & Hs & H).
    assert (Run : rp_run dst check (feed p0 t) ann sp fuel [RGrow (length t)] (rp_new r max_k 0) = Some st).
    { unfold radius_grow in Eg. simpl. rewrite Eg. reflexivity. }
    destruct (radius_query_optimal dst check (feed p0 t) ann sp dst_nonneg dst_sym SP (exact_shape dst ann ANX) fuel r max_k 0 [RGrow (length t)] st t start goal Run F Es)
      as (g' & d & path & Eg' & Eq & RA & _). assert (g' = g) by congruence. subst g'.
    destruct (radius_grow_always_finishes dst check (feed p0 t) ann sp dst_nonneg dst_sym SP (exact_shape dst ann ANX) fuel r max_k 0 [RGrow (length t)] F)
      as (st' & Run' & _ & V & _). assert (st' = st) by congruence. subst st'.
    destruct (V t Es) as (g' & Eg2 & _ & W). assert (g' = g) by congruence. subst g'.
    rewrite Er in RA.
    destruct (stretch_solution dim pos free check dst eta delta L c t start goal (edge g)
      (compute_connection_radius delta tol + eta) r) with (tol := tol) as (ids & cost & S & C); auto; [|lra|lra|].
    { intros i j p q Ei Ej Hij D C1 _. destruct (H i j p q) as [w Hw]; auto; [apply Rlt_Qlt; lra|].
      exists w. split; auto. destruct (W i j w Hw) as (p' & q' & Ep & Eq' & Ew & _). congruence. }
    destruct (right_answer_beats _ _ _ _ _ _ _ _ _ _ _ RA S) as (d' & -> & Le).
    exists st, d', path. split; auto. split; auto. eapply stretch_mono; eauto.
  Qed.

  (** a draw after which some clear query is not answered within the tolerance *)
  Definition radius_fails dim pos free delta tol eta fuel r max_k p0 (t : list P) : Prop :=
    exists start goal L, clear_query dim pos free delta L start goal /\
      ~ exists st d path, radius_grow fuel r max_k p0 t = Some (Ok tt, st) /\
          fst (rp_query dst check sp st start goal) = Ok (Some d, path) /\ stretch_bound delta tol eta L (Q2R d).

  (** With neighbour lists that may hold every sample: at most [1 - prob]. *)
  Theorem radius_success_probability : forall dim pos free X eta delta tol prob vol bfuel z conn_r fuel r max_k p0 m,
    0 < delta -> 0 < tol ->
    compute_numerical_bound delta prob vol dim (Some tol) bfuel = Some (Ret z, conn_r) -> (z <= Z.of_nat m)%Z ->
    coordinates dim pos -> accepts_free_motions pos free check -> distances_within pos dst eta ->
    fair_balls dim pos X vol (compute_epsilon_net_radius delta (Some tol)) (clear_point dim free delta) ->
    conn_r + eta < Q2R r -> (m <= max_k < fuel)%nat ->
    event_at_most X m (radius_fails dim pos free delta tol eta fuel r max_k p0) (1 - prob).
  Proof.
    intros dim pos free X eta delta tol prob vol bfuel z conn_r fuel r max_k p0 m Hd Ht B Hm Co Ac Di Fb Hr Hk.
    eapply event_mono; [apply (numerical_bound_net P dim pos X (clear_point dim free delta) delta prob vol (Some tol) bfuel z conn_r m B Hm Fb)| |apply Rle_refl].
    intros t D (start & goal & L & (c & L0 & Cu & Cl & S0 & SL) & N).
    apply (not_net_along dim pos free delta _ L c); auto. intro NA. apply N.
    apply connection_radius_formulas_agree in B. destruct D as [Lt _].
    apply (radius_net_answers fuel r max_k p0 t dim pos free eta delta tol L c start goal Hd Ht ltac:(lia)); [|rewrite <- B; auto|left; lia].
    do 8 (split; auto).
  Qed.

  (** With at most [max_k] neighbours: the probability that some sample has that many others
      within the radius comes on top. *)
  Theorem radius_success_probability_cut : forall dim pos free X eta delta tol prob vol bfuel z conn_r rad fuel r max_k p0 m,
    0 < delta -> 0 < tol -> 0 < vol ->
    compute_numerical_bound delta prob vol dim (Some tol) bfuel = Some (Ret z, conn_r) -> (z <= Z.of_nat m)%Z ->
    coordinates dim pos -> accepts_free_motions pos free check -> distances_within pos dst eta ->
    fair_balls dim pos X vol (compute_epsilon_net_radius delta (Some tol)) (clear_point dim free delta) ->
    sparse_balls dim pos X vol rad -> 0 < rad -> conn_r + 2 * eta <= rad ->
    conn_r + eta < Q2R r -> (1 <= max_k < m)%nat -> (max_k < fuel)%nat ->
    event_at_most X m (radius_fails dim pos free delta tol eta fuel r max_k p0)
      (1 - prob + exp_ext (compute_tail_knn_radius_log_prob_chernoff_kl (Z.of_nat m) (Z.of_nat max_k) rad dim vol true)).
  Proof.
    intros dim pos free X eta delta tol prob vol bfuel z conn_r rad fuel r k p0 m Hd Ht Hv B Hm Co Ac Di Fb Sp Hrad Hc Hr Hk Hf bad Hb.
    set (cr := fun t => existsb (fun i => crowded_at_b pos rad k i t) (seq 0 (length t))).
    assert (Cr : forall t, cr t = true <-> crowded pos rad k t).
    { intro t. unfold cr. rewrite existsb_exists. split.
      - intros (i & _ & H). exists i. now apply crowded_at_bool.
      - intros (i & H). exists i. split; [|now apply crowded_at_bool]. destruct H as (p & E & _). apply in_seq. split; [lia|]. simpl. apply nth_error_Some. congruence. }
    apply (probability_mono X m (fun t => (bad t && negb (cr t)) || (bad t && cr t)) bad (1 - prob + exp_ext (compute_tail_knn_radius_log_prob_chernoff_kl (Z.of_nat m) (Z.of_nat k) rad dim vol true)));
      [intros t _ Bt; rewrite Bt; destruct (cr t); reflexivity|apply Rle_refl|].
    apply probability_or.
    - apply (numerical_bound_net P dim pos X (clear_point dim free delta) delta prob vol (Some tol) bfuel z conn_r m B Hm Fb).
      intros t D Bt. apply andb_true_iff in Bt as [Bt Nc]. assert (NC : ~ crowded pos rad k t) by (rewrite <- Cr; destruct (cr t); [discriminate|congruence]).
      destruct (Hb t D Bt) as (start & goal & L & (c & L0 & Cu & Cl & S0 & SL) & N).
      apply (not_net_along dim pos free delta _ L c); auto. intro NA. apply N. destruct D as [Lt _].
      apply connection_radius_formulas_agree in B.
      apply (radius_net_answers fuel r k p0 t dim pos free eta delta tol L c start goal Hd Ht ltac:(lia)); [|rewrite <- B; auto|].
      + do 8 (split; auto).
      + right. exists rad. rewrite <- B. split; [lra|]. split; [lia|]. auto.
    - apply (chernoff_kl_bound_sound P dim pos X vol rad m k); auto; [lia|]. intros t D Bt. apply andb_true_iff in Bt as [_ C]. now apply Cr.
  Qed.
End Radius.
Print Assumptions radius_success_probability.
Print Assumptions radius_success_probability_cut.

(** *** Example: the integers 0..200 on a line as in KnnProb_Props, 700 draws, radius 29, the
    default limit of neighbours lowered to 350 *)
Example radius200_success : clear_query 1 zcoord (stretch 200) 10 20 10%Z 30%Z /\
  event_at_most (zrange 201) 700 (radius_fails zdist (check_to 200) zann sp_enum 1 zcoord (stretch 200) 10 1 0 1000 29 700 0%Z) (1 / 2) /\
  event_at_most (zrange 201) 700 (radius_fails zdist (check_to 200) zann sp_enum 1 zcoord (stretch 200) 10 1 0 1000 29 350 0%Z) (3 / 4).
Proof.
  split; [apply line_query; lia|]. destruct line200_returns as (z & conn_r & E & Hz). destruct (line_space 200) as (Co & Ac & Di).
  assert (Hc : conn_r + 0 < 29). { pose proof E as E'. apply connection_radius_formulas_agree in E'. subst conn_r. destruct ten_radii as (_ & C & _). lra. }
  assert (Hr : Q2R 29 = 29) by (unfold Q2R; simpl; lra).
  split.
  - eapply event_mono; [apply (radius_success_probability zdist (check_to 200) zann sp_enum zdist_nonneg zdist_sym sp_enum_correct (brute_ann_exact zdist) 1 zcoord (stretch 200) (zrange 201) 0 10 1 (1 / 2) (2034 / 10) 1000 z conn_r
      1000 29 700 0%Z 700 ltac:(lra) ltac:(lra) E ltac:(lia) Co Ac Di line200_fair ltac:(lra) ltac:(lia)) | auto | lra].
  - eapply event_mono; [apply (radius_success_probability_cut zdist (check_to 200) zann sp_enum zdist_nonneg zdist_sym sp_enum_correct (brute_ann_exact zdist) 1 zcoord (stretch 200) (zrange 201) 0 10 1 (1 / 2) (2034 / 10) 1000 z conn_r
      (299 / 10) 1000 29 350 0%Z 700 ltac:(lra) ltac:(lra) ltac:(lra) E ltac:(lia) Co Ac Di line200_fair line200_sparse ltac:(lra) ltac:(lra) ltac:(lra) ltac:(lia) ltac:(lia)) | auto | pose proof line200_tail; lra].
Qed.
