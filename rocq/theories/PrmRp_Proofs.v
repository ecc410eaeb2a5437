(** Proofs about the radius roadmap. *)
From Coq Require Import Arith List QArith Bool Lia Setoid.
From Verif Require Import NkGraph_Model NkGraph_Spec NkGraph_Proofs Prm_Model Prm_Spec PrmQuery_Proofs PrmFc_Proofs PrmNn_Proofs.
Import ListNotations.
Close Scope Q_scope.

(** ** merging *)

Lemma merge_spec g g1 : wf g -> wf g1 ->
  wf (merge g g1) /\ g_upper (merge g g1) = Nat.max (g_upper g) (g_upper g1) /\
  (forall u, g_alive (merge g g1) u = (g_alive g u || g_alive g1 u)%bool) /\
  (forall u v w, edge (merge g g1) u v w -> edge g u v w \/ edge g1 u v w) /\
  (forall u v w, edge g u v w -> edge (merge g g1) u v w) /\
  (forall u v w, edge g1 u v w -> exists w', edge (merge g g1) u v w').
Proof.
  intros W W1. unfold merge. fold (add_list (edge_list g1)).
  set (g0 := mkGraph _ _ _).
  assert (W0 : wf g0).
  { constructor; unfold g0; simpl.
    - apply (wf_sym g W).
    - apply (wf_nodup g W).
    - intros u v w E. destruct (wf_alive g W u v w E) as [-> ->]. auto.
    - intros u H. apply orb_true_iff in H. destruct H as [H|H].
      + apply (wf_upper g W) in H. lia.
      + apply (wf_upper g1 W1) in H. lia. }
  assert (A : ends_alive (edge_list g1) g0).
  { intros u v w H. apply edge_list_In in H; auto. destruct H as [H _].
    destruct (wf_alive g1 W1 u v w H) as [Hu Hv]. unfold g0. simpl. rewrite Hu, Hv.
    now rewrite !orb_true_r. }
  split; [apply wf_add_list; auto|]. split; [|split; [|split; [|split]]].
  - fold (add_list (edge_list g1) g0). rewrite add_list_upper. reflexivity.
  - intro u. fold (add_list (edge_list g1) g0). rewrite add_list_alive. reflexivity.
  - intros u v w E. apply (edge_add_list_1 (edge_list g1) g0) in E; auto. destruct E as [E|[E|E]]; auto.
    + apply edge_list_In in E; tauto.
    + apply edge_list_In in E; auto. right. apply (wf_sym g1 W1). tauto.
  - intros u v w E. apply (edge_add_list_mono (edge_list g1) g0). auto.
  - intros u v w E. apply (edge_add_list_2 (edge_list g1) g0 u v w); auto.
    destruct (Nat.le_gt_cases u v).
    + left. apply edge_list_In; auto.
    + right. apply edge_list_In; auto. split; [apply (wf_sym g1 W1); auto|lia].
Qed.

Section Rp.
  Context {P : Type}.
  Variable dist : P -> P -> Q.
  Variable check : P -> P -> bool.
  Variable smp : nat -> P.
  Variable ann : list P -> nat -> rows.

  (** ** neighbour doubling *)

  Lemma build_index_ends samples n max_k r : forall fuel k, 1 <= k -> max_k - k < fuel ->
    exists nn k', build_index ann fuel samples n max_k r k = Some (nn, k') /\ nn = ann samples k' /\
      k <= k' /\ (k' = k \/ k' < 2 * max_k) /\
      (max_k <= k' \/ n <= k' \/ all_last (fun d => Qgeb d r) (ann samples k') = true).
  Proof.
    induction fuel as [|fuel IH]; intros k Hk Hf; [lia|].
    cbn [build_index].
    destruct ((max_k <=? k) || (n <=? k) || all_last (fun d => Qgeb d r) (ann samples k))%bool eqn:E.
    - exists (ann samples k), k. split; auto. split; auto. split; [lia|]. split; [auto|].
      apply orb_true_iff in E. destruct E as [E|E]; auto. apply orb_true_iff in E.
      destruct E as [E|E]; apply Nat.leb_le in E; auto.
    - apply orb_false_iff in E. destruct E as [E _]. apply orb_false_iff in E. destruct E as [E _].
      apply Nat.leb_gt in E.
      destruct (IH (k * 2)) as (nn & k' & H & Hn & L1 & L2 & L3); [lia|lia|].
      exists nn, k'. rewrite H. split; auto. split; auto. split; [lia|]. split; [lia|auto].
  Qed.

  Hypothesis dist_nonneg : forall p q, (0 <= dist p q)%Q.
  Hypothesis dist_sym : forall p q, (dist p q == dist q p)%Q.
  Hypothesis ANN : ann_shape dist ann.
  Variable sp : sp_oracle.
  Hypothesis SP : sp_correct sp.

  (** every edge joins two samples by a motion valid in one direction, with their distance *)
  Definition valid_edges (ss : list P) (g : graph) : Prop :=
    forall u v w, edge g u v w -> exists p q, nth_error ss u = Some p /\ nth_error ss v = Some q /\
      (w == dist p q)%Q /\ (check p q = true \/ check q p = true).

  Lemma nn_roadmap_valid ss k nn start thr g : nn_shape dist ss k nn -> nn_roadmap check ss nn start thr g -> valid_edges ss g.
  Proof.
    intros S (W & V & E & L) u v w H. apply L in H. destruct H as [H|H];
    destruct (link_dist dist check _ _ _ _ _ _ _ _ S H) as (p & q & Ep & Eq & Ew & C).
    - exists p, q. auto.
    - exists q, p. split; [auto|]. split; [auto|]. split; [|auto]. rewrite Ew. apply dist_sym.
  Qed.

  Lemma valid_edges_roadmap ss g : wf g -> (forall i, i < length ss -> g_alive g i = true) ->
    valid_edges ss g -> roadmap ss g.
  Proof.
    intros W A V. constructor; auto.
    - intros u v w E. apply V in E. destruct E as (p & q & Ep & _). eapply nth_error_lt; eauto.
    - intros u v w E. apply V in E. destruct E as (p & q & Ep & Eq & -> & _). auto.
  Qed.

  Lemma valid_edges_app ss ss' g : valid_edges ss g -> valid_edges (ss ++ ss') g.
  Proof.
    intros V u v w E. destruct (V u v w E) as (p & q & Ep & Eq & H). exists p, q.
    rewrite !nth_error_app1; auto; eapply nth_error_lt; eauto.
  Qed.

  Definition rp_inv (st : rp_state (P := P)) : Prop :=
    1 <= rp_k st /\ rp_k st < 2 * Nat.max 16 (rp_max_k st) /\
    match rp_samples st with
    | None => rp_graph st = None
    | Some ss => exists g, rp_graph st = Some g /\ wf g /\
                   (forall i, i < length ss -> g_alive g i = true) /\ valid_edges ss g
    end.

  Lemma rp_new_inv r max_k pos : rp_inv (rp_new (P := P) r max_k pos).
  Proof. unfold rp_inv, rp_new. cbn [rp_k rp_max_k rp_samples rp_graph]. split; [|split]; auto; lia. Qed.

  Lemma nn_roadmap_inv ss k nn start thr g : nn_shape dist ss k nn -> nn_roadmap check ss nn start thr g ->
    wf g /\ (forall i, i < length ss -> g_alive g i = true) /\ valid_edges ss g.
  Proof.
    intros S H. split; [apply H|]. split; [intros i Hi; now apply H|]. eapply nn_roadmap_valid; eauto.
  Qed.

  Lemma rp_grow_ok fuel st n : rp_inv st -> rp_max_k st < fuel ->
    exists out st', rp_grow check smp ann fuel st n = Some (out, st') /\ rp_inv st' /\
      rp_max_k st' = rp_max_k st /\ rp_conn_r st' = rp_conn_r st /\
      match rp_samples st with
      | Some old => if n <? length old then out = Err ArithmeticError /\ st' = st
                    else out = Ok tt /\ rp_samples st' = Some (old ++ draw smp (rp_next st) (n - length old))
                         /\ rp_next st' = rp_next st + (n - length old)
      | None => out = Ok tt /\ rp_samples st' = Some (draw smp (rp_next st) n) /\ rp_next st' = rp_next st + n
      end.
  Proof.
    intros (K1 & K2 & H) F. unfold rp_grow. destruct (rp_samples st) as [old|] eqn:Es.
    - destruct (n <? length old).
      { exists (Err ArithmeticError), st. split; auto. split; auto.
        split; [|split]; auto. now rewrite Es. }
      destruct H as (g & Eg & W & A & V). cbv zeta.
      set (ss := old ++ draw smp (rp_next st) (n - length old)).
      destruct (all_last (fun d => Qgtb d (rp_conn_r st)) (ann ss (rp_ann_k st)) || (rp_max_k st <=? rp_k st))%bool eqn:C.
      + rewrite Eg.
        destruct (shape_to_graph dist check ss _ (ann ss (rp_ann_k st)) (length old) (Some (rp_conn_r st)) (ANN ss (rp_ann_k st)))
          as (gn & En & Hn & Un). rewrite En.
        eexists _, _. split; [reflexivity|]. split; [|simpl; auto 10].
        unfold rp_inv, rp_reset. cbn [rp_k rp_max_k rp_samples rp_graph snd]. split; [auto|split; [auto|]].
        destruct (nn_roadmap_inv ss _ _ _ _ _ (ANN ss (rp_ann_k st)) Hn) as (Wn & An & Vn).
        destruct (merge_spec (fst (add_nodes g (n - length old))) gn) as (Wm & Um & Am & Em & _); auto.
        { now apply wf_add_nodes. }
        eexists. split; [reflexivity|]. split; [exact Wm|]. split.
        * intros i Hi. rewrite Am. rewrite (An i Hi). apply orb_true_r.
        * intros u v w E. apply Em in E. destruct E as [E|E]; [|now apply Vn].
          apply (valid_edges_app old _ g V u v w E).
      + apply orb_false_iff in C. destruct C as [_ C]. apply Nat.leb_gt in C.
        destruct (shape_to_graph dist check ss _ (ann ss (rp_k st * 2)) 0 (Some (rp_conn_r st)) (ANN ss (rp_k st * 2)))
          as (gn & En & Hn & Un). rewrite En.
        eexists _, _. split; [reflexivity|]. split; [|simpl; auto 10].
        unfold rp_inv. cbn [rp_k rp_max_k rp_samples rp_graph]. split; [lia|split; [lia|]].
        destruct (nn_roadmap_inv ss _ _ _ _ _ (ANN ss (rp_k st * 2)) Hn) as (Wn & An & Vn).
        eexists. split; [reflexivity|]. auto.
    - set (ss := draw smp (rp_next st) n).
      destruct (build_index_ends ss n (rp_max_k st) (rp_conn_r st) fuel (rp_k st) K1) as (nn & k' & E & Hnn & L1 & L2 & _); [lia|].
      rewrite E. subst nn.
      destruct (shape_to_graph dist check ss _ (ann ss k') 0 None (ANN ss k')) as (gn & En & Hn & Un). rewrite En.
      eexists _, _. split; [reflexivity|]. split; [|simpl; auto 10].
      unfold rp_inv. cbn [rp_k rp_max_k rp_samples rp_graph]. split; [lia|split; [lia|]].
      destruct (nn_roadmap_inv ss _ _ _ _ _ (ANN ss k') Hn) as (Wn & An & Vn).
      eexists. split; [reflexivity|]. auto.
  Qed.

  Lemma rp_query_inv st s t : rp_inv st -> rp_inv (snd (rp_query dist check sp st s t)) /\
     rp_max_k (snd (rp_query dist check sp st s t)) = rp_max_k st.
  Proof.
    intros (K1 & K2 & H). unfold rp_query.
    destruct (rp_samples st) as [ss|] eqn:Es.
    - destruct H as (g & Eg & W & A & V). rewrite Eg.
      pose proof (valid_edges_roadmap ss g W A V) as RM.
      destruct (query_best_spec dist check dist_nonneg sp ss g (rp_conn_r st) s t SP RM)
        as (d & path & g' & Eq & _ & Same & Up).
      rewrite Eq. split; [|reflexivity]. unfold rp_inv, rp_reset. cbn [rp_k rp_max_k rp_samples rp_graph snd]. split; [auto|split; [auto|]].
      exists g'. split; auto. split; [apply (same_graph_wf g g'); auto; lia|].
      destruct Same as [A' O]. split.
      + intros i Hi. rewrite A'. auto.
      + intros u v w E. apply V. unfold edge in *. now rewrite O in E.
    - split; [|reflexivity]. unfold rp_inv, rp_reset. cbn [rp_k rp_max_k rp_samples rp_graph snd]. split; [auto|split; [auto|]]. now rewrite Es.
  Qed.

  Lemma rp_run_inv fuel ops : forall st, rp_inv st -> rp_max_k st < fuel ->
    exists st', rp_run dist check smp ann sp fuel ops st = Some st' /\ rp_inv st' /\ rp_max_k st' = rp_max_k st.
  Proof.
    induction ops as [|op ops IH]; intros st H F; simpl; eauto.
    destruct op as [n|s t|]; simpl.
    - destruct (rp_grow_ok fuel st n H F) as (out & st' & E & I' & M & _). rewrite E. simpl.
      destruct (IH st' I') as (st2 & E2 & I2 & M2); [lia|]. exists st2. repeat split; auto; try apply I2. lia.
    - destruct (rp_query_inv st s t H) as [I' M].
      destruct (IH _ I') as (st2 & E2 & I2 & M2); [lia|]. exists st2. repeat split; auto; try apply I2. lia.
    - assert (I' : rp_inv (rp_reset st)).
      { destruct H as (K1 & K2 & _). unfold rp_inv, rp_reset. cbn [rp_k rp_max_k rp_samples rp_graph snd]. split; [auto|split; auto]. }
      destruct (IH _ I') as (st2 & E2 & I2 & M2); [auto|]. exists st2. auto.
  Qed.

  (** ** completeness of the first build *)

  Lemma all_last_In test nn row : all_last test nn = true -> In row nn ->
    exists d, last_dist row = Some d /\ test d = true.
  Proof.
    unfold all_last. rewrite forallb_forall. intros H Hin. apply H in Hin.
    destruct (last_dist row); [eauto|discriminate].
  Qed.

  Lemma full_row ss k nn u row v : exact_nn dist ss k nn -> nth_error nn u = Some row ->
    length ss - 1 <= k -> v < length ss -> v <> u -> In v (map fst row).
  Proof.
    intros [S X] Er Hk Hv Hne. destruct (X u row Er) as (N & Nu & _).
    assert (Hu : u < length ss) by (destruct S as [<- _]; eapply nth_error_lt; eauto).
    assert (Lr : length row = k) by (destruct S as (_ & L & _); apply L; eapply nth_error_In; eauto).
    destruct (in_dec Nat.eq_dec v (map fst row)) as [|Hn]; auto. exfalso.
    assert (ND : NoDup (v :: u :: map fst row)).
    { constructor; [simpl; intros [?|?]; [congruence|tauto]|]. constructor; auto. }
    assert (Inc : incl (v :: u :: map fst row) (seq 0 (length ss))).
    { intros x [<-|[<-|Hx]]; apply in_seq; try lia.
      apply in_map_iff in Hx. destruct Hx as [[y d] [E Hx]]. simpl in E; subst.
      apply In_nth_error in Hx. destruct Hx as [i Hi].
      destruct S as (_ & _ & Rg & _). specialize (Rg u x i d). assert (x < length ss) by (apply Rg; exists row; auto). lia. }
    apply NoDup_incl_length in Inc; auto. rewrite seq_length in Inc. simpl in Inc.
    rewrite map_length in Inc. lia.
  Qed.

  Lemma complete_rows ss k nn r g i j p q : exact_nn dist ss k nn ->
    (length ss - 1 <= k \/ all_last (fun d => Qgeb d r) nn = true) ->
    nn_roadmap check ss nn 0 None g ->
    nth_error ss i = Some p -> nth_error ss j = Some q -> i <> j -> (dist p q < r)%Q -> check p q = true ->
    exists w, edge g i j w.
  Proof.
    intros X Hend Hg Ei Ej Hij D C. destruct X as [S X].
    assert (Hi : i < length nn) by (destruct S as [-> _]; eapply nth_error_lt; eauto).
    destruct (nth_error_ex nn i Hi) as [row Er].
    assert (Hin : In j (map fst row)).
    { destruct Hend as [Hk|Hl].
      - eapply full_row; eauto; [split; eauto|eapply nth_error_lt; eauto].
      - destruct (in_dec Nat.eq_dec j (map fst row)) as [|Hn]; auto. exfalso.
        destruct (X i row Er) as (_ & _ & _ & Far).
        destruct (all_last_In _ _ row Hl (nth_error_In _ _ Er)) as (d & Ed & T).
        apply last_dist_In in Ed. destruct Ed as [x Hx].
        pose proof (Far j p q Ei Ej Hij Hn x d Hx) as F.
        unfold Qgeb in T. apply Qle_bool_iff in T. apply (Qlt_not_le _ _ D). eapply Qle_trans; eauto. }
    apply in_map_iff in Hin. destruct Hin as [[j' w] [E Hin]]. simpl in E; subst j'.
    apply In_nth_error in Hin. destruct Hin as [a Ha].
    destruct Hg as (W & V & Ed & _). apply Ed. exists w. left.
    split; [lia|]. split; [exists a, row; auto|]. split; [discriminate|]. exists p, q. auto.
  Qed.
End Rp.
