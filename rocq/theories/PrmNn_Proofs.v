(** Proofs about the nearest-neighbour roadmap. *)
From Coq Require Import Arith List QArith Bool Lia Setoid.
From Verif Require Import NkGraph_Model NkGraph_Spec NkGraph_Proofs Prm_Model Prm_Spec PrmQuery_Proofs PrmFc_Proofs.
Import ListNotations.
Close Scope Q_scope.

Section Nn.
  Context {P : Type}.
  Variable dist : P -> P -> Q.
  Variable check : P -> P -> bool.
  Variable smp : nat -> P.

  Lemma nth_error_skipn {A} (l : list A) : forall a i, nth_error (skipn a l) i = nth_error l (a + i).
  Proof.
    induction l as [|x l IH]; intros a i.
    - rewrite skipn_nil. destruct i; destruct a; auto.
    - destruct a; simpl; auto.
  Qed.

  Lemma row_edges_In nn start thr u v w :
    In (u, v, w) (row_edges nn start thr) <->
    start <= u /\ (exists i, lists_at nn u v i w) /\ (forall t, thr = Some t -> (w <= t)%Q).
  Proof.
    unfold row_edges. rewrite filter_In, in_flat_map.
    assert (Len : length nn - start = length (skipn start nn)) by (rewrite skipn_length; auto).
    rewrite Len. split.
    - intros [[[u' row] [H1 H2]] H3]. apply combine_seq_In in H1. destruct H1 as [L H1].
      rewrite nth_error_skipn in H1. replace (start + (u' - start)) with u' in H1 by lia.
      apply in_map_iff in H2. destruct H2 as [[v' w'] [E H2]]. simpl in *. inversion E; subst.
      split; auto. split.
      + apply In_nth_error in H2. destruct H2 as [i Hi]. exists i, row. auto.
      + intros t ->. now apply Qle_bool_iff.
    - intros (L & (i & row & H1 & H2) & H3). split.
      + exists (u, row). split.
        * apply combine_seq_In. split; auto. rewrite nth_error_skipn.
          now replace (start + (u - start)) with u by lia.
        * apply in_map_iff. exists (v, w). split; auto. eapply nth_error_In; eauto.
      + simpl. destruct thr; auto. apply Qle_bool_iff. auto.
  Qed.

  (** entries of a neighbour array are in range *)
  Definition in_range (ss : list P) (nn : rows) (start : nat) (thr : option Q) : Prop :=
    forall u v i d, start <= u -> lists_at nn u v i d -> (forall t, thr = Some t -> (d <= t)%Q) ->
                    v < length ss.

  Lemma nn_to_graph_spec ss nn start thr : length nn = length ss ->
    (in_range ss nn start thr ->
     exists g, nn_to_graph check ss nn start thr = Ok g /\ nn_roadmap check ss nn start thr g /\
               g_upper g = length ss) /\
    (~ in_range ss nn start thr -> nn_to_graph check ss nn start thr = Err IndexError).
  Proof.
    intro Len. unfold nn_to_graph.
    set (es := row_edges nn start thr).
    set (B := forallb (fun e => (fst (fst e) <? length ss) && (snd (fst e) <? length ss)) es).
    assert (HB : B = true <-> in_range ss nn start thr).
    { unfold B. rewrite forallb_forall. split.
      - intros H u v i d L Hl T. assert (In (u, v, d) es) by (apply row_edges_In; eauto).
        apply H in H0. simpl in H0. apply andb_true_iff in H0. destruct H0 as [_ H0].
        now apply Nat.ltb_lt in H0.
      - intros R [[u v] w] H. apply row_edges_In in H. destruct H as (L & (i & Hi) & T). simpl.
        apply andb_true_iff. split; apply Nat.ltb_lt; [|eauto].
        destruct Hi as (row & Hr & _). rewrite <- Len. eapply nth_error_lt; eauto. }
    split.
    - intro R. assert (EB : B = true) by (apply HB; auto). rewrite EB.
      set (es' := filter (fun e => check_ids check ss (fst (fst e)) (snd (fst e))) es).
      assert (In' : forall u v w, In (u, v, w) es' <-> nn_link check ss nn start thr u v w).
      { intros u v w. unfold es'. rewrite filter_In. unfold es. rewrite row_edges_In. simpl.
        unfold nn_link, check_ids. split.
        - intros [(A1 & A2 & A3) C]. repeat split; auto.
          destruct (nth_error ss u) as [p|] eqn:Eu; [|discriminate].
          destruct (nth_error ss v) as [q|] eqn:Ev; [|discriminate]. exists p, q. auto.
        - intros (A1 & A2 & A3 & p & q & -> & -> & C). auto. }
      rewrite Len. exists (add_all es' (new_graph (length ss))). split; auto.
      rewrite add_all_eq.
      assert (A : ends_alive es' (new_graph (length ss))).
      { intros u v w H. apply In' in H. destruct H as (_ & _ & _ & p & q & Ep & Eq & _).
        rewrite !new_graph_alive. split; eapply nth_error_lt; eauto. }
      pose proof (wf_new_graph (length ss)) as W0.
      split; [split; [|split; [|split]]|].
      + apply wf_add_list; auto.
      + intro i. rewrite add_list_alive. apply new_graph_alive.
      + intros u v. split.
        * intros [w E]. apply edge_add_list_1 in E; auto. destruct E as [[]|[E|E]]; apply In' in E; eauto.
        * intros [d [H|H]]; apply In' in H; eapply edge_add_list_2; eauto; [left|right]; eauto.
      + intros u v w E. apply edge_add_list_1 in E; auto. destruct E as [[]|[E|E]]; apply In' in E; auto.
      + rewrite add_list_upper. reflexivity.
    - intro R. destruct B eqn:EB; auto. exfalso. apply R. now apply HB.
  Qed.

  Lemma shape_in_range ss k nn start thr : nn_shape dist ss k nn -> in_range ss nn start thr.
  Proof. intros (_ & _ & R & _) u v i d _ H _. eauto. Qed.

  Lemma shape_to_graph ss k nn start thr : nn_shape dist ss k nn ->
    exists g, nn_to_graph check ss nn start thr = Ok g /\ nn_roadmap check ss nn start thr g /\
              g_upper g = length ss.
  Proof.
    intro S. apply nn_to_graph_spec; [apply S|]. eapply shape_in_range; eauto.
  Qed.

  Lemma link_dist ss k nn start thr u v w : nn_shape dist ss k nn -> nn_link check ss nn start thr u v w ->
    exists p q, nth_error ss u = Some p /\ nth_error ss v = Some q /\ (w == dist p q)%Q /\ check p q = true.
  Proof.
    intros (_ & _ & _ & D) (_ & (i & Hi) & _ & p & q & Ep & Eq & C).
    destruct (D u v i w Hi) as (p' & q' & Ep' & Eq' & Ew).
    exists p, q. repeat split; auto. congruence.
  Qed.

  Hypothesis dist_nonneg : forall p q, (0 <= dist p q)%Q.
  Hypothesis dist_sym : forall p q, (dist p q == dist q p)%Q.

  Lemma nn_roadmap_weight ss k nn start thr g u v w : nn_shape dist ss k nn ->
    nn_roadmap check ss nn start thr g -> edge g u v w ->
    exists p q, nth_error ss u = Some p /\ nth_error ss v = Some q /\ (w == dist p q)%Q.
  Proof.
    intros S (_ & _ & _ & L) E. apply L in E. destruct E as [E|E];
    destruct (link_dist _ _ _ _ _ _ _ _ S E) as (p & q & Ep & Eq & Ew & _).
    - eauto.
    - exists q, p. repeat split; auto. rewrite Ew. apply dist_sym.
  Qed.

  Lemma sub_roadmap ss k nn start thr g c : nn_shape dist ss k nn ->
    nn_roadmap check ss nn start thr c -> wf g -> vertices_are_samples ss g -> subgraph g c -> roadmap ss g.
  Proof.
    intros S N W V Sub. constructor; auto.
    - intros i H. now apply V.
    - intros u v w E. apply Sub in E. destruct (nn_roadmap_weight _ _ _ _ _ _ _ _ _ S N E) as (p & q & Ep & _).
      eapply nth_error_lt; eauto.
    - intros u v w E. apply Sub in E. destruct (nn_roadmap_weight _ _ _ _ _ _ _ _ _ S N E) as (p & q & Ep & Eq & ->).
      auto.
  Qed.

  (** ** dropping edges *)

  Lemma drop_edges_spec es : forall g, wf g ->
    wf (drop_edges es g) /\ g_alive (drop_edges es g) = g_alive g /\ g_upper (drop_edges es g) = g_upper g /\
    forall u v w, edge (drop_edges es g) u v w <-> edge g u v w /\ ~ In (u, v) es /\ ~ In (v, u) es.
  Proof.
    induction es as [|[a b] es IH]; intros g W.
    - simpl. split; auto. split; auto. split; auto. intros; tauto.
    - simpl. fold (drop_edges es (if has_edge g a b then remove_edge g a b else g)).
      assert (Step : wf (if has_edge g a b then remove_edge g a b else g) /\
                g_alive (if has_edge g a b then remove_edge g a b else g) = g_alive g /\
                g_upper (if has_edge g a b then remove_edge g a b else g) = g_upper g /\
                forall u v w, edge (if has_edge g a b then remove_edge g a b else g) u v w <->
                  edge g u v w /\ ~ (u = a /\ v = b) /\ ~ (u = b /\ v = a)).
      { destruct (has_edge g a b) eqn:H.
        - split; [now apply wf_remove_edge|]. split; auto. split; auto. intros. now apply edge_remove_edge.
        - split; auto. split; auto. split; auto. intros u v w. split; [|tauto]. intro E.
          apply has_edge_false with (w := w) in H as H'. split; auto.
          split; intros [-> ->]; [tauto|]. apply H'. apply wf_sym; auto. }
      destruct Step as (W1 & A1 & U1 & S1). destruct (IH _ W1) as (W2 & A2 & U2 & S2).
      split; [exact W2|]. split; [congruence|]. split; [congruence|].
      intros u v w. rewrite S2, S1. split.
      + intros [[E [N1 N2]] [N3 N4]]. split; auto. split; intros [H|H]; try tauto.
        * inversion H; subst; tauto.
        * inversion H; subst; tauto.
      + intros [E [N1 N2]]. split; [split; auto; split|].
        * intros [-> ->]. tauto.
        * intros [-> ->]. tauto.
        * tauto.
  Qed.

  Lemma throw_away_In nn k u v : In (u, v) (throw_away nn k) <-> exists i d, k <= i /\ lists_at nn u v i d.
  Proof.
    unfold throw_away. rewrite in_flat_map. split.
    - intros [[x row] [H1 H2]]. apply combine_seq_In in H1. rewrite Nat.sub_0_r in H1.
      apply in_map_iff in H2. destruct H2 as [[y d] [E H2]]. simpl in *. inversion E; subst.
      apply In_nth_error in H2. destruct H2 as [i Hi]. rewrite nth_error_skipn in Hi.
      exists (k + i), d. split; [lia|]. exists row. tauto.
    - intros (i & d & L & row & H1 & H2). exists (u, row). split.
      + apply combine_seq_In. rewrite Nat.sub_0_r. split; [lia|auto].
      + apply in_map_iff. exists (v, d). split; auto. apply (nth_error_In _ (i - k)).
        rewrite nth_error_skipn. now replace (k + (i - k)) with i by lia.
  Qed.

  (** ** invariant over all histories *)

  Variable ann : list P -> nat -> rows.
  Hypothesis ANN : ann_shape dist ann.
  Variable sp : sp_oracle.
  Hypothesis SP : sp_correct sp.

  Definition nn_inv (st : nn_state (P := P)) : Prop :=
    match nn_samples st with
    | None => nn_graph st = None /\ nn_cache st = None
    | Some ss => exists kk g c,
        nn_master st = Some (ann ss kk) /\ nn_graph st = Some g /\ nn_cache st = Some c /\
        nn_roadmap check ss (ann ss kk) 0 None c /\
        wf g /\ vertices_are_samples ss g /\ subgraph g c
    end.

  Lemma prune_live_facts (ss : list P) r g c : wf g -> vertices_are_samples ss g -> subgraph g c ->
    wf (prune_live r g) /\ vertices_are_samples ss (prune_live r g) /\ subgraph (prune_live r g) c /\
    g_upper (prune_live r g) = g_upper g /\
    (forall u v w, edge g u v w -> (w < r)%Q -> edge (prune_live r g) u v w).
  Proof.
    intros W V S. destruct (prune_live_removable r g W) as (W' & U' & A' & M & K).
    split; auto. split; [|split; [|split]].
    - intro i. rewrite A'. apply V.
    - intros u v w E. apply S, M, E.
    - auto.
    - intros u v w E L. apply K; auto.
      + intros (w' & E' & R). assert (w = w') by (apply (wf_fun g u v); auto). subst.
        apply Qle_not_lt in R. tauto.
      + intros (w' & E' & R). apply (wf_sym g W) in E'. assert (w = w') by (apply (wf_fun g u v); auto). subst.
        apply Qle_not_lt in R. tauto.
  Qed.

  Lemma nn_set_radius_inv st r : nn_inv st -> nn_inv (snd (nn_set_radius st r)).
  Proof.
    intro H. unfold nn_set_radius. destruct (nn_cert st); [|auto].
    unfold nn_inv in H. destruct (nn_samples st) as [ss|] eqn:Es.
    - destruct H as (kk & g & c & Hm & Hg & Hc & Hn & W & V & S).
      assert (Wc : wf c) by apply Hn. assert (Vc : vertices_are_samples ss c) by apply Hn.
      destruct (match nn_conn_r st with Some c1 => Qgtb r c1 | None => false end).
      + rewrite Hc. unfold nn_inv. simpl. rewrite ?Es.
        destruct (prune_live_facts ss r c c Wc Vc) as (W' & V' & S' & _); [red; auto|].
        exists kk, (prune_live r c), c.
        split; [auto|]. split; [auto|]. split; [auto|]. auto.
      + rewrite Hg. unfold nn_inv. simpl. rewrite ?Es.
        destruct (prune_live_facts ss r g c W V S) as (W' & V' & S' & _).
        exists kk, (prune_live r g), c.
        split; [auto|]. split; [auto|]. split; [auto|]. auto.
    - destruct H as [Hg Hc]. destruct (match nn_conn_r st with Some c1 => Qgtb r c1 | None => false end);
        rewrite ?Hc, ?Hg; simpl; unfold nn_inv; rewrite ?Es; auto.
  Qed.

  Lemma nn_rebuild_inv st ss next n : nn_inv (snd (nn_rebuild check ann st ss next n)).
  Proof.
    unfold nn_rebuild. set (k := Nat.min (n - 1) (nn_k st)).
    destruct (shape_to_graph ss _ (ann ss k) 0 None (ANN ss k)) as (g & Eg & Hn & Ug).
    rewrite Eg.
    assert (I0 : forall cert trunc, nn_inv (mkNn (nn_max_k st) (nn_k st) None trunc cert (Some ss)
                   (Some g) (Some (ann ss k)) (Some g) next)).
    { intros. unfold nn_inv. simpl. exists k, g, g.
      split; [auto|]. split; [auto|]. split; [auto|]. split; [auto|].
      split; [apply Hn|]. split; [apply Hn|]. red; auto. }
    destruct (min_last (ann ss k)) as [cert|]; [|apply I0].
    destruct (nn_trunc st); [|apply I0].
    destruct (nn_set_radius _ cert) as [[u|e] st5] eqn:E;
      pose proof (nn_set_radius_inv _ cert (I0 (Some cert) true)) as I1; rewrite E in I1; exact I1.
  Qed.

  Lemma nn_grow_inv st n : nn_inv st -> nn_inv (snd (nn_grow check smp ann st n)).
  Proof.
    intro H. unfold nn_grow. destruct (nn_samples st) as [old|] eqn:E.
    - destruct (n <=? length old).
      + simpl. unfold nn_inv in *. simpl. now rewrite E in *.
      + apply nn_rebuild_inv.
    - apply nn_rebuild_inv.
  Qed.

  Lemma nn_set_k_inv st k : nn_inv st -> nn_inv (snd (nn_set_k st k)).
  Proof.
    intro H. unfold nn_set_k. destruct (nn_max_k st <? k); auto.
    unfold nn_inv in H. destruct (nn_samples st) as [ss|] eqn:Es.
    - destruct H as (kk & g & c & Hm & Hg & Hc & Hn & W & V & S).
      assert (Wc : wf c) by apply Hn. assert (Vc : vertices_are_samples ss c) by apply Hn.
      assert (H0 : exists g0, (if nn_k st <? k
                  then match nn_cache st with Some g => Ok (Some g) | None => Err FileError end
                  else Ok (nn_graph st)) = Ok (Some g0) /\ wf g0 /\ vertices_are_samples ss g0 /\ subgraph g0 c).
      { destruct (nn_k st <? k).
        - rewrite Hc. exists c. split; auto. split; auto. split; auto. red; auto.
        - rewrite Hg. exists g. auto. }
      destruct H0 as (g0 & -> & W0 & V0 & S0). rewrite Hm.
      assert (F : forall es, nn_inv (mkNn (nn_max_k st) k (nn_conn_r st) (nn_trunc st) (nn_cert st) (Some ss)
                     (Some (drop_edges es g0)) (Some (ann ss kk)) (nn_cache st) (nn_next st))).
      { intro es. destruct (drop_edges_spec es g0 W0) as (W1 & A1 & U1 & S1).
        unfold nn_inv. simpl. exists kk, (drop_edges es g0), c.
        split; [auto|]. split; [auto|]. split; [auto|]. split; [auto|]. split; [auto|]. split.
        - intro i. rewrite A1. apply V0.
        - intros u v w E. apply S1 in E. apply S0, E. }
      destruct (throw_away (ann ss kk) k) as [|e es]; simpl; rewrite ?Es; apply (F (e :: es)) || apply (F []).
    - destruct H as [Hg Hc]. rewrite Hg, Hc.
      destruct (nn_k st <? k); [simpl; unfold nn_inv; rewrite ?Es; auto|].
      destruct (nn_master st) as [nn|]; [|unfold nn_inv; simpl; rewrite ?Es; auto].
      destruct (throw_away nn k); unfold nn_inv; simpl; rewrite ?Es; auto.
  Qed.

  Lemma nn_inv_roadmap st ss g : nn_inv st -> nn_samples st = Some ss -> nn_graph st = Some g -> roadmap ss g.
  Proof.
    intros H Es Eg. unfold nn_inv in H. rewrite Es in H.
    destruct H as (kk & g' & c & Hm & Hg & Hc & Hn & W & V & S).
    assert (g' = g) by congruence. subst.
    eapply sub_roadmap; eauto.
  Qed.

  Lemma nn_query_inv st s t : nn_inv st -> nn_inv (snd (nn_query dist check sp st s t)).
  Proof.
    intro H. unfold nn_query.
    destruct (nn_samples st) as [ss|] eqn:Es; [|auto].
    destruct (match nn_conn_r st with Some r => Some r | None => nn_cert st end) as [r|]; [|auto].
    destruct (nn_graph st) as [g|] eqn:Eg; [|auto].
    pose proof (nn_inv_roadmap st ss g H Es Eg) as RM.
    destruct (query_best_spec dist check dist_nonneg sp ss g r s t SP RM) as (d & path & g' & Eq & _ & Same & Up).
    rewrite Eq. simpl. unfold nn_inv in *. rewrite Es in H. simpl.
    destruct H as (kk & g0 & c & Hm & Hg & Hc & Hn & W & V & S).
    assert (g0 = g) by congruence. subst g0.
    exists kk, g', c.
    split; [auto|]. split; [auto|]. split; [auto|]. split; [auto|].
    split; [apply (same_graph_wf g g'); auto; lia|]. destruct Same as [A O]. split.
    - intro i. rewrite A. apply V.
    - intros u v w E. apply S. unfold edge in *. now rewrite O in E.
  Qed.

  Lemma nn_step_inv st op : nn_inv st -> nn_inv (nn_step dist check smp ann sp st op).
  Proof.
    intro H. destruct op; simpl.
    - now apply nn_grow_inv.
    - now apply nn_set_radius_inv.
    - now apply nn_set_k_inv.
    - now apply nn_query_inv.
    - unfold nn_inv. simpl. auto.
  Qed.

  Lemma nn_run_inv ops : forall st, nn_inv st -> nn_inv (nn_run dist check smp ann sp ops st).
  Proof. induction ops as [|op ops IH]; intros st H; simpl; auto. apply IH. now apply nn_step_inv. Qed.

  Lemma nn_new_inv k trunc pos : nn_inv (nn_new (P := P) k trunc pos).
  Proof. unfold nn_inv. simpl. auto. Qed.

  (** ** radius histories after a successful grow *)

  (** what a state knows about short edges *)
  Definition short_inv (st : nn_state (P := P)) : Prop :=
    exists g c, nn_graph st = Some g /\ nn_cache st = Some c /\ wf g /\ wf c /\ subgraph g c /\
      (exists cert, nn_cert st = Some cert) /\
      match nn_conn_r st with
      | None => forall u v w, edge c u v w -> edge g u v w
      | Some r => forall u v w, edge c u v w -> (w < r)%Q -> edge g u v w
      end.

  Lemma prune_live_short r g c : wf g -> subgraph g c ->
    wf (prune_live r g) /\ subgraph (prune_live r g) c /\
    (forall u v w, edge g u v w -> (w < r)%Q -> edge (prune_live r g) u v w).
  Proof.
    intros W S. destruct (prune_live_removable r g W) as (W' & U' & A' & M & K).
    split; auto. split.
    - intros u v w E. apply S, M, E.
    - intros u v w E L. apply K; auto.
      + intros (w' & E' & R). assert (w = w') by (apply (wf_fun g u v); auto). subst.
        apply Qle_not_lt in R. tauto.
      + intros (w' & E' & R). apply (wf_sym g W) in E'. assert (w = w') by (apply (wf_fun g u v); auto). subst.
        apply Qle_not_lt in R. tauto.
  Qed.

  Lemma nn_set_radius_short st r : short_inv st ->
    exists st', nn_set_radius st r = (Ok tt, st') /\ short_inv st' /\ nn_conn_r st' = Some r /\
      nn_cache st' = nn_cache st /\ nn_samples st' = nn_samples st /\ nn_cert st' = nn_cert st /\
      nn_master st' = nn_master st.
  Proof.
    intros (g & c & Hg & Hc & W & Wc & S & (cert & Ecert) & K).
    unfold nn_set_radius. rewrite Ecert.
    destruct (match nn_conn_r st with Some c1 => Qgtb r c1 | None => false end) eqn:Re.
    - rewrite Hc. eexists. split; [reflexivity|]. simpl. split; [|auto].
      destruct (prune_live_short r c c Wc) as (W' & S' & K'); [red; auto|].
      unfold short_inv. simpl. exists (prune_live r c), c. rewrite ?Hc. eauto 12.
    - rewrite Hg. eexists. split; [reflexivity|]. simpl. split; [|auto].
      destruct (prune_live_short r g c W S) as (W' & S' & K').
      unfold short_inv. simpl. exists (prune_live r g), c. rewrite ?Hc.
      split; [auto|]. split; [auto|]. split; [auto|]. split; [auto|]. split; [auto|]. split; [eauto|].
      intros u v w E L. apply K'; auto.
      destruct (nn_conn_r st) as [r0|]; [|now apply K].
      apply K; auto. unfold Qgtb in Re. apply negb_false_iff in Re. apply Qle_bool_iff in Re.
      eapply Qlt_le_trans; eauto.
  Qed.

  Lemma nn_query_short st s t ss : nn_samples st = Some ss -> (forall g, nn_graph st = Some g -> roadmap ss g) ->
    short_inv st ->
    let st' := snd (nn_query dist check sp st s t) in
    short_inv st' /\ nn_conn_r st' = nn_conn_r st /\
      nn_cache st' = nn_cache st /\ nn_samples st' = nn_samples st /\ nn_cert st' = nn_cert st /\
      nn_master st' = nn_master st.
  Proof.
    intros Es RM SI. pose proof SI as (g & c & Hg & Hc & W & Wc & S & (cert & Ecert) & K).
    unfold nn_query. rewrite ?Es.
    destruct (match nn_conn_r st with Some r => Some r | None => nn_cert st end) as [r|]; [|simpl; auto 10].
    rewrite Hg.
    destruct (query_best_spec dist check dist_nonneg sp ss g r s t SP (RM g Hg)) as (d & path & g' & Eq & _ & Same & Up).
    rewrite Eq. simpl. split; [|auto].
    unfold short_inv. simpl. exists g', c.
    assert (Wg' : wf g') by (apply (same_graph_wf g g'); auto; lia).
    destruct Same as [A O].
    assert (E : forall u v w, edge g' u v w <-> edge g u v w) by (intros; unfold edge; rewrite O; tauto).
    split; [auto|]. split; [auto|]. split; [auto|]. split; [auto|].
    split; [intros u v w H; apply S; now apply E|]. split; [eauto|].
    destruct (nn_conn_r st); intros; apply E; auto.
  Qed.

  (** a successful grow establishes it *)
  Lemma min_last_le nn cert : min_last nn = Some cert -> forall row, In row nn ->
    exists d, last_dist row = Some d /\ (cert <= d)%Q.
  Proof.
    revert cert. induction nn as [|row nn IH]; intros cert H r Hin; [destruct Hin|].
    destruct nn as [|row' nn].
    - simpl in H. destruct Hin as [->|[]]. exists cert. split; auto. apply Qle_refl.
    - change (match last_dist row, min_last (row' :: nn) with
              | Some a, Some b => Some (if Qle_bool a b then a else b) | _, _ => None end = Some cert) in H.
      destruct (last_dist row) as [a|] eqn:Ea; [|discriminate].
      destruct (min_last (row' :: nn)) as [b|]; [|discriminate]. inversion H; subst; clear H.
      destruct (Qle_bool a b) eqn:C.
      + apply Qle_bool_iff in C. destruct Hin as [->|Hin].
        * exists a. split; auto. apply Qle_refl.
        * destruct (IH b eq_refl r Hin) as (d & Ed & L). exists d. split; auto. eapply Qle_trans; eauto.
      + assert (b < a)%Q. { apply Qnot_le_lt. intro L. apply Qle_bool_iff in L. congruence. }
        destruct Hin as [->|Hin].
        * exists a. split; auto. now apply Qlt_le_weak.
        * destruct (IH b eq_refl r Hin) as (d & Ed & L). exists d. auto.
  Qed.

  Lemma nn_rebuild_ok st ss next n x st1 : nn_rebuild check ann st ss next n = (Ok x, st1) ->
    exists cert c, nn_samples st1 = Some ss /\ nn_cert st1 = Some cert /\ nn_cache st1 = Some c /\
      nn_next st1 = next /\
      min_last (ann ss (Nat.min (n - 1) (nn_k st))) = Some cert /\
      nn_master st1 = Some (ann ss (Nat.min (n - 1) (nn_k st))) /\
      nn_to_graph check ss (ann ss (Nat.min (n - 1) (nn_k st))) 0 None = Ok c /\
      nn_roadmap check ss (ann ss (Nat.min (n - 1) (nn_k st))) 0 None c /\
      (nn_trunc st = false -> nn_graph st1 = Some c /\ nn_conn_r st1 = None /\ x = None) /\
      (nn_trunc st = true -> nn_graph st1 = Some (prune_live cert c) /\ nn_conn_r st1 = Some cert /\ x = Some cert) /\
      nn_k st1 = nn_k st /\ nn_max_k st1 = nn_max_k st /\
      short_inv st1.
  Proof.
    unfold nn_rebuild. set (k := Nat.min (n - 1) (nn_k st)).
    destruct (shape_to_graph ss _ (ann ss k) 0 None (ANN ss k)) as (g & Eg & Hn & Ug). rewrite Eg.
    destruct (min_last (ann ss k)) as [cert|] eqn:Em; [|discriminate].
    assert (Wg : wf g) by apply Hn.
    assert (Sh : forall tr, short_inv (mkNn (nn_max_k st) (nn_k st) None tr (Some cert) (Some ss)
                   (Some g) (Some (ann ss k)) (Some g) next)).
    { intro tr. exists g, g. simpl. unfold subgraph. eauto 12. }
    destruct (nn_trunc st) eqn:Et.
    - destruct (nn_set_radius_short _ cert (Sh true)) as (st' & E & Si & Er & Ec & Es & Ece & Ema). rewrite E.
      intro H. inversion H; subst; clear H. simpl in *.
      unfold nn_set_radius in E. simpl in E. inversion E; subst; clear E. simpl in *.
      exists cert, g.
      split; [auto|]. split; [auto|]. split; [auto|]. split; [auto|]. split; [auto|].
      split; [auto|]. split; [auto|]. split; [auto|]. split; [discriminate|].
      split; [auto|]. split; [auto|]. split; [auto|]. exact Si.
    - intro H. inversion H; subst; clear H. simpl. exists cert, g.
      split; [auto|]. split; [auto|]. split; [auto|]. split; [auto|]. split; [auto|].
      split; [auto|]. split; [auto|]. split; [auto|]. split; [auto|]. split; [discriminate|].
      split; [auto|]. split; [auto|]. apply Sh.
  Qed.

  (** certified radius: every pair of close samples with a valid motion is in the master graph *)
  Lemma last_dist_In row d : last_dist row = Some d -> exists x, In (x, d) row.
  Proof.
    destruct row as [|e l]; simpl; [discriminate|]. intro H. inversion H; subst; clear H.
    assert (G : forall l (e : nat * Q), In (last l e) (e :: l)).
    { clear. induction l as [|a l IH]; intro e; [simpl; auto|].
      destruct l; [simpl; auto|]. change (In (last (p :: l) e) (e :: a :: p :: l)).
      specialize (IH e). simpl in IH |- *. destruct IH; auto. }
    specialize (G l e). destruct (last l e) as [x d]. exists x. simpl in G. auto.
  Qed.

  Lemma certified_pairs ss nn k cert c i j p q :
    exact_nn dist ss k nn -> min_last nn = Some cert ->
    nn_roadmap check ss nn 0 None c ->
    nth_error ss i = Some p -> nth_error ss j = Some q -> i <> j ->
    (dist p q < cert)%Q -> check p q = true ->
    exists w, edge c i j w /\ (w == dist p q)%Q.
  Proof.
    intros [S X] Em Hn Ei Ej Hij D C.
    assert (Hi : i < length nn) by (destruct S as [-> _]; eapply nth_error_lt; eauto).
    destruct (nth_error_ex nn i Hi) as [row Er].
    destruct (X i row Er) as (_ & _ & _ & Far).
    destruct (min_last_le nn cert Em row (nth_error_In _ _ Er)) as (d & Ed & Ld).
    destruct (in_dec Nat.eq_dec j (map fst row)) as [Hin|Hin].
    - apply in_map_iff in Hin. destruct Hin as [[j' w] [E Hin]]. simpl in E; subst j'.
      apply In_nth_error in Hin. destruct Hin as [a Ha].
      assert (Hl : nn_link check ss nn 0 None i j w).
      { split; [lia|]. split; [exists a, row; auto|]. split; [discriminate|]. exists p, q. auto. }
      destruct Hn as (W & V & Ed' & Wt). destruct (proj2 (Ed' i j)) as [w' E']; [eauto|].
      exists w'. split; auto.
      destruct (nn_roadmap_weight ss k nn 0 None c i j w' S) as (p' & q' & Ep' & Eq' & Ew'); auto.
      { split; [|split; [|split]]; auto. }
      rewrite Ew'. assert (p' = p) by congruence. assert (q' = q) by congruence. subst. reflexivity.
    - exfalso. apply last_dist_In in Ed. destruct Ed as [x Hx].
      pose proof (Far j p q Ei Ej Hij Hin x d Hx) as F.
      apply (Qlt_not_le _ _ D). eapply Qle_trans; eauto.
  Qed.
End Nn.
