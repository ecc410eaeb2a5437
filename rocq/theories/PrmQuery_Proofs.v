(** Proofs about queries (SimplePRM.query_best_solution, query_all_graph_connections). *)
From Coq Require Import Arith List QArith Bool Lia Permutation Setoid.
From Verif Require Import NkGraph_Model NkGraph_Spec NkGraph_Proofs Prm_Model Prm_Spec.
Import ListNotations.
Close Scope Q_scope.

Section Query.
  Context {P : Type}.
  Variable dist : P -> P -> Q.
  Variable check : P -> P -> bool.

  (** A graph usable as roadmap over [ss]. *)
  Record roadmap (ss : list P) (g : graph) : Prop := mkRoadmap {
    rm_wf : wf g;
    rm_alive : forall i, i < length ss -> g_alive g i = true;
    rm_range : forall u v w, edge g u v w -> u < length ss;
    rm_pos : forall u v w, edge g u v w -> (0 <= w)%Q }.

  (** ** entries *)

  Lemma combine_seq_In {A} (l : list A) : forall k i x,
    In (i, x) (combine (seq k (length l)) l) <-> k <= i /\ nth_error l (i - k) = Some x.
  Proof.
    induction l as [|a l IH]; intros k i x; simpl.
    - split; [tauto|]. intros [_ H]. destruct (i - k); discriminate.
    - rewrite IH. split.
      + intros [E|[L H]].
        * inversion E; subst. rewrite Nat.sub_diag. auto.
        * split; [lia|]. replace (i - k) with (S (i - S k)) by lia. auto.
      + intros [L H]. destruct (Nat.eq_dec i k) as [->|N].
        * rewrite Nat.sub_diag in H. simpl in H. inversion H; subst; auto.
        * right. split; [lia|]. replace (i - k) with (S (i - S k)) in H by lia. auto.
  Qed.

  Lemma combine_seq_fst {A} (l : list A) : forall k, map fst (combine (seq k (length l)) l) = seq k (length l).
  Proof. induction l as [|a l IH]; intro k; simpl; auto. now rewrite IH. Qed.

  Lemma NoDup_map_filter {A B} (f : A -> B) (p : A -> bool) l : NoDup (map f l) -> NoDup (map f (filter p l)).
  Proof.
    induction l as [|a l IH]; simpl; auto. intro N. inversion N; subst.
    destruct (p a); simpl; auto. constructor; auto. intro H. apply H1.
    apply in_map_iff in H. destruct H as [x [E H]]. apply filter_In in H.
    apply in_map_iff. exists x. tauto.
  Qed.

  Lemma query_samples_In ss r q i d :
    In (i, d) (query_samples dist check ss r q) <-> entry dist check ss r q i d.
  Proof.
    unfold query_samples, entry. rewrite in_map_iff. split.
    - intros [[j p] [E H]]. simpl in E. inversion E; subst.
      apply filter_In in H. destruct H as [H C]. apply filter_In in H. destruct H as [H D].
      apply combine_seq_In in H. destruct H as [_ H]. rewrite Nat.sub_0_r in H.
      simpl in *. apply Qle_bool_iff in D. exists p. auto.
    - intros (p & H & -> & D & C). exists (i, p). split; auto.
      apply filter_In. split; auto. apply filter_In. split; [|now apply Qle_bool_iff].
      apply combine_seq_In. rewrite Nat.sub_0_r. split; [lia|auto].
  Qed.

  Lemma query_samples_NoDup ss r q : NoDup (map fst (query_samples dist check ss r q)).
  Proof.
    unfold query_samples. rewrite map_map. simpl.
    do 2 apply NoDup_map_filter. rewrite combine_seq_fst. apply seq_NoDup.
  Qed.

  Lemma query_samples_lt ss r q i d : In (i, d) (query_samples dist check ss r q) -> i < length ss.
  Proof.
    intro H. apply query_samples_In in H. destruct H as (p & H & _).
    apply nth_error_Some. congruence.
  Qed.

  (** ** attaching a vertex to a list of vertices *)

  Definition attach (a : nat) (l : list (nat * Q)) (g : graph) : graph :=
    fold_left (fun g e => add_edge g a (fst e) (snd e)) l g.

  Definition entries (a u : nat) (l : list (nat * Q)) : adj :=
    map (fun e => (a, snd e)) (filter (fun e => fst e =? u) l).

  Lemma attach_upper a l : forall g, g_upper (attach a l g) = g_upper g.
  Proof. induction l as [|e l IH]; intro g; simpl; auto. unfold attach in *. now rewrite IH. Qed.
  Lemma attach_alive a l : forall g, g_alive (attach a l g) = g_alive g.
  Proof. induction l as [|e l IH]; intro g; simpl; auto. unfold attach in *. now rewrite IH. Qed.

  Lemma attach_out a l : forall g, ~ In a (map fst l) ->
    forall u, g_out (attach a l g) u = if u =? a then g_out g a ++ l else g_out g u ++ entries a u l.
  Proof.
    induction l as [|[v w] l IH]; intros g H u.
    - simpl. unfold entries; simpl. rewrite !app_nil_r. destruct (Nat.eqb_spec u a); subst; auto.
    - simpl in *. fold (attach a l (add_edge g a v w)). rewrite IH by tauto.
      rewrite !g_out_add_edge. rewrite Nat.eqb_refl.
      destruct (Nat.eqb_spec u a) as [E|E].
      + now rewrite <- app_assoc.
      + unfold entries. simpl. rewrite (Nat.eqb_sym v u).
        destruct (Nat.eqb_spec u v) as [E2|E2]; simpl; auto. subst. now rewrite <- app_assoc.
  Qed.

  Lemma edge_attach a l : forall g u v w,
    edge (attach a l g) u v w <->
    edge g u v w \/ (u = a /\ In (v, w) l) \/ (v = a /\ In (u, w) l).
  Proof.
    induction l as [|[b x] l IH]; intros g u v w.
    - simpl. tauto.
    - simpl. fold (attach a l (add_edge g a b x)). rewrite IH. rewrite edge_add_edge.
      split.
      + intros [[H|[-> [[-> ->]|[-> ->]]]]|[[-> H]|[-> H]]]; auto 6.
      + intros [H|[[-> [H|H]]|[-> [H|H]]]]; auto.
        * inversion H; subst; auto 6.
        * inversion H; subst; auto 6.
  Qed.

  Lemma wf_attach a l : forall g, wf g -> g_alive g a = true ->
    NoDup (map fst l) -> ~ In a (map fst l) ->
    (forall i, In i (map fst l) -> g_alive g i = true) ->
    (forall i w, In i (map fst l) -> ~ edge g a i w) -> wf (attach a l g).
  Proof.
    induction l as [|[b x] l IH]; intros g W A N Na L H; simpl in *; auto.
    fold (attach a l (add_edge g a b x)). inversion N; subst. apply IH; auto; try tauto.
    - apply wf_add_edge; auto. apply has_edge_false. intros w; apply H; auto.
    - intros i Hi. apply L. auto.
    - intros i w Hi E. apply edge_add_edge in E. destruct E as [E|[-> [[_ ->]|[-> _]]]]; auto.
      eapply H; eauto.
  Qed.

  (** ** removing the two query vertices restores the graph *)

  Lemma entries_None a u l : ~ In u (map fst l) -> entries a u l = [].
  Proof.
    unfold entries. intro H. replace (filter (fun e => fst e =? u) l) with (@nil (nat * Q)); auto.
    induction l as [|[b x] l IH]; simpl in *; auto.
    destruct (Nat.eqb_spec b u); [tauto|]. apply IH. tauto.
  Qed.
  Lemma entries_Some a u l : NoDup (map fst l) -> In u (map fst l) -> exists w, entries a u l = [(a, w)].
  Proof.
    induction l as [|[b x] l IH]; simpl; [tauto|]. intros N H. inversion N; subst.
    unfold entries. simpl. destruct (Nat.eqb_spec b u) as [E|E].
    - subst. exists x. simpl. f_equal. now apply entries_None.
    - apply IH; auto. tauto.
  Qed.

  Lemma dead_out g u : wf g -> g_alive g u = false -> g_out g u = [].
  Proof.
    intros W H. destruct (g_out g u) as [|[v w] l] eqn:E; auto.
    assert (edge g u v w) by (unfold edge; rewrite E; simpl; auto).
    apply (wf_alive g W) in H0. destruct H0. congruence.
  Qed.

  Lemma fresh_dead g u : wf g -> g_upper g <= u -> g_alive g u = false.
  Proof.
    intros W H. destruct (g_alive g u) eqn:E; auto. apply (wf_upper g W) in E. lia.
  Qed.

  Lemma wf_add_nodes g k : wf g -> wf (fst (add_nodes g k)).
  Proof.
    intro W. constructor; simpl.
    - apply (wf_sym g W).
    - apply (wf_nodup g W).
    - intros u v w E. destruct (wf_alive g W u v w E) as [-> ->]. auto.
    - intros u H. apply orb_true_iff in H. destruct H as [H|H].
      + apply (wf_upper g W) in H. lia.
      + apply andb_true_iff in H. destruct H as [_ H]. apply Nat.ltb_lt in H. auto.
  Qed.

  Section Loop.
    Variable ss : list P.
    Variable g : graph.
    Hypothesis RM : roadmap ss g.
    Variables ls lg : list (nat * Q).
    Hypothesis Ns : NoDup (map fst ls).
    Hypothesis Ng : NoDup (map fst lg).
    Hypothesis Ls : forall i d, In (i, d) ls -> i < length ss.
    Hypothesis Lg : forall i d, In (i, d) lg -> i < length ss.

    Let i_s := g_upper g.
    Let i_g := S (g_upper g).
    Let g1 := fst (add_nodes g 2).
    Let g2 := attach i_s ls g1.
    Let g3 := attach i_g lg g2.

    Lemma loop_in_eq : loop_in g ls lg = (g3, i_s, i_g).
    Proof.
      unfold loop_in, add_nodes, g3, g2, g1, i_s, i_g, attach. cbn.
      replace (g_upper g + 2 - 1) with (S (g_upper g)) by lia.
      simpl. rewrite Nat.sub_0_r. reflexivity.
    Qed.

    Lemma ids_alive (l : list (nat * Q)) : (forall i d, In (i, d) l -> i < length ss) ->
      forall i, In i (map fst l) -> g_alive g i = true /\ i < g_upper g.
    Proof.
      intros L i H. apply in_map_iff in H. destruct H as [[j d] [E H]]. simpl in E; subst.
      apply L in H. apply (rm_alive ss g RM) in H. split; auto. apply (wf_upper g (rm_wf ss g RM)); auto.
    Qed.

    Lemma is_notin (l : list (nat * Q)) : (forall i d, In (i, d) l -> i < length ss) -> forall a, g_upper g <= a -> ~ In a (map fst l).
    Proof. intros L a Ha H. apply (ids_alive l L) in H. lia. Qed.

    Lemma alive_g1 i : g_alive g i = true -> g_alive g1 i = true.
    Proof. intro H. simpl. rewrite H. auto. Qed.
    Lemma alive_s : g_alive g1 i_s = true.
    Proof.
      simpl. unfold i_s. apply orb_true_iff. right. apply andb_true_iff.
      split; [apply Nat.leb_le|apply Nat.ltb_lt]; lia.
    Qed.
    Lemma alive_g : g_alive g1 i_g = true.
    Proof.
      simpl. unfold i_g. apply orb_true_iff. right. apply andb_true_iff.
      split; [apply Nat.leb_le|apply Nat.ltb_lt]; lia.
    Qed.

    Lemma no_edge_fresh a i w : g_upper g <= a -> ~ edge g a i w.
    Proof.
      intros Ha E. apply (wf_alive g (rm_wf ss g RM)) in E. destruct E as [E _].
      apply (wf_upper g (rm_wf ss g RM)) in E. lia.
    Qed.

    Lemma wf_g2 : wf g2.
    Proof.
      unfold g2. apply wf_attach; auto.
      - apply wf_add_nodes, RM.
      - apply alive_s.
      - apply is_notin; auto.
      - intros i H. apply alive_g1. now apply (ids_alive ls Ls).
      - intros i w _ E. apply (no_edge_fresh i_s i w); auto.
    Qed.

    Lemma wf_g3 : wf g3.
    Proof.
      unfold g3. apply wf_attach; auto.
      - apply wf_g2.
      - unfold g2. rewrite attach_alive. apply alive_g.
      - apply is_notin; auto. unfold i_g; lia.
      - intros i H. unfold g2. rewrite attach_alive. apply alive_g1. now apply (ids_alive lg Lg).
      - intros i w Hi E. unfold g2 in E. apply edge_attach in E.
        destruct E as [E|[[E _]|[E H]]].
        + apply (no_edge_fresh i_g i w); auto. unfold i_g; lia.
        + unfold i_g, i_s in E. lia.
        + subst i. apply (is_notin lg Lg i_s); auto.
    Qed.

    Lemma edge_g3 u v w : edge g3 u v w <->
      edge g u v w \/ (u = i_s /\ In (v, w) ls) \/ (v = i_s /\ In (u, w) ls)
      \/ (u = i_g /\ In (v, w) lg) \/ (v = i_g /\ In (u, w) lg).
    Proof.
      unfold g3, g2. rewrite !edge_attach.
      change (edge g1 u v w) with (edge g u v w). tauto.
    Qed.

    Lemma out_g3 u : g_out g3 u =
      if u =? i_g then lg else if u =? i_s then ls
      else g_out g u ++ entries i_s u ls ++ entries i_g u lg.
    Proof.
      assert (Dg : g_out g i_g = []).
      { apply dead_out; [apply RM|]. apply fresh_dead; [apply RM|unfold i_g; lia]. }
      assert (Ds : g_out g i_s = []).
      { apply dead_out; [apply RM|]. apply fresh_dead; [apply RM|unfold i_s; lia]. }
      assert (Hsg : i_s <> i_g) by (unfold i_s, i_g; lia).
      unfold g3. rewrite attach_out by (apply is_notin; auto; unfold i_g; lia).
      unfold g2. rewrite !attach_out by (apply is_notin; auto).
      change (g_out g1) with (g_out g).
      destruct (Nat.eqb_spec u i_g) as [E|E].
      - subst u. destruct (Nat.eqb_spec i_g i_s); [congruence|]. rewrite Dg. simpl.
        rewrite entries_None; auto. apply is_notin; auto. unfold i_g; lia.
      - destruct (Nat.eqb_spec u i_s) as [E2|E2].
        + subst u. rewrite Ds. simpl. rewrite entries_None; [apply app_nil_r|]. apply is_notin; auto.
        + now rewrite app_assoc.
    Qed.

    Let g4 := remove_node g3 i_s.
    Let g5 := remove_node g4 i_g.

    Lemma notin_out u a : g_upper g <= a -> ~ In a (map fst (g_out g u)).
    Proof.
      intros Ha H. apply in_map_iff in H. destruct H as [[b w] [E H]]. simpl in E; subst b.
      apply (no_edge_fresh a u w Ha). apply (wf_sym g (rm_wf ss g RM)). auto.
    Qed.

    Lemma out_g4 u : g_out g4 u =
      if u =? i_g then lg else if u =? i_s then [] else g_out g u ++ entries i_g u lg.
    Proof.
      assert (Hsg : i_s <> i_g) by (unfold i_s, i_g; lia).
      assert (E3 : g_out g3 i_s = ls).
      { rewrite out_g3. destruct (Nat.eqb_spec i_s i_g); [congruence|]. now rewrite Nat.eqb_refl. }
      unfold g4. rewrite remove_node_out.
      2: apply wf_g3.
      2: { rewrite E3. apply is_notin; auto. }
      rewrite E3.
      destruct (Nat.eqb_spec u i_s) as [E|E].
      - subst u. destruct (Nat.eqb_spec i_s i_g); [congruence|]. auto.
      - rewrite out_g3. destruct (Nat.eqb_spec u i_g) as [E2|E2].
        + destruct (in_dec Nat.eq_dec u (map fst ls)) as [I|I]; auto.
          exfalso. revert I. apply is_notin; auto. rewrite E2; unfold i_g; lia.
        + destruct (Nat.eqb_spec u i_s) as [E4|_]; [congruence|].
          destruct (in_dec Nat.eq_dec u (map fst ls)) as [I|I].
          * destruct (entries_Some i_s u ls Ns I) as [w ->].
            destruct (in_dec Nat.eq_dec u (map fst lg)) as [J|J].
            -- destruct (entries_Some i_g u lg Ng J) as [z ->]. simpl.
               apply swap_del_last2. apply notin_out; auto.
            -- rewrite (entries_None i_g u lg J). simpl. rewrite app_nil_r.
               apply swap_del_last. apply notin_out; auto.
          * now rewrite (entries_None i_s u ls I).
    Qed.

    Lemma wf_g4 : wf g4.
    Proof.
      apply remove_node_wf; [apply wf_g3|]. rewrite out_g3.
      assert (Hsg : i_s <> i_g) by (unfold i_s, i_g; lia).
      destruct (Nat.eqb_spec i_s i_g); [congruence|]. rewrite Nat.eqb_refl. apply is_notin; auto.
    Qed.

    Lemma out_g5 u : g_out g5 u = g_out g u.
    Proof.
      assert (Dg : g_out g i_g = []).
      { apply dead_out; [apply RM|]. apply fresh_dead; [apply RM|unfold i_g; lia]. }
      assert (Ds : g_out g i_s = []).
      { apply dead_out; [apply RM|]. apply fresh_dead; [apply RM|unfold i_s; lia]. }
      assert (E4 : g_out g4 i_g = lg) by (rewrite out_g4; now rewrite Nat.eqb_refl).
      assert (Hig : ~ In i_g (map fst lg)) by (apply is_notin; auto; unfold i_g; lia).
      unfold g5. rewrite remove_node_out; [|apply wf_g4|rewrite E4; auto]. rewrite E4.
      destruct (Nat.eqb_spec u i_g) as [E|E]; [rewrite E; auto|].
      rewrite out_g4. destruct (Nat.eqb_spec u i_g) as [|_]; [congruence|].
      destruct (Nat.eqb_spec u i_s) as [E2|E2].
      - subst u. rewrite Ds. destruct (in_dec Nat.eq_dec i_s (map fst lg)) as [I|I]; auto.
      - destruct (in_dec Nat.eq_dec u (map fst lg)) as [I|I].
        + destruct (entries_Some i_g u lg Ng I) as [z ->].
          apply swap_del_last. apply notin_out; unfold i_g; lia.
        + rewrite (entries_None i_g u lg I). apply app_nil_r.
    Qed.

    Lemma remove_node_alive h v x : g_alive (remove_node h v) x = (if x =? v then false else g_alive h x).
    Proof. unfold remove_node. simpl. unfold upd. now rewrite drain_alive. Qed.

    Lemma alive_g5 u : g_alive g5 u = g_alive g u.
    Proof.
      unfold g5, g4. rewrite !remove_node_alive. unfold g3, g2. rewrite !attach_alive. simpl.
      destruct (Nat.eqb_spec u i_g) as [E|E].
      - rewrite E. symmetry. apply fresh_dead; [apply RM|unfold i_g; lia].
      - destruct (Nat.eqb_spec u i_s) as [E2|E2].
        + rewrite E2. symmetry. apply fresh_dead; [apply RM|unfold i_s; lia].
        + destruct (g_alive g u) eqn:A; auto. simpl.
          destruct (Nat.leb_spec (g_upper g) u); auto. simpl.
          apply Nat.ltb_ge. unfold i_s, i_g in *. lia.
    Qed.

    Lemma upper_g5 : g_upper g5 = g_upper g + 2.
    Proof.
      assert (R : forall h v, g_upper (remove_node h v) = g_upper h).
      { intros. unfold remove_node. cbn [g_upper]. apply drain_upper. }
      unfold g5, g4. rewrite !R. unfold g3, g2. rewrite !attach_upper. reflexivity.
    Qed.

    Lemma restored : same_graph g5 g /\ g_upper g5 = g_upper g + 2.
    Proof. split; [split|]; [apply alive_g5|apply out_g5|apply upper_g5]. Qed.

    (** ** trails through the query vertices *)

    Lemma edge_mid u v w : u <> i_s -> u <> i_g -> v <> i_s -> v <> i_g ->
      edge g3 u v w <-> edge g u v w.
    Proof. intros. rewrite edge_g3. intuition. Qed.

    Lemma no_direct w : ~ edge g3 i_s i_g w.
    Proof.
      assert (Hsg : i_s <> i_g) by (unfold i_s, i_g; lia).
      rewrite edge_g3. intros [E|[[_ E]|[[E _]|[[E _]|[_ E]]]]]; try congruence.
      - apply (no_edge_fresh i_s i_g w); auto.
      - apply Ls in E. apply (rm_alive ss g RM) in E. apply (wf_upper g (rm_wf ss g RM)) in E. unfold i_g in E. lia.
      - apply Lg in E. apply (rm_alive ss g RM) in E. apply (wf_upper g (rm_wf ss g RM)) in E. unfold i_s in E. lia.
    Qed.

    Lemma trail_tail l : forall x c, ~ In i_s (x :: l) -> ~ In i_g (x :: l) ->
      trail (edge g3) (x :: l ++ [i_g]) c ->
      exists c1 w, trail (edge g) (x :: l) c1 /\ In (last l x, w) lg /\ (c == c1 + w)%Q.
    Proof.
      assert (Hsg : i_s <> i_g) by (unfold i_s, i_g; lia).
      induction l as [|y l IH]; intros x c Hs Hg T; simpl in T.
      - inversion T; subst. inversion H4; subst. exists 0%Q, w. split; [constructor|].
        simpl in Hs, Hg. split; [|ring].
        apply edge_g3 in H3. simpl. destruct H3 as [E|[[E _]|[[E _]|[[E _]|[_ E]]]]]; auto; try tauto; try congruence.
        exfalso. apply (wf_sym g (rm_wf ss g RM)) in E.
        apply (no_edge_fresh i_g x w); auto. unfold i_g; lia.
      - inversion T; subst. apply IH in H4.
        + destruct H4 as (c1 & z & T1 & Hz & E). exists (w + c1)%Q, z. split; [|split].
          * constructor; auto. simpl in Hs, Hg. apply edge_mid in H3; tauto.
          * replace (last (y :: l) x) with (last l y); auto. clear. revert x y.
            induction l as [|z l IH]; intros; auto.
            change (last (z :: l) y = last (z :: l) x). destruct l; auto.
            change (last (n :: l) y = last (n :: l) x). clear. revert n. induction l; intros; auto.
            simpl in *. destruct l; auto.
          * rewrite E. ring.
        + simpl in *. tauto.
        + simpl in *. tauto.
    Qed.

    Lemma trail_join l : forall x c1 w, trail (edge g) (x :: l) c1 -> In (last l x, w) lg ->
      exists c, trail (edge g3) (x :: l ++ [i_g]) c /\ (c == c1 + w)%Q.
    Proof.
      induction l as [|y l IH]; intros x c1 w T H.
      - inversion T; subst. simpl in *. exists (w + 0)%Q. split; [|ring].
        constructor; [|constructor]. apply edge_g3. auto 6.
      - inversion T; subst. destruct (IH y c w) as (c' & T' & E); auto.
        { replace (last l y) with (last (y :: l) x); auto. clear. revert x y.
          induction l as [|z l IH]; intros; auto.
          change (last (z :: l) x = last (z :: l) y). destruct l; auto.
          change (last (n :: l) x = last (n :: l) y). clear. revert n. induction l; intros; auto.
          simpl in *. destruct l; auto. }
        exists (w0 + c')%Q. split.
        + simpl. constructor; auto. apply edge_g3. auto.
        + rewrite E. ring.
    Qed.
  End Loop.

  (** ** the query theorem *)

  Lemma last_hd (l : list nat) a x : last (a :: l) x = last l a.
  Proof.
    revert a x. induction l as [|b l IH]; intros; auto.
    change (last (b :: l) x = last (b :: l) a). now rewrite !IH.
  Qed.

  Lemma take_rows_ok (ss : list P) ids : (forall i, In i ids -> i < length ss) ->
    exists ps, take_rows ss ids = Ok ps /\ visits ss ids ps.
  Proof.
    induction ids as [|i ids IH]; intro H; simpl.
    - exists []. split; auto. constructor.
    - destruct IH as (ps & E & V); [intros; apply H; simpl; auto|].
      destruct (nth_error ss i) as [p|] eqn:N.
      + rewrite E. exists (p :: ps). split; auto. constructor; auto.
      + exfalso. apply nth_error_None in N. assert (i < length ss) by (apply H; simpl; auto). lia.
  Qed.

  Hypothesis dist_nonneg : forall p q, (0 <= dist p q)%Q.

  Lemma roadmap_trail_range ss g : roadmap ss g -> forall l c, trail (edge g) l c ->
    forall i, In i l -> 2 <= length l -> i < length ss.
  Proof.
    intros RM l c T. induction T as [x|x y l w c E T IH]; intros i Hi L; simpl in *; [lia|].
    destruct Hi as [->|Hi]; [eapply rm_range; eauto|].
    destruct l as [|z l].
    - destruct Hi as [->|[]]. apply (wf_sym g (rm_wf ss g RM)) in E. eapply rm_range; eauto.
    - apply IH; auto. simpl; lia.
  Qed.

  Theorem query_best_spec sp ss g r s t : sp_correct sp -> roadmap ss g ->
    exists d path g', query_best dist check sp g ss r s t = (Ok (d, path), g') /\
      right_answer dist check ss r (edge g) s t d path /\
      same_graph g' g /\ g_upper g' = g_upper g + 2.
  Proof.
    intros SP RM. unfold query_best.
    set (ls := query_samples dist check ss r s). set (lg := query_samples dist check ss r t).
    assert (Ns : NoDup (map fst ls)) by apply query_samples_NoDup.
    assert (Ng : NoDup (map fst lg)) by apply query_samples_NoDup.
    assert (Ls : forall i d, In (i, d) ls -> i < length ss) by apply query_samples_lt.
    assert (Lg : forall i d, In (i, d) lg -> i < length ss) by apply query_samples_lt.
    rewrite loop_in_eq.
    set (i_g := S (g_upper g)). set (i_s := g_upper g).
    set (g3 := attach i_g lg (attach i_s ls (fst (add_nodes g 2)))).
    assert (W3 : wf g3) by (apply (wf_g3 ss g RM ls lg); auto).
    assert (Hsg : i_s <> i_g) by (unfold i_s, i_g; lia).
    assert (P3 : forall u v w, edge g3 u v w -> (0 <= w)%Q).
    { intros u v w E. apply (edge_g3 g ls lg) in E.
      assert (Q1 : forall x q, In (x, w) (query_samples dist check ss r q) -> (0 <= w)%Q).
      { intros x q H. apply query_samples_In in H. destruct H as (p & _ & -> & _). auto. }
      destruct E as [E|[[_ E]|[[_ E]|[[_ E]|[_ E]]]]]; eauto. eapply rm_pos; eauto. }
    (* solutions give trails *)
    assert (Sol : forall ids c, solution dist check ss r (edge g) s t ids c ->
              exists c', trail (edge g3) (i_s :: ids ++ [i_g]) c' /\ (c' == c)%Q).
    { intros ids c (a & z & c1 & ds & dt & Ha & Hz & T & Es & Et & Ec).
      destruct ids as [|a' ids]; [discriminate|]. simpl in Ha. inversion Ha; subst a'.
      rewrite last_hd in Hz. subst z.
      apply query_samples_In in Es. apply query_samples_In in Et.
      destruct (trail_join g ls lg ids a c1 dt T Et) as (c2 & T2 & E2).
      exists (ds + c2)%Q. split.
      - simpl. constructor; auto. apply (edge_g3 g ls lg). auto.
      - rewrite E2, Ec. ring. }
    specialize (SP g3 i_s i_g W3 P3 Hsg). cbv beta iota.
    assert (Res : same_graph (remove_node (remove_node g3 i_s) i_g) g /\
                  g_upper (remove_node (remove_node g3 i_s) i_g) = g_upper g + 2)
      by (apply (restored ss g RM ls lg Ns Ng Ls Lg)).
    destruct Res as [Same Up].
    destruct (sp g3 i_s i_g) as [[d mid]|].
    - destruct SP as (N & (c & T & Ec) & Min).
      assert (Hs : ~ In i_s mid).
      { inversion N; subst. intro H. apply H1. apply in_or_app; auto. }
      assert (Hg : ~ In i_g mid).
      { inversion N; subst. intro H. apply NoDup_remove_2 in H2. rewrite app_nil_r in H2. auto. }
      destruct mid as [|a mid].
      { exfalso. simpl in T. inversion T; subst. apply (no_direct ss g RM ls lg Ls Lg) in H3. auto. }
      simpl in T. inversion T; subst.
      destruct (trail_tail ss g RM ls lg mid a c0 Hs Hg H4) as (c1 & w2 & T1 & Hw2 & E2).
      assert (Hw : In (a, w) ls).
      { apply (edge_g3 g ls lg) in H3. fold i_s i_g in H3. simpl in Hs, Hg.
        destruct H3 as [E|[[_ E]|[[E _]|[[E _]|[E _]]]]]; auto; try tauto; try congruence.
        exfalso. apply (no_edge_fresh ss g RM i_s a w); auto. }
      assert (Hlast : last mid a < length ss) by (eapply Lg; eauto).
      assert (Hmid : forall i, In i (a :: mid) -> i < length ss).
      { intros i Hi. destruct mid as [|b mid].
        - destruct Hi as [->|[]]. auto.
        - eapply (roadmap_trail_range ss g RM _ _ T1); eauto. simpl; lia. }
      destruct (take_rows_ok ss (a :: mid) Hmid) as (ps & Eps & V).
      cbv beta iota. rewrite Eps.
      exists (Some d), ps, (remove_node (remove_node g3 i_s) i_g).
      split; [reflexivity|]. split; [|split; auto].
      split.
      + exists (a :: mid). split; auto.
        exists a, (last mid a), c1, w, w2. repeat split; auto.
        * apply last_hd.
        * now apply query_samples_In.
        * now apply query_samples_In.
        * rewrite Ec, E2. ring.
      + intros ids c' Hsol. destruct (Sol ids c' Hsol) as (c2 & T2 & E3).
        rewrite <- E3. eapply Min; eauto.
    - simpl. exists None, [], (remove_node (remove_node g3 i_s) i_g).
      split; [reflexivity|]. split; [|split; auto]. split; auto.
      intros ids c Hsol. destruct (Sol ids c Hsol) as (c2 & T2 & E3). eapply SP; eauto.
  Qed.

  Lemma same_graph_roadmap ss g g' : same_graph g' g -> g_upper g <= g_upper g' -> roadmap ss g -> roadmap ss g'.
  Proof.
    intros [A O] U RM.
    assert (E : forall u v w, edge g' u v w <-> edge g u v w) by (intros; unfold edge; rewrite O; tauto).
    pose proof (rm_wf ss g RM) as W.
    constructor; [constructor| | |].
    - intros u v w. rewrite !E. apply (wf_sym g W).
    - intro u. rewrite O. apply (wf_nodup g W).
    - intros u v w. rewrite E, !A. apply (wf_alive g W).
    - intros u. rewrite A. intro H. apply (wf_upper g W) in H. lia.
    - intros i H. rewrite A. now apply (rm_alive ss g RM).
    - intros u v w. rewrite E. apply (rm_range ss g RM).
    - intros u v w. rewrite E. apply (rm_pos ss g RM).
  Qed.

  Lemma same_graph_wf g g' : same_graph g' g -> g_upper g <= g_upper g' -> wf g -> wf g'.
  Proof.
    intros [A O] U W.
    assert (E : forall u v w, edge g' u v w <-> edge g u v w) by (intros; unfold edge; rewrite O; tauto).
    constructor.
    - intros u v w. rewrite !E. apply (wf_sym g W).
    - intro u. rewrite O. apply (wf_nodup g W).
    - intros u v w. rewrite E, !A. apply (wf_alive g W).
    - intros u. rewrite A. intro H. apply (wf_upper g W) in H. lia.
  Qed.
End Query.
