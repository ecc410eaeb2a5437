(** Proofs about the full-connection roadmap and about query answers. *)
From Coq Require Import Arith List QArith Bool Lia Setoid.
From Verif Require Import NkGraph_Model NkGraph_Spec NkGraph_Proofs Prm_Model Prm_Spec PrmQuery_Proofs.
Import ListNotations.
Close Scope Q_scope.

Section Fc.
  Context {P : Type}.
  Variable dist : P -> P -> Q.
  Variable check : P -> P -> bool.
  Variable smp : nat -> P.

  Lemma add_all_eq es g : add_all es g = add_list es g.
  Proof. reflexivity. Qed.

  Lemma dist_ids_nth ss i j p q : nth_error ss i = Some p -> nth_error ss j = Some q ->
    dist_ids dist ss i j = dist p q.
  Proof. unfold dist_ids. now intros -> ->. Qed.
  Lemma check_ids_nth ss i j p q : nth_error ss i = Some p -> nth_error ss j = Some q ->
    check_ids check ss i j = check p q.
  Proof. unfold check_ids. now intros -> ->. Qed.

  Lemma nth_error_ex {A} (l : list A) i : i < length l -> exists x, nth_error l i = Some x.
  Proof.
    intro H. destruct (nth_error l i) eqn:E; eauto. apply nth_error_None in E. lia.
  Qed.
  Lemma nth_error_lt {A} (l : list A) i x : nth_error l i = Some x -> i < length l.
  Proof. intro H. apply nth_error_Some. congruence. Qed.

  Lemma fc_edges_In ss r i j w : In (i, j, w) (fc_edges dist check ss r) <->
    near_valid dist check ss r i j /\ w = dist_ids dist ss i j.
  Proof.
    unfold fc_edges. rewrite in_map_iff. split.
    - intros [[a b] [E H]]. simpl in E. inversion E; subst. clear E.
      apply filter_In in H. destruct H as [H C]. apply filter_In in H. destruct H as [H D].
      apply in_prod_iff in H. destruct H as [Hi Hj]. apply in_seq in Hi. apply in_seq in Hj.
      simpl in *. destruct (nth_error_ex ss i) as [p Ep]; [lia|].
      destruct (nth_error_ex ss j) as [q Eq]; [lia|].
      rewrite (dist_ids_nth ss i j p q Ep Eq) in *. rewrite (check_ids_nth ss i j p q Ep Eq) in C.
      apply Qle_bool_iff in D. split; auto. exists p, q. auto.
    - intros [(p & q & Ep & Eq & D & C) ->]. exists (i, j). split; auto.
      apply filter_In. split; [apply filter_In; split|]; simpl.
      + apply in_prod; apply in_seq; split; try lia; simpl; eapply nth_error_lt; eauto.
      + rewrite (dist_ids_nth ss i j p q Ep Eq). now apply Qle_bool_iff.
      + now rewrite (check_ids_nth ss i j p q Ep Eq).
  Qed.

  Lemma new_graph_alive n u : g_alive (new_graph n) u = true <-> u < n.
  Proof. simpl. apply Nat.ltb_lt. Qed.

  Lemma fc_build_exact ss r : (forall p q, dist p q == dist q p)%Q ->
    exact_roadmap dist check ss r (fc_build dist check ss r).
  Proof.
    intro Sym. unfold fc_build. rewrite add_all_eq.
    assert (A : ends_alive (fc_edges dist check ss r) (new_graph (length ss))).
    { intros u v w H. apply fc_edges_In in H. destruct H as [(p & q & Ep & Eq & _) _].
      rewrite !new_graph_alive. split; eapply nth_error_lt; eauto. }
    pose proof (wf_new_graph (length ss)) as W0.
    split; [apply wf_add_list; auto|]. split; [|split].
    - intro i. rewrite add_list_alive. apply new_graph_alive.
    - intros i j. split.
      + intros [w E]. apply edge_add_list_1 in E; auto. destruct E as [[]|[E|E]].
        * apply fc_edges_In in E. left; tauto.
        * apply fc_edges_In in E. right; tauto.
      + intros [H|H].
        * apply edge_add_list_2 with (x := dist_ids dist ss i j); auto. left. apply fc_edges_In. auto.
        * apply edge_add_list_2 with (x := dist_ids dist ss j i); auto. right. apply fc_edges_In. auto.
    - intros i j w E. apply edge_add_list_1 in E; auto. destruct E as [[]|[E|E]];
      apply fc_edges_In in E; destruct E as [(p & q & Ep & Eq & _) ->].
      + exists p, q. rewrite (dist_ids_nth ss i j p q Ep Eq). split; [|split]; auto. apply Qeq_refl.
      + exists q, p. rewrite (dist_ids_nth ss j i p q Ep Eq). split; [|split]; auto.
  Qed.

  Hypothesis dist_nonneg : forall p q, (0 <= dist p q)%Q.
  Hypothesis dist_sym : forall p q, (dist p q == dist q p)%Q.

  Lemma exact_is_roadmap ss r g : exact_roadmap dist check ss r g -> roadmap ss g.
  Proof.
    intros (W & V & _ & Wt). constructor; auto.
    - intros i H. now apply V.
    - intros u v w E. destruct (Wt u v w E) as (p & q & Ep & _). eapply nth_error_lt; eauto.
    - intros u v w E. destruct (Wt u v w E) as (p & q & Ep & Eq & ->). auto.
  Qed.

  Lemma same_graph_exact ss r g g' : same_graph g' g -> g_upper g <= g_upper g' ->
    exact_roadmap dist check ss r g -> exact_roadmap dist check ss r g'.
  Proof.
    intros S U (W & V & Ed & Wt). destruct S as [A O].
    assert (E : forall u v w, edge g' u v w <-> edge g u v w) by (intros; unfold edge; rewrite O; tauto).
    split; [|split; [|split]].
    - apply (same_graph_wf g g'); auto. split; auto.
    - intro i. rewrite A. apply V.
    - intros i j. rewrite <- Ed. split; intros [w H]; exists w; apply E; auto.
    - intros i j w H. apply Wt. apply E; auto.
  Qed.

  (** ** histories of the full-connection roadmap *)

  Definition fc_inv (st : fc_state) : Prop :=
    match fc_samples st, fc_graph st with
    | None, None => True
    | Some ss, Some g => exact_roadmap dist check ss (fc_conn_r st) g
    | _, _ => False
    end.

  Variable sp : @sp_oracle.
  Hypothesis SP : sp_correct sp.

  Lemma fc_grow_inv st n : fc_inv st -> fc_inv (snd (fc_grow dist check smp st n)).
  Proof.
    unfold fc_grow, fc_inv. destruct (fc_samples st) as [old|] eqn:E; intro H.
    - destruct (n <? length old); simpl; [rewrite E; auto|]. apply fc_build_exact; auto.
    - simpl. apply fc_build_exact; auto.
  Qed.

  Lemma fc_step_inv st op : fc_inv st -> fc_inv (fc_step dist check smp sp st op).
  Proof.
    intro H. destruct op as [n|r|s t|]; simpl.
    - now apply fc_grow_inv.
    - unfold fc_set_radius. unfold fc_inv in H. destruct (fc_samples st) as [ss|] eqn:E.
      + unfold fc_grow. simpl. rewrite Nat.ltb_irrefl. simpl. apply fc_build_exact; auto.
      + unfold fc_inv. simpl. destruct (fc_graph st); auto.
    - unfold fc_query, fc_inv in *. destruct (fc_samples st) as [ss|] eqn:E; destruct (fc_graph st) as [g|] eqn:Eg; simpl;
        rewrite ?E, ?Eg; auto; try tauto.
      destruct (query_best_spec dist check dist_nonneg sp ss g (fc_conn_r st) s t SP
                  (exact_is_roadmap _ _ _ H)) as (d & path & g' & Eq & _ & Same & Up).
      rewrite Eq. simpl. eapply same_graph_exact; eauto. lia.
    - exact I.
  Qed.

  Lemma fc_run_inv ops : forall st, fc_inv st -> fc_inv (fc_run dist check smp sp ops st).
  Proof.
    induction ops as [|op ops IH]; intros st H; simpl; auto. apply IH. now apply fc_step_inv.
  Qed.

  Lemma fc_new_inv r pos : fc_inv (fc_new (P := P) r pos).
  Proof. exact I. Qed.

  (** ** answers *)

  Lemma trail_map (E E' : nat -> nat -> Q -> Prop) :
    (forall i j w, E i j w -> exists w', E' i j w' /\ (w' == w)%Q) ->
    forall l c, trail E l c -> exists c', trail E' l c' /\ (c' == c)%Q.
  Proof.
    intros H l c T. induction T as [i|i j l w c Ew T IH].
    - exists 0%Q. split; [constructor|reflexivity].
    - destruct IH as (c' & T' & Ec). destruct (H _ _ _ Ew) as (w' & Hw & Ew').
      exists (w' + c')%Q. split; [constructor; auto|]. now rewrite Ec, Ew'.
  Qed.

  Lemma solution_mono ss ss' r r' (E E' : nat -> nat -> Q -> Prop) s t ids c :
    (forall i p, nth_error ss i = Some p -> nth_error ss' i = Some p) -> (r <= r')%Q ->
    (forall i j w, E i j w -> exists w', E' i j w' /\ (w' == w)%Q) ->
    solution dist check ss r E s t ids c -> solution dist check ss' r' E' s t ids c.
  Proof.
    intros Hs Hr HE (a & z & c1 & ds & dt & Ha & Hz & T & Es & Et & Ec).
    destruct (trail_map E E' HE _ _ T) as (c1' & T' & E1).
    exists a, z, c1', ds, dt. repeat split; auto.
    - destruct Es as (p & N & D & L & C). exists p. repeat split; auto. eapply Qle_trans; eauto.
    - destruct Et as (p & N & D & L & C). exists p. repeat split; auto. eapply Qle_trans; eauto.
    - now rewrite E1.
  Qed.

  Lemma right_answer_mono ss ss' r r' (E E' : nat -> nat -> Q -> Prop) s t c p d' p' :
    (forall i p, nth_error ss i = Some p -> nth_error ss' i = Some p) -> (r <= r')%Q ->
    (forall i j w, E i j w -> exists w', E' i j w' /\ (w' == w)%Q) ->
    right_answer dist check ss r E s t (Some c) p ->
    right_answer dist check ss' r' E' s t d' p' ->
    exists c', d' = Some c' /\ (c' <= c)%Q.
  Proof.
    intros Hs Hr HE [(ids & Sol & _) _] R'.
    apply (solution_mono ss ss' r r' E E') in Sol; auto.
    destruct d' as [c'|].
    - exists c'. split; auto. destruct R' as [_ M]. eauto.
    - destruct R' as [_ N]. exfalso. eapply N; eauto.
  Qed.

  Definition same_distance (d d' : option Q) : Prop :=
    match d, d' with
    | None, None => True
    | Some a, Some b => (a == b)%Q
    | _, _ => False
    end.

  Lemma right_answer_unique ss r (E : nat -> nat -> Q -> Prop) (E' : nat -> nat -> Q -> Prop) s t d p d' p' :
    (forall i j w, E i j w <-> E' i j w) ->
    right_answer dist check ss r E s t d p -> right_answer dist check ss r E' s t d' p' ->
    same_distance d d'.
  Proof.
    intros HE R R'.
    assert (H1 : forall i j w, E i j w -> exists w', E' i j w' /\ (w' == w)%Q).
    { intros i j w H. exists w. split; [now apply HE|reflexivity]. }
    assert (H2 : forall i j w, E' i j w -> exists w', E i j w' /\ (w' == w)%Q).
    { intros i j w H. exists w. split; [now apply HE|reflexivity]. }
    destruct d as [c|], d' as [c'|]; simpl; auto.
    - destruct (right_answer_mono ss ss r r E E' s t c p _ p' (fun _ _ H => H) (Qle_refl _) H1 R R') as (x & Ex & Lx).
      destruct (right_answer_mono ss ss r r E' E s t c' p' _ p (fun _ _ H => H) (Qle_refl _) H2 R' R) as (y & Ey & Ly).
      inversion Ex; inversion Ey; subst. now apply Qle_antisym.
    - destruct (right_answer_mono ss ss r r E E' s t c p _ p' (fun _ _ H => H) (Qle_refl _) H1 R R') as (x & Ex & Lx).
      discriminate.
    - destruct (right_answer_mono ss ss r r E' E s t c' p' _ p (fun _ _ H => H) (Qle_refl _) H2 R' R) as (x & Ex & Lx).
      discriminate.
  Qed.

  Lemma right_answer_empty ss r (E : nat -> nat -> Q -> Prop) s t d p :
    right_answer dist check ss r E s t d p -> (p = [] <-> d = None).
  Proof.
    destruct d as [c|]; intro R.
    - destruct R as [(ids & (a & z & c1 & ds & dt & Ha & _) & V) _].
      split; [|discriminate]. intros ->. inversion V; subst. discriminate.
    - destruct R. tauto.
  Qed.

  (** ** reversing *)
  Lemma trail_snoc (E : nat -> nat -> Q -> Prop) l : forall x y c w,
    trail E (l ++ [x]) c -> E x y w -> exists c', trail E (l ++ [x; y]) c' /\ (c' == c + w)%Q.
  Proof.
    induction l as [|a l IH]; intros x y c w T H; simpl in *.
    - inversion T; subst. exists (w + 0)%Q. split; [constructor; auto; constructor|ring].
    - destruct (l ++ [x]) as [|b m] eqn:El; [destruct l; discriminate|].
      inversion T; subst. rewrite <- El in H5. destruct (IH x y c0 w H5 H) as (c' & T' & Ec).
      replace (l ++ [x; y]) with (b :: m ++ [y]) in *.
      + exists (w0 + c')%Q. split; [constructor; auto|]. rewrite Ec. ring.
      + change (b :: m ++ [y]) with ((b :: m) ++ [y]). rewrite <- El. now rewrite <- app_assoc.
  Qed.

  Lemma trail_rev (E : nat -> nat -> Q -> Prop) : (forall i j w, E i j w -> E j i w) ->
    forall l c, trail E l c -> exists c', trail E (rev l) c' /\ (c' == c)%Q.
  Proof.
    intros Sym l c T. induction T as [i|i j l w c Ew T IH].
    - exists 0%Q. split; [constructor|reflexivity].
    - destruct IH as (c' & T' & Ec). simpl in *.
      destruct (trail_snoc E (rev l) j i c' w T') as (c2 & T2 & E2); auto.
      exists c2. split; [now rewrite <- app_assoc|]. rewrite E2, Ec. ring.
  Qed.

  Lemma solution_rev ss r (E : nat -> nat -> Q -> Prop) s t ids c : (forall i j w, E i j w -> E j i w) ->
    solution dist check ss r E s t ids c -> solution dist check ss r E t s (rev ids) c.
  Proof.
    intros Sym (a & z & c1 & ds & dt & Ha & Hz & T & Es & Et & Ec).
    destruct (trail_rev E Sym _ _ T) as (c2 & T2 & E2).
    destruct ids as [|a' ids]; [discriminate|]. simpl in Ha. inversion Ha; subst a'.
    exists z, a, c2, dt, ds. repeat split; auto.
    - subst z. rewrite (@app_removelast_last _ (a :: ids) a) at 1 by discriminate.
      rewrite rev_app_distr. reflexivity.
    - simpl. rewrite last_last. reflexivity.
    - rewrite Ec, E2. ring.
  Qed.

  Lemma right_answer_symmetric ss r (E : nat -> nat -> Q -> Prop) s t d p d' p' :
    (forall i j w, E i j w -> E j i w) ->
    right_answer dist check ss r E s t d p -> right_answer dist check ss r E t s d' p' ->
    same_distance d d'.
  Proof.
    intros Sym R R'. destruct d as [c|], d' as [c'|]; simpl; auto.
    - destruct R as [(ids & S1 & _) M1], R' as [(ids' & S2 & _) M2].
      apply solution_rev in S1; auto. apply solution_rev in S2; auto.
      apply Qle_antisym; eauto.
    - destruct R as [(ids & S1 & _) M1], R' as [_ N]. apply solution_rev in S1; auto.
      eapply N; eauto.
    - destruct R' as [(ids & S1 & _) M1], R as [_ N]. apply solution_rev in S1; auto.
      eapply N; eauto.
  Qed.

  (** ** entry/exit pairs *)

  Lemma in_and_outs_flat (starts goals : list nat) :
    in_and_outs starts goals = flat_map (fun t => map (fun s => (s, t)) starts) goals.
  Proof.
    unfold in_and_outs, tile, repeat_each. induction goals as [|t goals IH]; auto.
    simpl. rewrite <- IH. clear.
    assert (H : forall (l1 l2 : list nat) (m : list nat) (t : nat), 
      combine (l1 ++ l2) (repeat t (length l1) ++ m) = map (fun s => (s, t)) l1 ++ combine l2 m).
    { induction l1; intros; simpl; auto. now rewrite IHl1. }
    apply H.
  Qed.

  Lemma in_and_outs_In starts goals s t : In (s, t) (in_and_outs starts goals) <-> In s starts /\ In t goals.
  Proof.
    rewrite in_and_outs_flat, in_flat_map. split.
    - intros [x [Hx H]]. apply in_map_iff in H. destruct H as [y [E H]]. inversion E; subst; auto.
    - intros [H1 H2]. exists t. split; auto. apply in_map_iff. eauto.
  Qed.

  Lemma NoDup_app {A} (l1 l2 : list A) : NoDup l1 -> NoDup l2 -> (forall x, In x l1 -> ~ In x l2) -> NoDup (l1 ++ l2).
  Proof.
    induction l1 as [|a l1 IH]; simpl; auto. intros N1 N2 D. inversion N1; subst. constructor.
    - intro H. apply in_app_or in H. destruct H; auto. apply (D a); auto.
    - apply IH; auto.
  Qed.

  Lemma in_and_outs_NoDup starts goals : NoDup starts -> NoDup goals -> NoDup (in_and_outs starts goals).
  Proof.
    intros Ns Ng. rewrite in_and_outs_flat. induction Ng as [|t goals Ht Ng IH]; simpl; [constructor|].
    apply NoDup_app; auto.
    - clear - Ns. induction Ns; simpl; constructor; auto. intro H0. apply in_map_iff in H0.
      destruct H0 as [y [E H0]]. inversion E; subst; auto.
    - intros [a b] H1 H2. apply in_map_iff in H1. destruct H1 as [y [E H1]]. inversion E; subst.
      apply in_flat_map in H2. destruct H2 as [x [Hx H2]]. apply in_map_iff in H2.
      destruct H2 as [z [E2 H2]]. inversion E2; subst; auto.
  Qed.

  (** ** lookup table *)

  Lemma put_nth {A} (t : list A) c x i : c < length t ->
    nth_error (firstn c t ++ [x] ++ skipn (S c) t) i = if i =? c then Some x else nth_error t i.
  Proof.
    intro L. destruct (Nat.eqb_spec i c) as [->|N].
    - rewrite nth_error_app2; rewrite firstn_length_le by lia; [|lia]. now rewrite Nat.sub_diag.
    - destruct (Nat.lt_ge_cases i c).
      + rewrite nth_error_app1 by (rewrite firstn_length_le; lia).
        rewrite <- (firstn_skipn c t) at 2. rewrite nth_error_app1; auto. rewrite firstn_length_le; lia.
      + rewrite nth_error_app2; rewrite firstn_length_le by lia; [|lia].
        destruct (i - c) as [|k] eqn:E; [lia|]. simpl. 
        rewrite <- (firstn_skipn (S c) t) at 2. rewrite nth_error_app2; rewrite firstn_length_le; try lia.
        replace (i - S c) with k by lia. destruct t; simpl; auto.
  Qed.

  Lemma put_length {A} (t : list A) c x : c < length t -> length (firstn c t ++ [x] ++ skipn (S c) t) = length t.
  Proof. intro L. rewrite !app_length, firstn_length_le, skipn_length by lia. simpl length. lia. Qed.

  Lemma lookup_index_spec n ids : (forall i, In i ids -> i < n) -> NoDup ids ->
    length (lookup_index n ids) = n /\
    (forall j i, nth_error ids j = Some i -> nth_error (lookup_index n ids) i = Some j) /\
    (forall i, i < n -> ~ In i ids -> nth_error (lookup_index n ids) i = Some n).
  Proof.
    intros L N. unfold lookup_index.
    assert (H : forall (ids : list nat) k t, length t = n -> (forall i, In i ids -> i < n) -> NoDup ids ->
      let t' := fold_left (fun t ic => firstn (snd ic) t ++ [fst ic] ++ skipn (S (snd ic)) t)
                 (combine (seq k (length ids)) ids) t in
      length t' = n /\ (forall j i, nth_error ids j = Some i -> nth_error t' i = Some (k + j)) /\
      (forall i, ~ In i ids -> nth_error t' i = nth_error t i)).
    { clear. induction ids as [|c ids IH]; intros k t Lt L N;
        cbn [combine seq length fold_left fst snd].
      - split; auto. split; auto. intros [|j] i H; discriminate.
      - apply NoDup_cons_iff in N. destruct N as [H1 H2].
        assert (Hc : c < length t) by (rewrite Lt; apply L; simpl; auto).
        destruct (IH (S k) (firstn c t ++ [k] ++ skipn (S c) t)) as (A & B & C); auto.
        { rewrite put_length; auto. }
        { intros; apply L; simpl; auto. }
        split; [exact A|]. split.
        + intros [|j] i H.
          * simpl in H. inversion H; subst. rewrite (C i H1). rewrite Nat.add_0_r.
            change (nth_error (firstn i t ++ [k] ++ skipn (S i) t) i = Some k).
            rewrite put_nth by auto. now rewrite Nat.eqb_refl.
          * simpl in H. rewrite (B j i H). f_equal. lia.
        + intros i Hi. simpl in Hi. rewrite C by tauto.
          change (nth_error (firstn c t ++ [k] ++ skipn (S c) t) i = nth_error t i).
          rewrite put_nth by auto. destruct (Nat.eqb_spec i c); auto. subst. tauto. }
    destruct (H ids 0 (repeat n n)) as (A & B & C); auto.
    { apply repeat_length. }
    split; auto. split.
    - intros j i Hj. apply (B j i Hj).
    - intros i Hi Hn. rewrite C by auto. clear - Hi. revert i Hi.
      assert (G : forall m i, i < m -> nth_error (repeat n m) i = Some n).
      { induction m; intros i Hi; [lia|]. destruct i; simpl; auto. apply IHm. lia. }
      auto.
  Qed.

  Lemma table_lookup_spec dg n ids s t : (forall i, In i ids -> i < n) -> NoDup ids -> s < n -> t < n ->
    (In s ids -> In t ids -> table_lookup (spsp_table dg ids) (lookup_index n ids) s t = Ok (dg s t)) /\
    (~ In s ids \/ ~ In t ids -> table_lookup (spsp_table dg ids) (lookup_index n ids) s t = Err IndexError).
  Proof.
    intros L N Hs Ht. destruct (lookup_index_spec n ids L N) as (_ & B & C).
    assert (Len : length ids <= n).
    { rewrite <- (seq_length n 0). apply NoDup_incl_length; auto. intros x Hx. apply in_seq.
      specialize (L x Hx). lia. }
    assert (Out : forall A (l : list A), length l = length ids -> nth_error l n = None).
    { intros A l El. apply nth_error_None. lia. }
    unfold table_lookup, spsp_table. split.
    - intros Is It. apply In_nth_error in Is. apply In_nth_error in It.
      destruct Is as [a Ha], It as [b Hb]. rewrite (B a s Ha), (B b t Hb).
      rewrite (map_nth_error _ _ _ Ha). rewrite (map_nth_error _ _ _ Hb). reflexivity.
    - intros H.
      destruct (in_dec Nat.eq_dec s ids) as [Is|Is].
      + destruct (in_dec Nat.eq_dec t ids) as [It|It]; [destruct H; contradiction|].
        apply In_nth_error in Is. destruct Is as [a Ha]. rewrite (B a s Ha), (C t Ht It).
        rewrite (map_nth_error _ _ _ Ha). rewrite Out; auto. apply map_length.
      + rewrite (C s Hs Is). destruct (nth_error (lookup_index n ids) t) as [j|] eqn:E; auto.
        rewrite Out; auto. apply map_length.
  Qed.

  Lemma ids_near_path_spec (dp : P -> Q) ss r i :
    In i (ids_near_path dp ss r) <-> exists p, nth_error ss i = Some p /\ (dp p <= r)%Q.
  Proof.
    unfold ids_near_path. rewrite in_map_iff. split.
    - intros [[j p] [E H]]. simpl in E; subst. apply filter_In in H. destruct H as [H D].
      apply combine_seq_In in H. rewrite Nat.sub_0_r in H. apply Qle_bool_iff in D. exists p. split; [exact (proj2 H)|exact D].
    - intros (p & H & D). exists (i, p). split; auto. apply filter_In. split.
      + apply combine_seq_In. rewrite Nat.sub_0_r. split; [lia|auto].
      + now apply Qle_bool_iff.
  Qed.
  Lemma ids_near_path_NoDup (dp : P -> Q) ss r : NoDup (ids_near_path dp ss r).
  Proof.
    unfold ids_near_path. apply NoDup_map_filter. rewrite combine_seq_fst. apply seq_NoDup.
  Qed.
End Fc.
