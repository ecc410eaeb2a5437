(** Properties C12-C20, C32, C68: full-connection roadmap and roadmap queries (prm.py). *)
From Coq Require Import Arith List QArith ZArith Bool Lia.
From Verif Require Import NkGraph_Model NkGraph_Spec NkGraph_Proofs Prm_Model Prm_Spec Sp_Oracle
  PrmQuery_Proofs PrmFc_Proofs PrmAnn_Inst PrmEx.
Import ListNotations.
Close Scope Q_scope.

Section Props.
  Context {P : Type}.
  Variable dist : P -> P -> Q.
  Variable check : P -> P -> bool.
  Variable smp : nat -> P.
  Variable sp : sp_oracle.

  (** The radius a client has last asked for. *)
  Fixpoint radius_asked (r : Q) (ops : list (fc_op (P := P))) : Q :=
    match ops with
    | [] => r
    | FRadius r' :: ops' => radius_asked r' ops'
    | _ :: ops' => radius_asked r ops'
    end.

  Lemma radius_asked_ok ops : forall st, fc_conn_r (fc_run dist check smp sp ops st) = radius_asked (fc_conn_r st) ops.
  Proof.
    induction ops as [|op ops IH]; intro st; simpl; auto. unfold fc_run in *. simpl. rewrite IH.
    destruct op as [n|r'|s t|]; simpl.
    - f_equal. unfold fc_grow. destruct (fc_samples st) as [old|]; auto. destruct (n <? length old); auto.
    - f_equal. unfold fc_set_radius. destruct (fc_samples st) as [old|]; auto.
      unfold fc_grow. simpl. rewrite Nat.ltb_irrefl. reflexivity.
    - f_equal. unfold fc_query. destruct (fc_samples st), (fc_graph st); auto.
      destruct (query_best _ _ _ _ _ _ _ _); auto.
    - reflexivity.
  Qed.

  (** C12.  After any history of calls, the roadmap over the current samples is exactly
      the one of the radius last asked for. *)
  Theorem full_conn_roadmap_exact :
    (forall p q, (0 <= dist p q)%Q) -> (forall p q, (dist p q == dist q p)%Q) -> sp_correct sp ->
    forall r pos ops ss,
    let st := fc_run dist check smp sp ops (fc_new r pos) in
    fc_samples st = Some ss ->
    exists g, fc_graph st = Some g /\ exact_roadmap dist check ss (radius_asked r ops) g.
  Proof.
    intros Hp Hs SP r pos ops ss st Es.
    pose proof (fc_run_inv dist check smp Hp Hs sp SP ops (fc_new r pos) (fc_new_inv dist check r pos)) as I.
    fold st in I. unfold fc_inv in I. rewrite Es in I.
    unfold st in I at 2. rewrite radius_asked_ok in I.
    destruct (fc_graph st) as [g|]; [|tauto]. exists g. auto.
  Qed.

  (** C13, full-connection roadmap.  A grow succeeds iff the size does not shrink; then it
      draws the missing states and appends them. *)
  Theorem full_conn_grow_samples : forall st n,
    let old := match fc_samples st with Some s => s | None => [] end in
    let k := n - length old in
    (length old <= n -> exists ds st',
       fc_grow dist check smp st n = (Ok ds, st') /\
       fc_samples st' = Some (old ++ map smp (seq (fc_next st) k)) /\
       length (old ++ map smp (seq (fc_next st) k)) = n /\ fc_next st' = fc_next st + k) /\
    (n < length old -> fst (fc_grow dist check smp st n) = Err ArithmeticError).
  Proof.
    intros st n old k. unfold fc_grow, k, old. destruct (fc_samples st) as [s|].
    - split; intro L.
      + destruct (Nat.ltb_spec n (length s)); [lia|]. eexists _, _. split; [reflexivity|]. simpl.
        split; auto. split; auto. rewrite app_length, map_length, seq_length. lia.
      + destruct (Nat.ltb_spec n (length s)); [auto|lia].
    - split; intro L.
      + eexists _, _. split; [reflexivity|]. simpl. rewrite Nat.sub_0_r. split; auto. split; auto.
        now rewrite map_length, seq_length.
      + simpl in L. lia.
  Qed.

  (** C14, full-connection roadmap.  A rejected grow changes nothing. *)
  Theorem full_conn_rejected_grow_no_effect : forall st n e st',
    fc_grow dist check smp st n = (Err e, st') -> st' = st /\ e = ArithmeticError.
  Proof.
    intros st n e st' H. unfold fc_grow in H. destruct (fc_samples st) as [s|].
    - destruct (n <? length s); inversion H; auto.
    - inversion H.
  Qed.

  (** C17.  In every reachable state with samples, a query returns the right answer: a
      cheapest chain of admissible connections, or infinity if there is none. *)
  Theorem full_conn_query_optimal :
    (forall p q, (0 <= dist p q)%Q) -> (forall p q, (dist p q == dist q p)%Q) -> sp_correct sp ->
    forall r pos ops ss s t,
    let st := fc_run dist check smp sp ops (fc_new r pos) in
    fc_samples st = Some ss ->
    exists g d path, fc_graph st = Some g /\ fst (fc_query dist check sp st s t) = Ok (d, path) /\
      right_answer dist check ss (fc_conn_r st) (edge g) s t d path.
  Proof.
    intros Hp Hs SP r pos ops ss s t st Es.
    destruct (full_conn_roadmap_exact Hp Hs SP r pos ops ss Es) as (g & Eg & X). fold st in Eg.
    pose proof (exact_is_roadmap dist check Hp ss _ g X) as RM.
    destruct (query_best_spec dist check Hp sp ss g (fc_conn_r st) s t SP RM) as (d & path & g' & Eq & R & _).
    exists g, d, path. split; auto. split; auto. unfold fc_query. rewrite Es, Eg, Eq. reflexivity.
  Qed.

  (** C18.  The path is empty exactly when the distance is infinite: there is no answer
      with a finite distance and no sample in between. *)
  Theorem full_conn_query_empty_iff_infinite :
    (forall p q, (0 <= dist p q)%Q) -> (forall p q, (dist p q == dist q p)%Q) -> sp_correct sp ->
    forall r pos ops ss s t,
    let st := fc_run dist check smp sp ops (fc_new r pos) in
    fc_samples st = Some ss ->
    exists d path, fst (fc_query dist check sp st s t) = Ok (d, path) /\ (path = [] <-> d = None).
  Proof.
    intros Hp Hs SP r pos ops ss s t st Es.
    destruct (full_conn_query_optimal Hp Hs SP r pos ops ss s t Es) as (g & d & path & Eg & Eq & R).
    exists d, path. split; auto. eapply right_answer_empty; eauto.
  Qed.

  (** C16.  A query leaves samples, radius, sampler position, vertices, edges, weights and
      adjacency order as they were. *)
  Theorem full_conn_query_preserves :
    (forall p q, (0 <= dist p q)%Q) -> (forall p q, (dist p q == dist q p)%Q) -> sp_correct sp ->
    forall r pos ops s t,
    let st := fc_run dist check smp sp ops (fc_new r pos) in
    let st' := snd (fc_query dist check sp st s t) in
    fc_samples st' = fc_samples st /\ fc_conn_r st' = fc_conn_r st /\ fc_next st' = fc_next st /\
    match fc_graph st, fc_graph st' with
    | Some g, Some g' => same_graph g' g
    | None, None => True
    | _, _ => False
    end.
  Proof.
    intros Hp Hs SP r pos ops s t st st'.
    pose proof (fc_run_inv dist check smp Hp Hs sp SP ops (fc_new r pos) (fc_new_inv dist check r pos)) as I.
    fold st in I. unfold fc_inv in I. unfold st', fc_query.
    destruct (fc_samples st) as [ss|] eqn:Es; destruct (fc_graph st) as [g|] eqn:Eg; try tauto.
    - pose proof (exact_is_roadmap dist check Hp ss _ g I) as RM.
      destruct (query_best_spec dist check Hp sp ss g (fc_conn_r st) s t SP RM) as (d & path & g' & Eq & R & Sg & _).
      rewrite Eq. simpl. auto.
    - simpl. rewrite Es, Eg. auto.
  Qed.

  (** C16.  So a query asked after any number of other queries has the same distance. *)
  Theorem full_conn_queries_repeatable :
    (forall p q, (0 <= dist p q)%Q) -> (forall p q, (dist p q == dist q p)%Q) -> sp_correct sp ->
    forall r pos ops ss qs s t,
    let st := fc_run dist check smp sp ops (fc_new r pos) in
    let st' := fc_run dist check smp sp (map (fun q => FQuery (fst q) (snd q)) qs) st in
    fc_samples st = Some ss ->
    exists d p d' p', fst (fc_query dist check sp st s t) = Ok (d, p) /\
      fst (fc_query dist check sp st' s t) = Ok (d', p') /\ same_distance d d'.
  Proof.
    intros Hp Hs SP r pos ops ss qs s t st st' Es.
    assert (Keep : forall qs ops, let st := fc_run dist check smp sp ops (fc_new r pos) in
       let st' := fc_run dist check smp sp (map (fun q => FQuery (fst q) (snd q)) qs) st in
       fc_samples st' = fc_samples st /\ fc_conn_r st' = fc_conn_r st /\
       match fc_graph st, fc_graph st' with
       | Some g, Some g' => forall u, g_out g' u = g_out g u
       | None, None => True
       | _, _ => False
       end).
    { clear - Hp Hs SP. induction qs as [|[s t] qs IH]; intros ops st st'.
      - unfold st'. simpl. split; auto. split; auto. destruct (fc_graph st); auto.
      - destruct (full_conn_query_preserves Hp Hs SP r pos ops s t) as (A1 & A2 & _ & A3).
        specialize (IH (ops ++ [FQuery s t])). cbv zeta in IH.
        assert (E : fc_run dist check smp sp (ops ++ [FQuery s t]) (fc_new r pos)
                    = snd (fc_query dist check sp st s t)).
        { unfold fc_run. rewrite fold_left_app. reflexivity. }
        rewrite E in IH. destruct IH as (B1 & B2 & B3). fold st in A1, A2, A3.
        unfold st'. simpl. split; [congruence|]. split; [congruence|].
        change (fc_graph (fc_run dist check smp sp
                   (FQuery s t :: map (fun q => FQuery (fst q) (snd q)) qs) st))
          with (fc_graph (fc_run dist check smp sp (map (fun q => FQuery (fst q) (snd q)) qs)
                   (snd (fc_query dist check sp st s t)))).
        destruct (fc_graph st) as [g|], (fc_graph (snd (fc_query dist check sp st s t))) as [g1|]; try tauto;
          destruct (fc_graph (fc_run dist check smp sp _ _)) as [g2|]; try tauto.
        intro u. rewrite B3. apply A3. }
    destruct (Keep qs ops) as (K1 & K2 & K3). fold st in K1, K2, K3. fold st' in K1, K2, K3.
    destruct (full_conn_query_optimal Hp Hs SP r pos ops ss s t Es) as (g & d & p & Eg & Eq & R).
    assert (Est' : st' = fc_run dist check smp sp (ops ++ map (fun q => FQuery (fst q) (snd q)) qs) (fc_new r pos)).
    { unfold st', st, fc_run. now rewrite fold_left_app. }
    assert (Es' : fc_samples st' = Some ss) by congruence.
    pose proof (full_conn_query_optimal Hp Hs SP r pos (ops ++ map (fun q => FQuery (fst q) (snd q)) qs) ss s t) as Q1.
    rewrite <- Est' in Q1. destruct (Q1 Es') as (g' & d' & p' & Eg' & Eq' & R').
    exists d, p, d', p'. split; auto. split; auto.
    rewrite K2 in R'. fold st in Eg. rewrite Eg, Eg' in K3.
    eapply right_answer_unique; [|exact R|exact R'].
    intros. unfold edge. rewrite K3. tauto.
  Qed.

  (** C68.  Swapping start and goal does not change the distance. *)
  Theorem full_conn_query_symmetric :
    (forall p q, (0 <= dist p q)%Q) -> (forall p q, (dist p q == dist q p)%Q) -> sp_correct sp ->
    forall r pos ops ss s t,
    let st := fc_run dist check smp sp ops (fc_new r pos) in
    fc_samples st = Some ss ->
    exists d p d' p', fst (fc_query dist check sp st s t) = Ok (d, p) /\
      fst (fc_query dist check sp st t s) = Ok (d', p') /\ same_distance d d'.
  Proof.
    intros Hp Hs SP r pos ops ss s t st Es.
    destruct (full_conn_query_optimal Hp Hs SP r pos ops ss s t Es) as (g & d & p & Eg & Eq & R).
    destruct (full_conn_query_optimal Hp Hs SP r pos ops ss t s Es) as (g' & d' & p' & Eg' & Eq' & R').
    exists d, p, d', p'. split; auto. split; auto. rewrite Eg in Eg'. inversion Eg'; subst g'.
    eapply right_answer_symmetric; eauto.
    destruct (full_conn_roadmap_exact Hp Hs SP r pos ops ss Es) as (g' & Eg2 & X & _).
    assert (g' = g) by congruence. subst. apply (wf_sym g X).
  Qed.

  (** C15.  Two roadmaps reached by any histories, the second over more samples and with
      at least the radius: a query answered by the first is answered by the second, at no
      higher cost. *)
  Theorem full_conn_monotone :
    (forall p q, (0 <= dist p q)%Q) -> (forall p q, (dist p q == dist q p)%Q) -> sp_correct sp ->
    forall r pos ops r' pos' ops' ss extra s t c path,
    let st := fc_run dist check smp sp ops (fc_new r pos) in
    let st' := fc_run dist check smp sp ops' (fc_new r' pos') in
    fc_samples st = Some ss -> fc_samples st' = Some (ss ++ extra) ->
    (fc_conn_r st <= fc_conn_r st')%Q ->
    fst (fc_query dist check sp st s t) = Ok (Some c, path) ->
    exists c' path', fst (fc_query dist check sp st' s t) = Ok (Some c', path') /\ (c' <= c)%Q.
  Proof.
    intros Hp Hs SP r pos ops r' pos' ops' ss extra s t c path st st' Es Es' Hr Hq.
    destruct (full_conn_query_optimal Hp Hs SP r pos ops ss s t Es) as (g & d & p & Eg & Eq & R).
    destruct (full_conn_query_optimal Hp Hs SP r' pos' ops' _ s t Es') as (g' & d' & p' & Eg' & Eq' & R').
    fold st in Eg, Eq, R. fold st' in Eg', Eq', R'.
    rewrite Eq in Hq. inversion Hq; subst d p.
    destruct (full_conn_roadmap_exact Hp Hs SP r pos ops ss Es) as (g1 & Eg1 & X).
    destruct (full_conn_roadmap_exact Hp Hs SP r' pos' ops' _ Es') as (g1' & Eg1' & X').
    fold st in Eg1. fold st' in Eg1'.
    assert (g1 = g) by congruence. assert (g1' = g') by congruence. subst.
    assert (Er : radius_asked r ops = fc_conn_r st) by (unfold st; now rewrite radius_asked_ok).
    assert (Er' : radius_asked r' ops' = fc_conn_r st') by (unfold st'; now rewrite radius_asked_ok).
    rewrite Er in X. rewrite Er' in X'.
    assert (Nth : forall i p, nth_error ss i = Some p -> nth_error (ss ++ extra) i = Some p).
    { intros i p H. rewrite nth_error_app1; auto. eapply nth_error_lt; eauto. }
    assert (NV : forall i j, near_valid dist check ss (fc_conn_r st) i j ->
                             near_valid dist check (ss ++ extra) (fc_conn_r st') i j).
    { intros i j (p & q & H1 & H2 & H3 & H4). exists p, q. repeat split; auto. eapply Qle_trans; eauto. }
    assert (HE : forall i j w, edge g i j w -> exists w', edge g' i j w' /\ (w' == w)%Q).
    { intros i j w E. destruct X as (_ & _ & Xe & Xw). destruct X' as (_ & _ & Xe' & Xw').
      assert (H : exists w', edge g' i j w').
      { apply Xe'. destruct (proj1 (Xe i j)) as [H|H]; eauto. }
      destruct H as [w' E']. exists w'. split; auto.
      destruct (Xw i j w E) as (p & q & H1 & H2 & H3). destruct (Xw' i j w' E') as (p2 & q2 & H4 & H5 & H6).
      apply Nth in H1. apply Nth in H2. rewrite H6, H3.
      assert (p2 = p) by congruence. assert (q2 = q) by congruence. subst. reflexivity. }
    destruct (right_answer_mono dist check ss (ss ++ extra) _ _ _ _ s t c path d' p' Nth Hr HE R R') as (c' & -> & Hle).
    exists c', p'. auto.
  Qed.

  (** C19.  query_all_graph_connections: every (entry, exit) pair once, rows aligned. *)
  Theorem query_all_enumerates : forall ss r s t lookup,
    let rows := query_all dist check ss r s t lookup in
    NoDup (map snd rows) /\
    (forall i j, In (i, j) (map snd rows) <->
       (exists d, entry dist check ss r s i d) /\ (exists d, entry dist check ss r t j d)) /\
    (forall pts d i j, In (pts, d, (i, j)) rows ->
       d = lookup i j /\ exists p q, pts = Some (p, q) /\ nth_error ss i = Some p /\ nth_error ss j = Some q).
  Proof.
    intros ss r s t lookup rows.
    set (io := in_and_outs (map fst (query_samples dist check ss r s)) (map fst (query_samples dist check ss r t))).
    assert (Esnd : map snd rows = io).
    { unfold rows, query_all. fold io. rewrite map_map. simpl. rewrite <- (map_id io) at 2.
      apply map_ext. intros; auto. }
    assert (HIn : forall q i, In i (map fst (query_samples dist check ss r q)) <-> exists d, entry dist check ss r q i d).
    { intros q i. rewrite in_map_iff. split.
      - intros [[x d] [E H]]. simpl in E; subst. exists d. now apply query_samples_In.
      - intros [d H]. exists (i, d). split; auto. now apply query_samples_In. }
    assert (Pairs : forall i j, In (i, j) io <->
       (exists d, entry dist check ss r s i d) /\ (exists d, entry dist check ss r t j d)).
    { intros i j. unfold io. rewrite in_and_outs_In. now rewrite !HIn. }
    split; [|split].
    - rewrite Esnd. apply in_and_outs_NoDup; apply query_samples_NoDup.
    - rewrite Esnd. exact Pairs.
    - intros pts d i j H. unfold rows, query_all in H. fold io in H. apply in_map_iff in H.
      destruct H as [[a b] [E H]]. simpl in E. inversion E; subst. split; auto.
      apply Pairs in H. destruct H as [[d1 (p & Hp & _)] [d2 (q & Hq & _)]].
      exists p, q. rewrite Hp, Hq. auto.
  Qed.

  (** C20.  The shortest path table over the samples near the reference path, looked up
      through the index array: tabulated pairs give their own entry, all other pairs of
      samples raise IndexError. *)
  Theorem lookup_table_faithful : forall (dist_to_path : P -> Q) ss r dg i j p q,
    nth_error ss i = Some p -> nth_error ss j = Some q ->
    let ids := ids_near_path dist_to_path ss r in
    let look := table_lookup (spsp_table dg ids) (lookup_index (length ss) ids) i j in
    ((dist_to_path p <= r)%Q -> (dist_to_path q <= r)%Q -> look = Ok (dg i j)) /\
    (~ ((dist_to_path p <= r)%Q /\ (dist_to_path q <= r)%Q) -> look = Err IndexError).
  Proof.
    intros dp ss r dg i j p q Hi Hj ids look.
    assert (L : forall x, In x ids -> x < length ss).
    { intros x Hx. unfold ids in Hx. apply (ids_near_path_spec dp ss r) in Hx. destruct Hx as (y & Hy & _). eapply nth_error_lt; eauto. }
    destruct (table_lookup_spec dg (length ss) ids i j L) as [T1 T2].
    - apply ids_near_path_NoDup.
    - eapply nth_error_lt; eauto.
    - eapply nth_error_lt; eauto.
    - assert (Ii : In i ids <-> (dp p <= r)%Q).
      { unfold ids. rewrite ids_near_path_spec. split; [|eauto].
        intros (y & Hy & D). assert (y = p) by congruence. now subst. }
      assert (Ij : In j ids <-> (dp q <= r)%Q).
      { unfold ids. rewrite ids_near_path_spec. split; [|eauto].
        intros (y & Hy & D). assert (y = q) by congruence. now subst. }
      split.
      + intros A B. apply T1; [now apply Ii|now apply Ij].
      + intro N. apply T2. destruct (in_dec Nat.eq_dec i ids) as [A|A]; auto.
        right. intro B. apply N. split; [now apply Ii|now apply Ij].
  Qed.

  (** C32.  After reset: growing does exactly what a new roadmap of the current radius
      would do at the same place of the sample stream; queries and radius changes fail. *)
  Theorem full_conn_reset_fresh : forall r pos ops n s t r',
    let st := fc_run dist check smp sp ops (fc_new r pos) in
    (exists pos', S pos' = fc_next st /\ 
       fc_grow dist check smp (fc_reset st) n = fc_grow dist check smp (fc_new (fc_conn_r st) pos') n) /\
    (exists e, fst (fc_query dist check sp (fc_reset st) s t) = Err e) /\
    (exists e, fst (fc_set_radius dist check smp (fc_reset st) r') = Err e).
  Proof.
    intros r pos ops n s t r' st.
    assert (Hn : 1 <= fc_next st).
    { unfold st. assert (G : forall ops st, fc_next st <= fc_next (fc_run dist check smp sp ops st)).
      { clear. induction ops as [|op ops IH]; intro st; simpl; auto.
        eapply Nat.le_trans; [|apply IH]. destruct op; simpl.
        - unfold fc_grow. destruct (fc_samples st) as [s|]; simpl; [|lia]. destruct (n <? length s); simpl; lia.
        - unfold fc_set_radius. destruct (fc_samples st) as [s|]; simpl; [|lia].
          unfold fc_grow. simpl. rewrite Nat.ltb_irrefl. simpl. lia.
        - unfold fc_query. destruct (fc_samples st), (fc_graph st); simpl; try lia.
          destruct (query_best _ _ _ _ _ _ _ _); simpl; lia.
        - lia. }
      specialize (G ops (fc_new r pos)). simpl in G. lia. }
    split; [|split].
    - exists (fc_next st - 1). split; [lia|]. unfold fc_grow, fc_new, fc_reset.
      cbn [fc_samples fc_next fc_conn_r]. replace (S (fc_next st - 1)) with (fc_next st) by lia. reflexivity.
    - eexists. reflexivity.
    - eexists. reflexivity.
  Qed.
End Props.
Print Assumptions full_conn_roadmap_exact.
Print Assumptions full_conn_grow_samples.
Print Assumptions full_conn_rejected_grow_no_effect.
Print Assumptions full_conn_query_optimal.
Print Assumptions full_conn_query_empty_iff_infinite.
Print Assumptions full_conn_query_preserves.
Print Assumptions full_conn_queries_repeatable.
Print Assumptions full_conn_query_symmetric.
Print Assumptions full_conn_monotone.
Print Assumptions query_all_enumerates.
Print Assumptions lookup_table_faithful.
Print Assumptions full_conn_reset_fresh.

(** ** Examples: the hypotheses hold in a concrete setting and the models do something *)

Definition ex_run ops := fc_run zdist wall5 (stream [0; 3; 4; 6; 9; 2]%Z) sp_enum ops (fc_new 3%Q 0).

(** the assumptions on distance and shortest path routine are met *)
Example fc_hypotheses_met :
  (forall p q, 0 <= zdist p q)%Q /\ (forall p q, zdist p q == zdist q p)%Q /\ sp_correct sp_enum.
Proof. split; [exact zdist_nonneg|]. split; [exact zdist_sym|exact sp_enum_correct]. Qed.

(** grow to 4, query, widen the radius, grow to 6: samples 0 3 4 6 9 2; no edge crosses 5;
    self loops are present *)
Example full_conn_roadmap_exact_case :
  let st := ex_run [FGrow 4; FQuery 1%Z 2%Z; FRadius 2%Q; FGrow 6] in
  fc_samples st = Some [0; 3; 4; 6; 9; 2]%Z /\
  map fst (edges_of (fc_graph st)) = [(0,0);(0,5);(1,1);(1,2);(1,5);(2,2);(2,5);(3,3);(4,4);(5,5)].
Proof. vm_compute. auto. Qed.

Example full_conn_query_optimal_case :
  fst (fc_query zdist wall5 sp_enum (ex_run [FGrow 4]) (-2)%Z 4%Z) = Ok (Some 6%Q, [0; 3; 4]%Z) /\
  fst (fc_query zdist wall5 sp_enum (ex_run [FGrow 4]) (-2)%Z 7%Z) = Ok (None, []).
Proof. vm_compute. auto. Qed.

(** C18: the direct motion 100 -> 101 is valid but, with no sample in reach, not used *)
Example full_conn_no_direct_case :
  wall5 100 101 = true /\
  fst (fc_query zdist wall5 sp_enum (ex_run [FGrow 4]) 100%Z 101%Z) = Ok (None, []).
Proof. vm_compute. auto. Qed.

Example full_conn_queries_repeatable_case :
  let st := ex_run [FGrow 4] in
  let st' := fc_run zdist wall5 (stream [0; 3; 4; 6; 9; 2]%Z) sp_enum [FQuery 1 3; FQuery 7 9]%Z st in
  fst (fc_query zdist wall5 sp_enum st' (-2)%Z 4%Z) = fst (fc_query zdist wall5 sp_enum st (-2)%Z 4%Z).
Proof. vm_compute. auto. Qed.

(** two samples and radius 3, then six samples and radius 4 *)
Example full_conn_monotone_case :
  let st := ex_run [FGrow 2] in let st' := ex_run [FGrow 6; FRadius 4%Q] in
  fc_samples st = Some [0; 3]%Z /\ fc_samples st' = Some ([0; 3] ++ [4; 6; 9; 2])%Z /\
  fst (fc_query zdist wall5 sp_enum st (-1)%Z 4%Z) = Ok (Some 5%Q, [0; 3]%Z) /\
  fst (fc_query zdist wall5 sp_enum st' (-1)%Z 4%Z) = Ok (Some 5%Q, [0; 3; 4]%Z).
Proof. vm_compute. auto. Qed.

Example query_all_enumerates_case :
  map snd (query_all zdist free [0; 3; 4; 6]%Z 3%Q 2%Z 5%Z (fun _ _ => Ok None)) =
  [(0,1);(1,1);(2,1);(0,2);(1,2);(2,2);(0,3);(1,3);(2,3)].
Proof. vm_compute. auto. Qed.

Example lookup_table_faithful_case :
  let ss := [0; 3; 4; 6]%Z in let dp := fun z => zdist z 4%Z in
  let ids := ids_near_path dp ss 2%Q in
  ids = [1; 2; 3] /\ lookup_index (length ss) ids = [4; 0; 1; 2] /\
  table_lookup (spsp_table (fun i j => Some (inject_Z (Z.of_nat (10 * i + j)))) ids) (lookup_index (length ss) ids) 3 1
    = Ok (Some 31%Q) /\
  table_lookup (spsp_table (fun i j => Some 1%Q) ids) (lookup_index (length ss) ids) 0 1 = Err IndexError.
Proof. vm_compute. auto. Qed.

Example full_conn_reset_fresh_case :
  let st := fc_reset (ex_run [FGrow 2]) in
  fc_samples (snd (fc_grow zdist wall5 (stream [0; 3; 4; 6; 9; 2]%Z) st 3)) = Some [4; 6; 9]%Z /\
  fst (fc_query zdist wall5 sp_enum st 0%Z 1%Z) = Err TypeError.
Proof. vm_compute. auto. Qed.

Example full_conn_rejected_grow_case :
  fst (fc_grow zdist wall5 (stream []) (ex_run [FGrow 4]) 3) = Err ArithmeticError.
Proof. vm_compute. auto. Qed.
