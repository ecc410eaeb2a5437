(** Properties C13, C14, C16-C18, C21-C28, C69: nearest-neighbour roadmap (prm.py). *)
From Coq Require Import Arith List QArith ZArith Bool Lia.
From Verif Require Import NkGraph_Model NkGraph_Spec NkGraph_Proofs Prm_Model Prm_Spec Sp_Oracle
  PrmQuery_Proofs PrmFc_Proofs PrmNn_Proofs PrmAnn_Inst PrmEx.
Import ListNotations.
Close Scope Q_scope.

Section Props.
  Context {P : Type}.
  Variable dist : P -> P -> Q.
  Variable check : P -> P -> bool.
  Variable smp : nat -> P.
  Variable ann : list P -> nat -> rows.
  Variable sp : sp_oracle.

  (** C21.  The graph built from a neighbour array of one row per sample is the one the
      array describes; an id out of range raises IndexError. *)
  Theorem nn_graph_exact : forall ss (nn : rows) start thr, length nn = length ss ->
    ((forall u v i d, start <= u -> lists_at nn u v i d -> (forall t, thr = Some t -> (d <= t)%Q) ->
        v < length ss) ->
     exists g, nn_to_graph check ss nn start thr = Ok g /\ nn_roadmap check ss nn start thr g) /\
    ((exists u v i d, start <= u /\ lists_at nn u v i d /\ (forall t, thr = Some t -> (d <= t)%Q) /\
        length ss <= v) ->
     nn_to_graph check ss nn start thr = Err IndexError).
  Proof.
    intros ss nn start thr Len. destruct (nn_to_graph_spec check ss nn start thr Len) as [H1 H2]. split.
    - intro R. destruct (H1 R) as (g & E & N & _). eauto.
    - intros (u & v & i & d & A & B & C & D). apply H2. intro R. specialize (R u v i d A B C). lia.
  Qed.

  (** C13, nearest-neighbour roadmap. *)
  Theorem nn_grow_samples : forall st n,
    let old := match nn_samples st with Some s => s | None => [] end in
    let k := n - length old in
    (forall x st', nn_grow check smp ann st n = (Ok x, st') ->
       nn_samples st' = Some (old ++ map smp (seq (nn_next st) k)) /\
       length (old ++ map smp (seq (nn_next st) k)) = n /\ nn_next st' = nn_next st + k) /\
    (nn_samples st <> None -> n <= length old -> fst (nn_grow check smp ann st n) = Err ArithmeticError).
  Proof.
    intros st n old k.
    assert (Reb : forall st0 ss next x st', nn_rebuild check ann st0 ss next n = (Ok x, st') ->
              nn_samples st' = Some ss /\ nn_next st' = next).
    { intros st0 ss next x st' H. unfold nn_rebuild in H.
      destruct (nn_to_graph check ss (ann ss (Nat.min (n - 1) (nn_k st0))) 0 None); [|discriminate].
      destruct (min_last _); [|discriminate].
      destruct (nn_trunc st0); [|inversion H; auto].
      unfold nn_set_radius in H. simpl in H. inversion H; auto. }
    unfold nn_grow, k, old. destruct (nn_samples st) as [s|].
    - destruct (Nat.leb_spec n (length s)) as [L|L]; split; try (intros; auto; fail).
      + intros x st' H. inversion H.
      + intros x st' H. apply Reb in H. destruct H as [-> ->]. split; auto. split; auto.
        rewrite app_length, map_length, seq_length. lia.
      + lia.
    - split; [|intro H; congruence]. intros x st' H. apply Reb in H. destruct H as [-> ->].
      simpl. rewrite Nat.sub_0_r. split; auto. split; auto. now rewrite map_length, seq_length.
  Qed.

  Hypothesis dist_nonneg : forall p q, (0 <= dist p q)%Q.
  Hypothesis dist_sym : forall p q, (dist p q == dist q p)%Q.
  Hypothesis SP : sp_correct sp.

  (** C27.  After any history of calls, failing ones included: no samples and no graph, or
      a graph whose vertices are the sample indices, whose edges are edges of the cached
      master graph and were accepted by the motion check in one direction with the
      neighbour-list distance. *)
  Theorem nn_roadmap_always_valid : ann_shape dist ann ->
    forall k trunc pos ops,
    let st := nn_run dist check smp ann sp ops (nn_new k trunc pos) in
    match nn_samples st with
    | None => nn_graph st = None
    | Some ss => exists nn g c, nn_master st = Some nn /\ nn_graph st = Some g /\ nn_cache st = Some c /\
        wf g /\ vertices_are_samples ss g /\ subgraph g c /\
        forall u v w, edge g u v w ->
          exists p q, nth_error ss u = Some p /\ nth_error ss v = Some q /\ (w == dist p q)%Q /\
            ((check p q = true /\ exists i, lists_at nn u v i w) \/
             (check q p = true /\ exists i, lists_at nn v u i w))
    end.
  Proof.
    intros ANN k trunc pos ops st.
    pose proof (nn_run_inv dist check smp dist_nonneg dist_sym ann ANN sp SP ops _ (nn_new_inv check ann k trunc pos)) as I.
    fold st in I. unfold nn_inv in I. destruct (nn_samples st) as [ss|] eqn:Es; [|tauto].
    destruct I as (kk & g & c & Hm & Hg & Hc & Hn & W & V & S).
    exists (ann ss kk), g, c. split; [auto|]. split; [auto|]. split; [auto|]. split; [auto|]. split; [auto|]. split; [auto|].
    intros u v w E. apply S in E. destruct Hn as (_ & _ & _ & L). apply L in E.
    destruct E as [E|E]; destruct (link_dist dist check _ _ _ _ _ _ _ _ (ANN ss kk) E) as (p & q & Ep & Eq & Ew & C);
    destruct E as (_ & Hl & _).
    - exists p, q. auto 8.
    - exists q, p. split; [auto|]. split; [auto|]. split; [rewrite Ew; apply dist_sym|]. auto.
  Qed.

  (** C17, nearest-neighbour roadmap.  In every reachable state with samples and a usable
      radius (the one set, or else the certified one) a query gives the right answer. *)
  Theorem nn_query_optimal : ann_shape dist ann ->
    forall k trunc pos ops ss r s t,
    let st := nn_run dist check smp ann sp ops (nn_new k trunc pos) in
    nn_samples st = Some ss ->
    (match nn_conn_r st with Some r => Some r | None => nn_cert st end) = Some r ->
    exists g d path, nn_graph st = Some g /\ fst (nn_query dist check sp st s t) = Ok (d, path) /\
      right_answer dist check ss r (edge g) s t d path /\ (path = [] <-> d = None).
  Proof.
    intros ANN k trunc pos ops ss r s t st Es Er.
    pose proof (nn_run_inv dist check smp dist_nonneg dist_sym ann ANN sp SP ops _ (nn_new_inv check ann k trunc pos)) as I.
    fold st in I. pose proof I as I0. unfold nn_inv in I. rewrite Es in I.
    destruct I as (kk & g & c & Hm & Hg & _).
    pose proof (nn_inv_roadmap dist check dist_nonneg dist_sym ann ANN st ss g I0 Es Hg) as RM.
    destruct (query_best_spec dist check dist_nonneg sp ss g r s t SP RM) as (d & path & g' & Eq & R & _).
    exists g, d, path. split; [auto|]. split; [|split; [auto|eapply right_answer_empty; eauto]].
    unfold nn_query. rewrite Es, Er, Hg, Eq. reflexivity.
  Qed.

  (** C16, nearest-neighbour roadmap. *)
  Theorem nn_query_preserves : ann_shape dist ann ->
    forall k trunc pos ops s t,
    let st := nn_run dist check smp ann sp ops (nn_new k trunc pos) in
    let st' := snd (nn_query dist check sp st s t) in
    nn_samples st' = nn_samples st /\ nn_conn_r st' = nn_conn_r st /\ nn_cert st' = nn_cert st /\
    nn_k st' = nn_k st /\ nn_master st' = nn_master st /\ nn_cache st' = nn_cache st /\
    nn_next st' = nn_next st /\
    match nn_graph st, nn_graph st' with
    | Some g, Some g' => same_graph g' g
    | None, None => True
    | _, _ => False
    end.
  Proof.
    intros ANN k trunc pos ops s t st st'.
    pose proof (nn_run_inv dist check smp dist_nonneg dist_sym ann ANN sp SP ops _ (nn_new_inv check ann k trunc pos)) as I.
    fold st in I.
    assert (Refl : nn_samples st = nn_samples st /\ nn_conn_r st = nn_conn_r st /\ nn_cert st = nn_cert st /\
      nn_k st = nn_k st /\ nn_master st = nn_master st /\ nn_cache st = nn_cache st /\ nn_next st = nn_next st /\
      match nn_graph st with Some g => same_graph g g | None => True end).
    { repeat split; auto. destruct (nn_graph st); auto. split; auto. }
    unfold st', nn_query.
    destruct (nn_samples st) as [ss|] eqn:Es.
    2: { simpl. rewrite Es. destruct (nn_graph st); auto. }
    destruct (match nn_conn_r st with Some r => Some r | None => nn_cert st end) as [r|].
    2: { simpl. rewrite Es. destruct (nn_graph st); auto. }
    destruct (nn_graph st) as [g|] eqn:Eg.
    2: { simpl. rewrite Es, Eg. auto. }
    pose proof (nn_inv_roadmap dist check dist_nonneg dist_sym ann ANN st ss g I Es Eg) as RM.
    destruct (query_best_spec dist check dist_nonneg sp ss g r s t SP RM) as (d & path & g' & Eq & R & Sg & _).
    rewrite Eq. simpl. auto 10.
  Qed.

  (** C24.  After a successful grow and then any sequence of radius changes and queries:
      present edges are master edges, and every master edge shorter than the current
      radius is present. *)
  Definition radius_or_query (op : nn_op (P := P)) : Prop :=
    match op with NRadius _ | NQuery _ _ => True | _ => False end.

  Lemma short_run (ANN : ann_shape dist ann) ops : Forall radius_or_query ops -> forall st,
    nn_inv check ann st -> nn_samples st <> None -> short_inv st ->
    let st' := nn_run dist check smp ann sp ops st in
    short_inv st' /\ nn_cache st' = nn_cache st /\ nn_samples st' = nn_samples st /\
    nn_cert st' = nn_cert st /\ nn_master st' = nn_master st.
  Proof.
    induction 1 as [|op ops Hop F IH]; intros st I Hs Sh st'; [unfold st'; simpl; auto|].
    unfold st'. simpl. fold (nn_run dist check smp ann sp ops (nn_step dist check smp ann sp st op)).
    assert (Step : let st1 := nn_step dist check smp ann sp st op in
       short_inv st1 /\ nn_cache st1 = nn_cache st /\ nn_samples st1 = nn_samples st /\
       nn_cert st1 = nn_cert st /\ nn_master st1 = nn_master st).
    { destruct op as [n|r|k|s t|]; simpl in Hop; try tauto; simpl.
      - destruct (nn_set_radius_short check smp st r Sh) as (st1 & E & A & B & C & D & G & H). rewrite E. auto.
      - destruct (nn_samples st) as [ss|] eqn:Es; [|congruence].
        destruct (nn_query_short dist check smp dist_nonneg sp SP st s t ss Es) as (A & B & C & D & G & H); auto.
        + intros g Hg. exact (nn_inv_roadmap dist check dist_nonneg dist_sym ann ANN st ss g I Es Hg).
        + rewrite Es in D. auto. }
    destruct Step as (A & B & C & D & G).
    destruct (IH (nn_step dist check smp ann sp st op)) as (A' & B' & C' & D' & G'); auto.
    - now apply nn_step_inv.
    - congruence.
    - split; [auto|]. repeat split; congruence.
  Qed.

  Theorem nn_short_edges_survive : ann_shape dist ann ->
    forall k trunc pos ops n x st1 ops2,
    nn_grow check smp ann (nn_run dist check smp ann sp ops (nn_new k trunc pos)) n = (Ok x, st1) ->
    Forall radius_or_query ops2 ->
    let st := nn_run dist check smp ann sp ops2 st1 in
    exists g c, nn_graph st = Some g /\ nn_cache st = Some c /\ nn_cache st1 = Some c /\ subgraph g c /\
      forall u v w, edge c u v w -> (forall r, nn_conn_r st = Some r -> (w < r)%Q) -> edge g u v w.
  Proof.
    intros ANN k trunc pos ops n x st1 ops2 Hg F st.
    set (st0 := nn_run dist check smp ann sp ops (nn_new k trunc pos)) in *.
    pose proof (nn_run_inv dist check smp dist_nonneg dist_sym ann ANN sp SP ops _ (nn_new_inv check ann k trunc pos)) as I0.
    fold st0 in I0.
    assert (I1 : nn_inv check ann st1).
    { pose proof (nn_grow_inv dist check smp ann ANN st0 n I0) as H. now rewrite Hg in H. }
    assert (Sh : short_inv st1 /\ nn_samples st1 <> None).
    { unfold nn_grow in Hg. destruct (nn_samples st0) as [old|].
      - destruct (n <=? length old); [discriminate|].
        apply (nn_rebuild_ok dist check smp ann ANN) in Hg.
        destruct Hg as (cert & c & A & _ & _ & _ & _ & _ & _ & _ & _ & _ & _ & _ & B). split; auto. congruence.
      - apply (nn_rebuild_ok dist check smp ann ANN) in Hg.
        destruct Hg as (cert & c & A & _ & _ & _ & _ & _ & _ & _ & _ & _ & _ & _ & B). split; auto. congruence. }
    destruct Sh as [Sh Hs].
    destruct (short_run ANN ops2 F st1 I1 Hs Sh) as (A & B & _). fold st in A, B.
    destruct A as (g & c & Eg & Ec & W & Wc & S & _ & K).
    exists g, c. split; [auto|]. split; [auto|]. split; [congruence|]. split; [auto|].
    intros u v w E L. destruct (nn_conn_r st) as [r|]; auto.
  Qed.

  (** C22.  With exact neighbour lists: after a successful grow and any radius changes and
      queries, every pair of samples closer than the certified radius and than the current
      radius, with a valid motion, is an edge. *)
  Theorem nn_certified_radius_honest : ann_exact dist ann ->
    forall k trunc pos ops n x st1 ops2,
    nn_grow check smp ann (nn_run dist check smp ann sp ops (nn_new k trunc pos)) n = (Ok x, st1) ->
    Forall radius_or_query ops2 ->
    let st := nn_run dist check smp ann sp ops2 st1 in
    exists ss g cert, nn_samples st = Some ss /\ nn_graph st = Some g /\ nn_cert st = Some cert /\
      forall i j p q, nth_error ss i = Some p -> nth_error ss j = Some q -> i <> j ->
        (dist p q < cert)%Q -> (forall r, nn_conn_r st = Some r -> (dist p q < r)%Q) -> check p q = true ->
        exists w, edge g i j w /\ (w == dist p q)%Q.
  Proof.
    intros ANX k trunc pos ops n x st1 ops2 Hg F st.
    pose proof (exact_shape dist ann ANX) as ANN.
    set (st0 := nn_run dist check smp ann sp ops (nn_new k trunc pos)) in *.
    pose proof (nn_run_inv dist check smp dist_nonneg dist_sym ann ANN sp SP ops _ (nn_new_inv check ann k trunc pos)) as I0.
    fold st0 in I0.
    assert (I1 : nn_inv check ann st1).
    { pose proof (nn_grow_inv dist check smp ann ANN st0 n I0) as H. now rewrite Hg in H. }
    assert (Sh : exists ss kk cert c, nn_samples st1 = Some ss /\ nn_cert st1 = Some cert /\ nn_cache st1 = Some c /\
              min_last (ann ss kk) = Some cert /\ nn_roadmap check ss (ann ss kk) 0 None c /\ short_inv st1).
    { unfold nn_grow in Hg. destruct (nn_samples st0) as [old|].
      - destruct (n <=? length old); [discriminate|].
        apply (nn_rebuild_ok dist check smp ann ANN) in Hg.
        destruct Hg as (cert & c & A1 & A2 & A3 & _ & A4 & _ & _ & A5 & _ & _ & _ & _ & B). eauto 12.
      - apply (nn_rebuild_ok dist check smp ann ANN) in Hg.
        destruct Hg as (cert & c & A1 & A2 & A3 & _ & A4 & _ & _ & A5 & _ & _ & _ & _ & B). eauto 12. }
    destruct Sh as (ss & kk & cert & c & A1 & A2 & A3 & A4 & A5 & Sh).
    destruct (short_run ANN ops2 F st1 I1) as (B1 & B2 & B3 & B4 & B5); auto; [congruence|].
    fold st in B1, B2, B3, B4, B5.
    destruct B1 as (g & c' & Eg & Ec & W & Wc & S & _ & K).
    assert (c' = c) by congruence. subst c'.
    exists ss, g, cert. split; [congruence|]. split; [auto|]. split; [congruence|].
    intros i j p q Hi Hj Hij D Dr C.
    destruct (certified_pairs dist check dist_sym ss _ _ cert c i j p q (ANX ss kk) A4 A5 Hi Hj Hij D C) as (w & E & Ew).
    exists w. split; auto. destruct (nn_conn_r st) as [r|]; auto.
    apply K; auto. rewrite Ew. auto.
  Qed.

  (** C23, second half.  A successful radius change stores the radius, removes nothing
      shorter than it, and adds nothing that the master graph does not have. *)
  Theorem nn_set_radius_keeps_short : ann_shape dist ann ->
    forall k trunc pos ops r st' g,
    let st := nn_run dist check smp ann sp ops (nn_new k trunc pos) in
    nn_graph st = Some g -> nn_set_radius st r = (Ok tt, st') ->
    nn_conn_r st' = Some r /\ exists g' c, nn_graph st' = Some g' /\ nn_cache st = Some c /\
      subgraph g' c /\ (forall u v w, edge g u v w -> (w < r)%Q -> edge g' u v w).
  Proof.
    intros ANN k trunc pos ops r st' g st Eg H.
    pose proof (nn_run_inv dist check smp dist_nonneg dist_sym ann ANN sp SP ops _ (nn_new_inv check ann k trunc pos)) as I.
    fold st in I. unfold nn_inv in I. destruct (nn_samples st) as [ss|] eqn:Es; [|destruct I; congruence].
    destruct I as (kk & g0 & c & Hm & Hg & Hc & Hn & W & V & S). assert (g0 = g) by congruence. subst g0.
    unfold nn_set_radius in H. destruct (nn_cert st); [|discriminate].
    destruct (match nn_conn_r st with Some c1 => Qgtb r c1 | None => false end).
    - rewrite Hc in H. inversion H; subst. simpl. split; auto.
      assert (Wc : wf c) by apply Hn.
      destruct (prune_live_short check smp r c c Wc) as (W' & S' & K'); [red; auto|].
      exists (prune_live r c), c. split; auto.
    - rewrite Eg in H. inversion H; subst. simpl. split; auto.
      destruct (prune_live_short check smp r g c W S) as (W' & S' & K').
      exists (prune_live r g), c. split; auto.
  Qed.

  (** C25.  A successful change of k keeps, of the graph it starts from (the cached master
      graph when k grows, else the current graph), exactly the edges neither of whose
      endpoints lists the other at position k or later; it is rejected with
      ArithmeticError iff k exceeds the construction value. *)
  Theorem nn_set_k_exact : ann_shape dist ann ->
    forall k0 trunc pos ops k,
    let st := nn_run dist check smp ann sp ops (nn_new k0 trunc pos) in
    (fst (nn_set_k st k) = Err ArithmeticError <-> k0 < k) /\
    forall ss st', nn_samples st = Some ss -> nn_set_k st k = (Ok tt, st') ->
      exists nn g0 g', nn_master st = Some nn /\ nn_k st' = k /\ nn_graph st' = Some g' /\
        (if nn_k st <? k then nn_cache st else nn_graph st) = Some g0 /\
        forall u v w, edge g' u v w <->
          edge g0 u v w /\ (forall i d, lists_at nn u v i d -> i < k) /\ (forall i d, lists_at nn v u i d -> i < k).
  Proof.
    intros ANN k0 trunc pos ops k st.
    pose proof (nn_run_inv dist check smp dist_nonneg dist_sym ann ANN sp SP ops _ (nn_new_inv check ann k0 trunc pos)) as I.
    fold st in I.
    assert (Mk : nn_max_k st = k0).
    { unfold st. assert (G : forall ops st, nn_max_k (nn_run dist check smp ann sp ops st) = nn_max_k st).
      { clear. induction ops as [|op ops IH]; intro st; simpl; auto.
        fold (nn_run dist check smp ann sp ops (nn_step dist check smp ann sp st op)). rewrite IH.
        assert (SR : forall st r, nn_max_k (snd (nn_set_radius (P := P) st r)) = nn_max_k st).
        { clear. intros st r. unfold nn_set_radius. destruct (nn_cert st); auto.
          destruct (match nn_conn_r st with Some c1 => Qgtb r c1 | None => false end);
            [destruct (nn_cache st)|destruct (nn_graph st)]; auto. }
        assert (RB : forall st ss next n, nn_max_k (snd (nn_rebuild check ann st ss next n)) = nn_max_k st).
        { clear - SR. intros. unfold nn_rebuild. destruct (nn_to_graph _ _ _ _ _); auto.
          destruct (min_last _) as [cert|]; auto. destruct (nn_trunc st); auto. }
        destruct op; simpl.
        - unfold nn_grow. destruct (nn_samples st) as [old|]; [destruct (n <=? length old)|]; auto; rewrite RB; auto.
        - apply SR.
        - unfold nn_set_k. destruct (nn_max_k st <? k); auto.
          destruct (if nn_k st <? k then _ else _) as [go|]; auto.
          destruct (nn_master st) as [nn|]; auto. destruct (throw_away nn k), go; auto.
        - unfold nn_query. destruct (nn_samples st); auto.
          destruct (match nn_conn_r st with Some r => Some r | None => nn_cert st end); auto.
          destruct (nn_graph st); auto. destruct (query_best _ _ _ _ _ _ _ _); auto.
        - auto. }
      now rewrite G. }
    split.
    - unfold nn_set_k. rewrite Mk. destruct (Nat.ltb_spec k0 k) as [L|L]; [tauto|].
      split; [|lia]. intro H. exfalso. revert H.
      destruct (nn_k st <? k).
      + destruct (nn_cache st); [|discriminate]. destruct (nn_master st) as [nn|]; [|discriminate].
        destruct (throw_away nn k); discriminate.
      + destruct (nn_master st) as [nn|]; [|discriminate].
        destruct (throw_away nn k), (nn_graph st); discriminate.
    - intros ss st' Es H. unfold nn_inv in I. rewrite Es in I.
      destruct I as (kk & g & c & Hm & Hg & Hc & Hn & W & V & S).
      assert (Wc : wf c) by apply Hn.
      unfold nn_set_k in H. destruct (nn_max_k st <? k); [discriminate|].
      assert (H0 : exists g0, (if nn_k st <? k
                  then match nn_cache st with Some g => Ok (Some g) | None => Err FileError end
                  else Ok (nn_graph st)) = Ok (Some g0) /\ wf g0 /\
                  (if nn_k st <? k then nn_cache st else nn_graph st) = Some g0).
      { destruct (nn_k st <? k); [rewrite Hc; eauto|rewrite Hg; eauto]. }
      destruct H0 as (g0 & E0 & W0 & E0'). rewrite E0, Hm in H.
      destruct (drop_edges_spec check smp (throw_away (ann ss kk) k) g0 W0) as (W1 & A1 & U1 & S1).
      exists (ann ss kk), g0, (drop_edges (throw_away (ann ss kk) k) g0).
      assert (Res : nn_k st' = k /\ nn_graph st' = Some (drop_edges (throw_away (ann ss kk) k) g0)).
      { destruct (throw_away (ann ss kk) k) as [|e es]; injection H as H; rewrite <- H; auto. }
      destruct Res as [Rk Rg]. split; [auto|]. split; [auto|]. split; [auto|]. split; [auto|].
      intros u v w. rewrite S1, !(throw_away_In check smp). split.
      + intros (E & N1 & N2). split; auto. split; intros i d Hl.
        * destruct (Nat.lt_ge_cases i k); auto. exfalso. apply N1. eauto.
        * destruct (Nat.lt_ge_cases i k); auto. exfalso. apply N2. eauto.
      + intros (E & N1 & N2). split; auto. split.
        * intros (i & d & L & Hl). apply N1 in Hl. lia.
        * intros (i & d & L & Hl). apply N2 in Hl. lia.
  Qed.

  (** C26, the half that holds.  If asking the neighbour routine for fewer neighbours gives
      prefixes of the longer lists, reducing k after a grow leaves a subgraph of the graph
      a fresh roadmap with the smaller k builds from the same samples. *)
  Theorem nn_reduce_k_subgraph_of_rebuild : ann_shape dist ann ->
    (forall ss k k', k <= k' -> ann ss k = map (firstn k) (ann ss k')) ->
    forall K k pos n x1 st1 st2 x3 st3, k <= K ->
    nn_grow check smp ann (nn_new K false pos) n = (Ok x1, st1) ->
    nn_set_k st1 k = (Ok tt, st2) ->
    nn_grow check smp ann (nn_new k false pos) n = (Ok x3, st3) ->
    exists g2 g3, nn_graph st2 = Some g2 /\ nn_graph st3 = Some g3 /\
      nn_samples st2 = nn_samples st3 /\
      forall u v w, edge g2 u v w -> exists w', edge g3 u v w' /\ (w' == w)%Q.
  Proof.
    intros ANN Pre K k pos n x1 st1 st2 x3 st3 Hk G1 G2 G3.
    assert (E1 := G1). assert (E3 := G3).
    unfold nn_grow in G1, G3. simpl in G1, G3.
    apply (nn_rebuild_ok dist check smp ann ANN) in G1.
    apply (nn_rebuild_ok dist check smp ann ANN) in G3. simpl in G1, G3.
    set (ss := draw smp (S pos) n) in *.
    set (a := Nat.min (n - 1) K) in *. set (b := Nat.min (n - 1) k) in *.
    destruct G1 as (cert & c & A1 & A2 & A3 & _ & A4 & A5 & A6 & A7 & A8 & _ & A10 & A11 & _).
    destruct G3 as (cert3 & c3 & B1 & B2 & B3 & _ & B4 & B5 & B6 & B7 & B8 & _).
    destruct (A8 eq_refl) as (A9 & _). destruct (B8 eq_refl) as (B9 & _).
    assert (Wc : wf c) by apply A7.
    unfold nn_set_k in G2. rewrite A11, A10 in G2.
    destruct (K <? k) eqn:Ek; [apply Nat.ltb_lt in Ek; lia|]. rewrite A9, A5 in G2.
    set (es := throw_away (ann ss a) k) in *.
    assert (R2 : nn_graph st2 = Some (drop_edges es c) /\ nn_samples st2 = Some ss).
    { destruct es; inversion G2; subst; simpl; split; auto. }
    destruct R2 as [R2 R2s].
    exists (drop_edges es c), c3. split; [auto|]. split; [auto|]. split; [congruence|].
    intros u v w E. destruct (drop_edges_spec check smp es c Wc) as (_ & _ & _ & S).
    apply S in E. destruct E as (E & N1 & N2).
    assert (Prefix : ann ss b = map (firstn b) (ann ss a)) by (apply Pre; unfold a, b; lia).
    assert (Lk : forall x y d, nn_link check ss (ann ss a) 0 None x y d -> ~ In (x, y) es ->
                  nn_link check ss (ann ss b) 0 None x y d).
    { intros x y d (L0 & (i & row & Hr & Hi) & T & C) Nin. split; auto. split; [|auto].
      exists i, (firstn b row). split.
      - rewrite Prefix. now apply map_nth_error.
      - assert (Hik : i < k).
        { destruct (Nat.lt_ge_cases i k); auto. exfalso. apply Nin. apply (throw_away_In check smp). exists i, d. split; auto.
          exists row. auto. }
        assert (Hia : i < Nat.min a (length ss - 1)).
        { destruct (ANN ss a) as (_ & Len & _). specialize (Len row (nth_error_In _ _ Hr)).
          apply nth_error_lt in Hi. lia. }
        assert (Hib : i < b) by (unfold a, b in *; lia).
        clear - Hi Hib. revert i row Hi Hib. generalize b. clear. induction b as [|b IH]; intros i row Hi L; [lia|].
        destruct row; [destruct i; discriminate|]. destruct i; simpl in *; auto. apply IH; auto. lia. }
    destruct A7 as (_ & _ & _ & A7). apply A7 in E as E'.
    assert (H3 : exists w', edge c3 u v w').
    { destruct B7 as (_ & _ & B7 & _). apply B7. destruct E' as [E'|E'].
      - exists w. left. auto.
      - exists w. right. auto. }
    destruct H3 as [w' H3]. exists w'. split; auto.
    destruct (nn_roadmap_weight dist check dist_sym ss _ _ 0 None c3 u v w' (ANN ss b) B7 H3) as (p & q & Ep & Eq & Ew).
    destruct E' as [E'|E']; destruct (link_dist dist check _ _ _ _ _ _ _ _ (ANN ss a) E') as (p' & q' & Ep' & Eq' & Ew' & _).
    - rewrite Ew, Ew'. assert (p' = p) by congruence. assert (q' = q) by congruence. subst. reflexivity.
    - rewrite Ew, Ew'. assert (p' = q) by congruence. assert (q' = p) by congruence. subst. apply dist_sym.
  Qed.
End Props.
Print Assumptions nn_graph_exact.
Print Assumptions nn_grow_samples.
Print Assumptions nn_roadmap_always_valid.
Print Assumptions nn_query_optimal.
Print Assumptions nn_query_preserves.
Print Assumptions nn_short_edges_survive.
Print Assumptions nn_certified_radius_honest.
Print Assumptions nn_set_radius_keeps_short.
Print Assumptions nn_set_k_exact.
Print Assumptions nn_reduce_k_subgraph_of_rebuild.

(** C23 if the edges were iterated over a snapshot (not what the code does). *)
Theorem snapshot_prune_exact : forall r g, wf g ->
  forall u v w, edge (prune_snapshot r g) u v w <-> edge g u v w /\ (w < r)%Q.
Proof.
  intros r g W u v w. destruct (prune_snapshot_spec r g W) as [_ H]. rewrite H.
  split; intros [E L]; split; auto.
  - now apply Qnot_le_lt.
  - now apply Qlt_not_le.
Qed.
Print Assumptions snapshot_prune_exact.

(** C32, nearest-neighbour roadmap.  After a reset radius changes and queries fail, and
    growing gives what a new roadmap with the current k gives on the same upcoming states. *)
Theorem nn_reset_fresh : forall {P} (dist : P -> P -> Q) check smp ann sp (st : nn_state (P := P)) n pos,
  nn_next st = S pos ->
  let a := nn_grow check smp ann (nn_reset st) n in
  let b := nn_grow check smp ann (nn_new (nn_k st) (nn_trunc st) pos) n in
  (forall r, fst (nn_set_radius (nn_reset st) r) = Err TypeError) /\
  (forall s t, fst (nn_query dist check sp (nn_reset st) s t) = Err TypeError) /\
  fst a = fst b /\ nn_samples (snd a) = nn_samples (snd b) /\ nn_graph (snd a) = nn_graph (snd b) /\
  nn_cert (snd a) = nn_cert (snd b) /\ nn_conn_r (snd a) = nn_conn_r (snd b) /\
  nn_cache (snd a) = nn_cache (snd b) /\ nn_k (snd a) = nn_k (snd b) /\ nn_next (snd a) = nn_next (snd b).
Proof.
  intros P dist check smp ann sp st n pos Hp. cbv zeta.
  split; [reflexivity|]. split; [reflexivity|].
  unfold nn_grow, nn_reset, nn_new. cbn [nn_samples nn_next]. rewrite Hp.
  unfold nn_rebuild. cbn [nn_k nn_trunc nn_cert nn_cache nn_graph nn_conn_r nn_master nn_max_k].
  destruct (nn_to_graph _ _ _ _ _) as [g|e]; [|cbn; repeat split].
  destruct (min_last _) as [c|]; [|cbn; repeat split].
  destruct (nn_trunc st); cbn; repeat split.
Qed.
Print Assumptions nn_reset_fresh.

(** ** Examples and refutations: integers on a line, brute-force neighbours, enumerated
       shortest paths *)

Definition nrun ss k trunc ops := nn_run zdist free (stream ss) zann sp_enum ops (nn_new k trunc 0).

Example nn_hypotheses_met :
  ann_exact zdist zann /\ ann_shape zdist zann /\
  (forall ss k k', k <= k' -> zann ss k = map (firstn k) (zann ss k')).
Proof.
  split; [apply brute_ann_exact|]. split; [apply exact_shape, brute_ann_exact|apply brute_prefix].
Qed.

Example nn_graph_exact_case :
  (exists g, nn_to_graph rightward [0; 1; 3]%Z (zann [0; 1; 3]%Z 2) 0 (Some 2%Q) = Ok g /\
             map fst (edge_list g) = [(0, 1); (1, 2)]) /\
  nn_to_graph rightward [0; 1; 3]%Z [[(1, 1%Q)]; [(7, 1%Q)]; []] 0 None = Err IndexError.
Proof. split; [|reflexivity]. eexists. split; [reflexivity|vm_compute; reflexivity]. Qed.

(** grow, shrink the radius, query, widen it again: the short edges are back *)
Example nn_short_edges_case :
  let st := nrun [0; 1; 3; 7; 20]%Z 2 false [NGrow 4; NRadius (3 # 2)%Q; NQuery 0%Z 4%Z; NRadius (5 # 1)%Q] in
  map fst (edges_of (nn_graph st)) = [(0, 1); (0, 2); (1, 2); (2, 3)] /\ nn_cert st = Some 2%Q.
Proof. vm_compute. auto. Qed.

Example nn_trunc_case :
  let st := nrun [0; 1; 3; 7; 20]%Z 2 true [NGrow 4] in
  nn_conn_r st = Some 2%Q /\ In (0, 1) (map fst (edges_of (nn_graph st))) /\
  fst (nn_query zdist free sp_enum st (-1)%Z 2%Z) = Ok (Some 3%Q, [0; 1]%Z).
Proof. vm_compute. auto. Qed.

Example nn_reset_case :
  let st := nrun [0; 1; 3; 7; 20; 4; 2]%Z 2 false [NGrow 4; NK 1; NReset] in
  nn_next st = 5 /\ fst (nn_query zdist free sp_enum st 0%Z 1%Z) = Err TypeError /\
  nn_samples (snd (nn_grow free (stream [0; 1; 3; 7; 20; 4; 2]%Z) zann st 3)) = Some [20; 4; 2]%Z.
Proof. vm_compute. auto. Qed.

Example nn_set_k_case :
  let st := nrun [0; 1; 3; 7; 20]%Z 2 false [NGrow 4; NK 1] in
  nn_k st = 1 /\ map fst (edges_of (nn_graph st)) = [(0, 1); (2, 3)] /\
  fst (nn_set_k st 3) = Err ArithmeticError.
Proof. vm_compute. auto. Qed.

(** C14 is false for this roadmap: after a rejected grow the radius is forgotten, and a
    query that found nothing now finds a path through a longer connection. *)
Theorem nn_rejected_grow_no_effect_refuted :
  exists (ss : list Z) k ops n s t,
    let st := nrun ss k false ops in
    let st' := snd (nn_grow free (stream ss) zann st n) in
    fst (nn_grow free (stream ss) zann st n) = Err ArithmeticError /\
    nn_conn_r st <> nn_conn_r st' /\
    fst (nn_query zdist free sp_enum st s t) = Ok (None, []) /\
    exists d p, fst (nn_query zdist free sp_enum st' s t) = Ok (Some d, p).
Proof.
  exists [0; 2; 4]%Z, 1, [NGrow 3; NRadius 1%Q], 2, (-2)%Z, 2%Z. cbv zeta.
  split; [vm_compute; reflexivity|]. split; [vm_compute; discriminate|].
  split; [vm_compute; reflexivity|]. vm_compute. eauto.
Qed.
Print Assumptions nn_rejected_grow_no_effect_refuted.

(** C23, first half, is false: an edge at least as long as the new radius survives,
    because removing an edge during the iteration makes the iterator skip the next one. *)
Theorem nn_set_radius_removes_long_refuted :
  exists (ss : list Z) k ops r g u v w,
    let st := nrun ss k false ops in
    fst (nn_set_radius st r) = Ok tt /\ nn_graph (snd (nn_set_radius st r)) = Some g /\
    edge g u v w /\ (r <= w)%Q.
Proof.
  exists [0; 10; -11]%Z, 2, [NGrow 3], 5%Q. eexists. exists 0, 2, 11%Q. cbv zeta.
  split; [vm_compute; reflexivity|]. split; [reflexivity|]. split; [|vm_compute; discriminate].
  vm_compute. auto.
Qed.
Print Assumptions nn_set_radius_removes_long_refuted.

(** C24 does not extend to histories with a rejected grow: the radius is forgotten but
    the pruned graph stays, so widening the radius does not reload the master graph. *)
Theorem nn_short_edges_after_rejected_grow_refuted :
  exists (ss : list Z) k ops g c r u v w,
    let st := nrun ss k false ops in
    nn_graph st = Some g /\ nn_cache st = Some c /\ nn_conn_r st = Some r /\
    edge c u v w /\ (w < r)%Q /\ ~ edge g u v w.
Proof.
  exists [0; 1; 3]%Z, 2, [NGrow 3; NRadius 1%Q; NGrow 2; NRadius 5%Q]. eexists. eexists.
  exists 5%Q, 0, 1, 1%Q. cbv zeta.
  split; [reflexivity|]. split; [reflexivity|]. split; [vm_compute; reflexivity|].
  split; [vm_compute; auto|]. split; [vm_compute; auto|].
  vm_compute. intuition discriminate.
Qed.
Print Assumptions nn_short_edges_after_rejected_grow_refuted.

(** C26 is false: reducing k to 1 loses the edge {1,2}, which a roadmap built with k = 1
    has. *)
Theorem nn_reduce_k_is_rebuild_refuted :
  exists (ss : list Z) K k g2 g3 u v w,
    nn_graph (nrun ss K false [NGrow 3; NK k]) = Some g2 /\
    nn_graph (nrun ss k false [NGrow 3]) = Some g3 /\
    edge g3 u v w /\ ~ exists w', edge g2 u v w'.
Proof.
  exists [0; 1; 3]%Z, 2, 1. eexists. eexists. exists 1, 2, 2%Q.
  split; [reflexivity|]. split; [reflexivity|]. split; [vm_compute; auto|].
  intros [w' E]. revert E. vm_compute. intuition discriminate.
Qed.
Print Assumptions nn_reduce_k_is_rebuild_refuted.

(** C28 is false: same samples, radius and k, reached by different call orders, different
    edges. *)
Theorem nn_settings_order_independent_refuted :
  exists (ss : list Z) k ops ops' g g' u v w,
    let st := nrun ss k false ops in let st' := nrun ss k false ops' in
    nn_samples st = nn_samples st' /\ nn_conn_r st = nn_conn_r st' /\ nn_k st = nn_k st' /\
    nn_graph st = Some g /\ nn_graph st' = Some g' /\ edge g u v w /\ ~ exists w', edge g' u v w'.
Proof.
  exists [0; 1; 3]%Z, 2, [NGrow 3; NRadius 2%Q; NK 1; NK 2], [NGrow 3; NK 1; NK 2; NRadius 2%Q].
  eexists. eexists. exists 0, 2, 3%Q. cbv zeta.
  split; [vm_compute; reflexivity|]. split; [vm_compute; reflexivity|]. split; [vm_compute; reflexivity|].
  split; [reflexivity|]. split; [reflexivity|]. split; [vm_compute; auto|].
  intros [w' E]. revert E. vm_compute. intuition discriminate.
Qed.
Print Assumptions nn_settings_order_independent_refuted.
