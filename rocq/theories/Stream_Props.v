(** Properties C136-C138: the motion stream of the turtlebot planner
    (exps/tamp_environment/turtlebot_move/streams.py, get_anytime_motion_fn). *)
From Coq Require Import Arith List QArith ZArith Bool Lia Lqa.
From Verif Require Import NkGraph_Model NkGraph_Spec NkGraph_Proofs Prm_Model Prm_Spec Sp_Oracle
  PrmQuery_Proofs PrmFc_Proofs PrmNn_Proofs PrmAnn_Inst PrmEx Anytime_Model Stream_Model.
Import ListNotations.
Close Scope Q_scope.
Local Open Scope nat_scope.

(** * Specification *)
Section Spec.
  Context {P : Type}.
  Variable dist : P -> P -> Q.
  Variable verdicts : list (P * P) -> option (list bool).

  (** the checker, called on the array [batch], accepts the motion m *)
  Definition judged (batch : list (P * P)) (m : P * P) : Prop :=
    exists vs i, verdicts batch = Some vs /\ nth_error batch i = Some m /\ nth_error vs i = Some true.

  (** the checker answers every nonempty array, a motion's verdict not depending on its place,
      and raises on the empty one *)
  Definition array_checker : Prop :=
    verdicts [] = None /\ forall b, b <> [] -> exists c, verdicts b = Some (map c b).

  (** the samples within r of q *)
  Definition near (ss : list P) (r : Q) (q : P) : list P := filter (fun p => Qle_bool (dist p q) r) ss.
  (** the motions from every sample to its listed neighbours *)
  Definition neighbour_motions (ss : list P) (nn : rows) : list (P * P) :=
    flat_map (fun pr => flat_map (fun vd => match nth_error ss (fst vd) with Some q => [(fst pr, q)] | None => [] end) (snd pr))
      (combine ss nn).

  (** sample i can be entered from the query point q *)
  Definition entered (ss : list P) (r : Q) (q : P) (i : nat) : Prop :=
    exists p, nth_error ss i = Some p /\ (dist p q <= r)%Q /\ judged (map (fun p => (q, p)) (near ss r q)) (q, p).
  (** u lists v and the motion was accepted *)
  Definition listed (ss : list P) (nn : rows) (u v : nat) : Prop :=
    (exists i d, lists_at nn u v i d) /\
    exists p q, nth_error ss u = Some p /\ nth_error ss v = Some q /\ judged (neighbour_motions ss nn) (p, q).
  Definition joined ss nn u v : Prop := listed ss nn u v \/ listed ss nn v u.

  Fixpoint chain (ss : list P) (nn : rows) (ids : list nat) : Prop :=
    match ids with
    | u :: ((v :: _) as rest) => joined ss nn u v /\ chain ss nn rest
    | _ => True
    end.
  (** a way from s to t through the roadmap *)
  Definition route (ss : list P) (nn : rows) (r : Q) (s t : P) (ids : list nat) : Prop :=
    exists a, hd_error ids = Some a /\ entered ss r s a /\ chain ss nn ids /\ entered ss r t (last ids a).
  (** length of a polyline *)
  Fixpoint tour (l : list P) : Q :=
    match l with
    | p :: ((q :: _) as rest) => (dist p q + tour rest)%Q
    | _ => 0%Q
    end.
  (** the least distance to a last neighbour *)
  Definition least_last (nn : rows) (r : Q) : Prop :=
    (exists l x, In (l ++ [(x, r)]) nn) /\ forall l x d, In (l ++ [(x, d)]) nn -> (r <= d)%Q.

  (** ** One attempt, with the samples [ss] and their neighbour lists [nn] *)
  (** the checker is called on an empty array *)
  Definition attempt_raises ss nn s t : Prop :=
    neighbour_motions ss nn = [] \/
    exists r, least_last nn r /\ (near ss r s = [] \/ near ss r t = []).
  Definition attempt_fails ss nn s t : Prop :=
    exists r, least_last nn r /\ near ss r s <> [] /\ near ss r t <> [] /\ forall ids, ~ route ss nn r s t ids.
  Definition attempt_solves ss nn s t (mids : list P) : Prop :=
    exists r ids, least_last nn r /\ route ss nn r s t ids /\ visits ss ids mids /\
      forall ids' mids', route ss nn r s t ids' -> visits ss ids' mids' ->
        (tour ([s] ++ mids ++ [t]) <= tour ([s] ++ mids' ++ [t]))%Q.
End Spec.

(** the i-th count: [min_samples] multiplied i times by [factor] *)
Definition count (min_samples : Z) (factor : Q) (i : nat) : Q := Nat.iter i (fun x => (x * factor)%Q) (inject_Z min_samples).
Definition size (min_samples : Z) (factor : Q) (i : nat) : nat := Z.to_nat (Qint (count min_samples factor i)).

(** * A query with given entries *)
Section Lists.
  Context {P : Type}.
  Variable dist : P -> P -> Q.

  Lemma query_lists_spec sp (ss : list P) g ls lg : sp_correct sp -> roadmap ss g ->
    NoDup (map fst ls) -> NoDup (map fst lg) ->
    (forall i d, In (i, d) ls -> i < length ss /\ (0 <= d)%Q) -> (forall i d, In (i, d) lg -> i < length ss /\ (0 <= d)%Q) ->
    exists g3 i_s i_g, loop_in g ls lg = (g3, i_s, i_g) /\
      same_graph (remove_node (remove_node g3 i_s) i_g) g /\
      match sp g3 i_s i_g with
      | None => forall a l c ds dt, In (a, ds) ls -> trail (edge g) (a :: l) c -> In (last l a, dt) lg -> False
      | Some (d, mid) =>
          (exists a l c ds dt ps, mid = a :: l /\ In (a, ds) ls /\ trail (edge g) (a :: l) c /\ In (last l a, dt) lg /\
             (d == ds + c + dt)%Q /\ take_rows ss mid = Ok ps /\ visits ss mid ps) /\
          forall a l c ds dt, In (a, ds) ls -> trail (edge g) (a :: l) c -> In (last l a, dt) lg -> (d <= ds + c + dt)%Q
      end.
  Proof.
    intros SP RM Ns Ng Hs0 Hg0.
    assert (Ls : forall i d, In (i, d) ls -> i < length ss) by (intros i d H; apply (Hs0 i d H)).
    assert (Lg : forall i d, In (i, d) lg -> i < length ss) by (intros i d H; apply (Hg0 i d H)).
    rewrite loop_in_eq.
    set (i_g := S (g_upper g)). set (i_s := g_upper g).
    set (g3 := attach i_g lg (attach i_s ls (fst (add_nodes g 2)))).
    exists g3, i_s, i_g. split; [reflexivity|].
    assert (W3 : wf g3) by (apply (wf_g3 ss g RM ls lg); auto).
    assert (Hsg : i_s <> i_g) by (unfold i_s, i_g; lia).
    assert (P3 : forall u v w, edge g3 u v w -> (0 <= w)%Q).
    { intros u v w E. apply (edge_g3 g ls lg) in E.
      destruct E as [E|[[_ E]|[[_ E]|[[_ E]|[_ E]]]]]; [eapply rm_pos; eauto|..].
      - apply (Hs0 _ _ E). - apply (Hs0 _ _ E). - apply (Hg0 _ _ E). - apply (Hg0 _ _ E). }
    assert (Sol : forall a l c ds dt, In (a, ds) ls -> trail (edge g) (a :: l) c -> In (last l a, dt) lg ->
              exists c', trail (edge g3) (i_s :: (a :: l) ++ [i_g]) c' /\ (c' == ds + c + dt)%Q).
    { intros a l c ds dt Es T Et. destruct (trail_join g ls lg l a c dt T Et) as (c2 & T2 & E2).
      exists (ds + c2)%Q. split.
      - cbn [app]. constructor; auto. apply (edge_g3 g ls lg). auto.
      - rewrite E2. ring. }
    specialize (SP g3 i_s i_g W3 P3 Hsg).
    split; [apply (restored ss g RM ls lg Ns Ng Ls Lg)|].
    destruct (sp g3 i_s i_g) as [[d mid]|].
    - destruct SP as (N & (c & T & Ec) & Min). split.
      + assert (Hs : ~ In i_s mid). { inversion N; subst. intro H. apply H1. apply in_or_app; auto. }
        assert (Hg : ~ In i_g mid). { inversion N; subst. intro H. apply NoDup_remove_2 in H2. rewrite app_nil_r in H2. auto. }
        destruct mid as [|a mid].
        { exfalso. simpl in T. inversion T; subst. apply (no_direct ss g RM ls lg Ls Lg) in H3. auto. }
        simpl in T. inversion T; subst.
        destruct (trail_tail ss g RM ls lg mid a c0 Hs Hg H4) as (c1 & w2 & T1 & Hw2 & E2).
        assert (Hw : In (a, w) ls).
        { apply (edge_g3 g ls lg) in H3. fold i_s i_g in H3. simpl in Hs, Hg.
          destruct H3 as [E|[[_ E]|[[E _]|[[E _]|[E _]]]]]; auto; try tauto; try congruence.
          exfalso. apply (no_edge_fresh ss g RM i_s a w); auto. }
        assert (Hlast : last mid a < length ss) by (eapply Lg; eauto).
        assert (Hmid : forall i, In i (a :: mid) -> i < length ss).
        { intros i Hi. destruct mid as [|b mid].
          - destruct Hi as [->|[]]. auto.
          - eapply (roadmap_trail_range ss g RM _ _ T1); eauto. simpl; lia. }
        destruct (take_rows_ok ss (a :: mid) Hmid) as (ps & Eps & V).
        exists a, mid, c1, w, w2, ps. repeat split; auto. rewrite Ec, E2. ring.
      + intros a l c' ds dt Es T' Et. destruct (Sol a l c' ds dt Es T' Et) as (c2 & T2 & E3). rewrite <- E3. eapply Min; eauto.
    - intros a l c ds dt Es T Et. destruct (Sol a l c ds dt Es T Et) as (c2 & T2 & _). eapply SP; eauto.
  Qed.
End Lists.

(** * The calls of the checker *)
Section Calls.
  Context {P : Type}.
  Variable dist : P -> P -> Q.
  Variable verdicts : list (P * P) -> option (list bool).
  Hypothesis CH : array_checker verdicts.

  Lemma mask_map {A} (l : list A) (f : A -> bool) : mask l (map f l) = filter f l.
  Proof.
    unfold mask. induction l as [|x l IH]; simpl; auto. destruct (f x); simpl; now rewrite IH.
  Qed.
  Lemma mask_map_snd {A B} (l : list A) (h : A -> B) (f : B -> bool) : mask l (map f (map h l)) = filter (fun x => f (h x)) l.
  Proof. rewrite map_map. apply mask_map. Qed.

  Lemma judged_chk b c m : verdicts b = Some (map c b) -> (judged verdicts b m <-> In m b /\ c m = true).
  Proof.
    intro E. unfold judged. split.
    - intros (vs & i & E' & Hm & Hv). rewrite E in E'. injection E' as <-. split; [eapply nth_error_In; eauto|].
      rewrite nth_error_map, Hm in Hv. simpl in Hv. congruence.
    - intros [I Hc]. apply In_nth_error in I as (i & Hi). exists (map c b), i. rewrite nth_error_map, Hi. simpl. rewrite Hc. auto.
  Qed.

  Lemma near_snd (ss : list P) r q : forall k,
    map snd (filter (fun ip => Qle_bool (dist (snd ip) q) r) (combine (seq k (length ss)) ss)) = near dist ss r q.
  Proof.
    unfold near. induction ss as [|p ss IH]; intro k; cbn [length seq combine filter map snd]; auto.
    destruct (Qle_bool (dist p q) r); cbn [map snd]; rewrite IH; auto.
  Qed.

  Lemma near_In (ss : list P) r q p : In p (near dist ss r q) <-> In p ss /\ (dist p q <= r)%Q.
  Proof. unfold near. rewrite filter_In, Qle_bool_iff. tauto. Qed.

  (** _query_samples: the entries, or an exception when no sample is near *)
  Lemma entries_spec (ss : list P) r q :
    (near dist ss r q = [] -> batch_query_samples dist verdicts ss r q = Err RuntimeError) /\
    (near dist ss r q <> [] -> exists l, batch_query_samples dist verdicts ss r q = Ok l /\
       NoDup (map fst l) /\
       forall i d, In (i, d) l <-> exists p, nth_error ss i = Some p /\ d = dist p q /\ entered dist verdicts ss r q i).
  Proof.
    unfold batch_query_samples.
    set (within := filter (fun ip => Qle_bool (dist (snd ip) q) r) (combine (seq 0 (length ss)) ss)).
    assert (M : map (fun ip => (q, snd ip)) within = map (fun p => (q, p)) (near dist ss r q)).
    { rewrite <- (near_snd ss r q 0), map_map. reflexivity. }
    rewrite M. split.
    - intros ->. cbn [map]. now rewrite (proj1 CH).
    - intro N. destruct (proj2 CH (map (fun p => (q, p)) (near dist ss r q))) as (c & E).
      { intro H. apply N. now destruct (near dist ss r q). }
      rewrite E. eexists. split; [reflexivity|].
      rewrite <- M, mask_map_snd.
      assert (Q : map (fun ip => (fst ip, dist (snd ip) q)) (filter (fun x : nat * P => c (q, snd x)) within) =
                  query_samples dist (fun a b => c (a, b)) ss r q) by reflexivity.
      rewrite Q. split; [apply query_samples_NoDup|].
      intros i d. rewrite query_samples_In. unfold entry, entered. split.
      + intros (p & Hp & -> & L & Hc). exists p. split; auto. split; auto. exists p. split; auto. split; auto.
        apply (judged_chk _ c); auto. split; auto. apply in_map_iff. exists p. split; auto. apply near_In. split; auto.
        eapply nth_error_In; eauto.
      + intros (p & Hp & -> & (p' & Hp' & L & J)). rewrite Hp in Hp'. injection Hp' as <-.
        exists p. repeat split; auto. apply (judged_chk _ c) in J; auto. tauto.
  Qed.

  (** the graph of the neighbour lists, or an exception when there is no neighbour *)
  Lemma pairs_motions (ss : list P) nn : length nn = length ss ->
    (forall u v i d, lists_at nn u v i d -> v < length ss) ->
    sample_pairs ss (row_edges nn 0 None) = Some (neighbour_motions ss nn).
  Proof.
    intros Len R. unfold row_edges, neighbour_motions. rewrite Nat.sub_0_r. cbn [skipn].
    assert (F : forall l : list (nat * nat * Q), filter (fun _ => true) l = l) by (induction l as [|x l IHl]; simpl; [auto|now rewrite IHl]).
    rewrite F.
    assert (App : forall l1 l2 : list (nat * nat * Q), forall m1 m2, sample_pairs ss l1 = Some m1 -> sample_pairs ss l2 = Some m2 ->
              sample_pairs ss (l1 ++ l2) = Some (m1 ++ m2)).
    { induction l1 as [|e l1 IH]; intros l2 m1 m2 H1 H2; cbn [sample_pairs app] in *.
      - injection H1 as <-. auto.
      - destruct (sample_pair ss e) as [m|]; [|discriminate]. destruct (sample_pairs ss l1) as [ms|]; [|discriminate].
        injection H1 as <-. now rewrite (IH l2 ms m2). }
    assert (G : forall rest nn' k, length nn' = length rest -> (forall i p, nth_error rest i = Some p -> nth_error ss (k + i) = Some p) ->
       (forall row v d, In row nn' -> In (v, d) row -> v < length ss) ->
       sample_pairs ss (flat_map (fun ur : nat * list (nat * Q) => map (fun vd => (fst ur, fst vd, snd vd)) (snd ur)) (combine (seq k (length nn')) nn'))
       = Some (flat_map (fun pr : P * list (nat * Q) => flat_map (fun vd => match nth_error ss (fst vd) with Some q => [(fst pr, q)] | None => [] end) (snd pr)) (combine rest nn'))).
    { induction rest as [|p rest IH]; intros nn' k L Hk HR; destruct nn' as [|row nn']; try discriminate; [reflexivity|].
      cbn [length seq combine flat_map fst snd]. apply App.
      - assert (Hp : nth_error ss k = Some p) by (rewrite <- (Nat.add_0_r k); now apply Hk).
        assert (HR' : forall v d, In (v, d) row -> v < length ss) by (intros; eapply HR; [left; reflexivity|eauto]).
        clear - Hp HR'. induction row as [|[v d] row IHr]; [reflexivity|]. cbn [map flat_map sample_pairs fst snd].
        rewrite IHr by (intros; eapply HR'; right; eauto). unfold sample_pair. cbn [fst snd]. rewrite Hp.
        destruct (nth_error ss v) as [q|] eqn:Ev; [reflexivity|]. apply nth_error_None in Ev.
        assert (v < length ss) by (eapply HR'; left; reflexivity). lia.
      - apply IH; auto.
        + intros i x Hx. replace (S k + i) with (k + S i) by lia. apply Hk. exact Hx.
        + intros row' v d I. apply HR. now right. }
    apply G; auto.
    intros row v d I J. apply In_nth_error in I as (u & Hu). apply In_nth_error in J as (i & Hi). apply (R u v i d). exists row. auto.
  Qed.

  Lemma pairs_mask (ss : list P) (c : P * P -> bool) es ms : sample_pairs ss es = Some ms ->
    mask es (map c ms) = filter (fun e => check_ids (fun p q => c (p, q)) ss (fst (fst e)) (snd (fst e))) es.
  Proof.
    revert ms. unfold mask. induction es as [|e es IH]; intros ms H; cbn [sample_pairs] in H.
    - injection H as <-. reflexivity.
    - unfold sample_pair in H. cbn [filter]. unfold check_ids at 1.
      destruct (nth_error ss (fst (fst e))) as [p|]; [|discriminate]. destruct (nth_error ss (snd (fst e))) as [q|]; [|discriminate].
      destruct (sample_pairs ss es) as [ms'|]; [|discriminate]. injection H as <-.
      cbn [map combine filter snd]. destruct (c (p, q)); cbn [map fst]; now rewrite (IH ms').
  Qed.

  Lemma motions_In (ss : list P) nn p q : length nn = length ss ->
    (In (p, q) (neighbour_motions ss nn) <->
     exists u v i d, lists_at nn u v i d /\ nth_error ss u = Some p /\ nth_error ss v = Some q).
  Proof.
    intro Len. unfold neighbour_motions. rewrite in_flat_map. split.
    - intros ([p' row] & I & J). apply In_nth_error in I as (u & Hu).
      assert (A : nth_error ss u = Some p' /\ nth_error nn u = Some row).
      { clear - Hu. revert nn u Hu. induction ss as [|x ss IH]; intros nn u Hu; [destruct u; discriminate|].
        destruct nn as [|y nn]; [destruct u; discriminate|]. destruct u as [|u]; cbn in *; [injection Hu as <- <-; auto|]. now apply IH. }
      apply in_flat_map in J as ([v d] & K & L). cbn [fst snd] in *.
      destruct (nth_error ss v) as [q'|] eqn:Ev; [|destruct L]. destruct L as [L|[]]. injection L as <- <-.
      apply In_nth_error in K as (i & Hi). exists u, v, i, d. split; [exists row; tauto|]. tauto.
    - intros (u & v & i & d & (row & Hr & Hi) & Hp & Hq). exists (p, row). split.
      + apply nth_error_In with u. clear - Hp Hr. revert nn u Hp Hr. induction ss as [|x ss IH]; intros nn u Hp Hr; [destruct u; discriminate|].
        destruct nn as [|y nn]; [destruct u; discriminate|]. destruct u as [|u]; cbn in *; [congruence|]. now apply IH.
      + apply in_flat_map. exists (v, d). split; [eapply nth_error_In; eauto|]. cbn [fst snd]. rewrite Hq. now left.
  Qed.

  Lemma graph_spec (ss : list P) kk nn : nn_shape dist ss kk nn ->
    (neighbour_motions ss nn = [] -> batch_to_graph verdicts ss nn = Err RuntimeError) /\
    (neighbour_motions ss nn <> [] -> exists c g, verdicts (neighbour_motions ss nn) = Some (map c (neighbour_motions ss nn)) /\
       batch_to_graph verdicts ss nn = Ok g /\ nn_roadmap (fun p q => c (p, q)) ss nn 0 None g).
  Proof.
    intro Sh. assert (Len : length nn = length ss) by apply Sh.
    unfold batch_to_graph. rewrite (pairs_motions ss nn Len) by apply Sh. split.
    - intros ->. now rewrite (proj1 CH).
    - intro N. destruct (proj2 CH _ N) as (c & E). exists c. rewrite E.
      destruct (shape_to_graph dist (fun p q => c (p, q)) ss kk nn 0 None Sh) as (g & Eg & R & _).
      exists g. split; auto. split; auto.
      rewrite (pairs_mask ss c _ _ (pairs_motions ss nn Len (proj1 (proj2 (proj2 Sh))))).
      unfold nn_to_graph in Eg. destruct (forallb _ _); [|discriminate]. exact Eg.
  Qed.

  Lemma min_last_spec : forall nn kk, (forall row : list (nat * Q), In row nn -> length row = kk) -> nn <> [] -> 0 < kk ->
    exists r, min_last nn = Some r /\ least_last nn r.
  Proof.
    induction nn as [|row nn IH]; intros kk Hk N K; [congruence|].
    assert (Lr : length row = kk) by (apply Hk; now left).
    destruct (exists_last (l := row)) as (l0 & [x0 d0] & E0); [intros ->; simpl in Lr; lia|].
    assert (Ld : last_dist row = Some d0).
    { rewrite E0. clear. unfold last_dist. destruct l0 as [|a l]; [reflexivity|]. cbn [app]. f_equal.
      now rewrite last_last. }
    assert (Inj : forall l x d, l ++ [(x, d)] = row -> d = d0).
    { intros l x d El. rewrite E0 in El. apply app_inj_tail in El as [_ El]. congruence. }
    destruct nn as [|row' nn'].
    - exists d0. split; [exact Ld|]. split.
      + exists l0, x0. left. auto.
      + intros l x d [H|[]]. rewrite (Inj l x d) by auto. apply Qle_refl.
    - destruct (IH kk) as (b & Eb & (lb & xb & Ib) & Mb); auto; [intros; apply Hk; now right|discriminate|].
      change (min_last (row :: row' :: nn')) with (match last_dist row, min_last (row' :: nn') with
        | Some a, Some b => Some (if Qle_bool a b then a else b) | _, _ => None end).
      rewrite Ld, Eb. eexists. split; [reflexivity|].
      destruct (Qle_bool d0 b) eqn:C.
      + apply Qle_bool_iff in C. split; [exists l0, x0; left; auto|].
        intros l x d [H|H]; [rewrite (Inj l x d) by auto; apply Qle_refl|]. eapply Qle_trans; [exact C|]. eapply Mb; eauto.
      + assert (C' : (b < d0)%Q) by (apply Qnot_le_lt; intro L; apply Qle_bool_iff in L; congruence).
        split; [exists lb, xb; right; auto|].
        intros l x d [H|H]; [rewrite (Inj l x d) by auto; now apply Qlt_le_weak|]. eapply Mb; eauto.
  Qed.

  Lemma no_motions (ss : list P) kk nn : nn_shape dist ss kk nn -> neighbour_motions ss nn = [] -> ss = [] \/ kk = 0.
  Proof.
    intros Sh E. destruct ss as [|p ss]; auto. right. destruct nn as [|row nn]; [destruct Sh as [L _]; discriminate|].
    destruct Sh as (L & Hk & R & D). assert (Hr : length row = kk) by (apply Hk; now left).
    destruct row as [|[v d] row]; [auto|]. exfalso.
    assert (At : lists_at ((((v, d) :: row)) :: nn) 0 v 0 d) by (exists ((v, d) :: row); auto).
    destruct (D _ _ _ _ At) as (p' & q & Hp & Hq & _).
    assert (In (p', q) (neighbour_motions (p :: ss) (((v, d) :: row) :: nn))).
    { apply motions_In; auto. exists 0, v, 0, d. auto. }
    rewrite E in H. destruct H.
  Qed.
End Calls.

(** * One attempt *)
Section Attempt.
  Context {P : Type}.
  Variable dist : P -> P -> Q.
  Variable verdicts : list (P * P) -> option (list bool).
  Variable ann : list P -> nat -> rows.
  Variable sp : sp_oracle.
  Hypothesis CH : array_checker verdicts.
  Hypothesis dist_nonneg : forall p q, (0 <= dist p q)%Q.
  Hypothesis dist_sym : forall p q, (dist p q == dist q p)%Q.
  Hypothesis ANN : ann_shape dist ann.
  Hypothesis SP : sp_correct sp.

  Section Graph.
    Variable ss : list P.
    Variable kk : nat.
    Variable nn : rows.
    Variable c : P * P -> bool.
    Variable g : graph.
    Hypothesis Sh : nn_shape dist ss kk nn.
    Hypothesis Ec : verdicts (neighbour_motions ss nn) = Some (map c (neighbour_motions ss nn)).
    Hypothesis RM : nn_roadmap (fun p q => c (p, q)) ss nn 0 None g.

    Lemma link_listed u v : (exists d, nn_link (fun p q => c (p, q)) ss nn 0 None u v d) <-> listed verdicts ss nn u v.
    Proof.
      unfold nn_link, listed. split.
      - intros (d & _ & (i & Hi) & _ & p & q & Hp & Hq & Hc). split; [eauto|]. exists p, q. split; auto. split; auto.
        apply (judged_chk verdicts _ c); auto. split; auto. apply (motions_In dist ss nn p q (proj1 Sh)). eauto 8.
      - intros ((i & d & Hi) & p & q & Hp & Hq & J). exists d. split; [lia|]. split; [eauto|]. split; [discriminate|].
        exists p, q. split; auto. split; auto. apply (judged_chk verdicts _ c) in J; auto. tauto.
    Qed.

    Lemma edge_joined u v : (exists w, edge g u v w) <-> joined verdicts ss nn u v.
    Proof.
      destruct RM as (_ & _ & I & _). rewrite I. unfold joined. rewrite <- !link_listed. split.
      - intros (d & [H|H]); [left|right]; eauto.
      - intros [(d & H)|(d & H)]; eauto.
    Qed.

    Lemma edge_weight u v w p q : edge g u v w -> nth_error ss u = Some p -> nth_error ss v = Some q -> (w == dist p q)%Q.
    Proof.
      intros E Hp Hq. destruct (nn_roadmap_weight dist (fun p q => c (p, q)) dist_sym ss kk nn 0 None g u v w Sh RM E) as (p' & q' & Hp' & Hq' & W).
      congruence.
    Qed.

    Lemma trail_tour : forall ids w ps, trail (edge g) ids w -> visits ss ids ps -> (w == tour dist ps)%Q /\ chain verdicts ss nn ids.
    Proof.
      intros ids w ps T. revert ps. induction T as [x|x y l w c' E T IH]; intros ps V.
      - inversion V; subst. inversion H3; subst. split; [reflexivity|exact I].
      - inversion V as [|? p ? ps' Hp V']; subst. destruct (IH ps' V') as [C1 C2].
        inversion V' as [|? q ? ps'' Hq V'']; subst. split.
        + cbn [tour] in *. rewrite (edge_weight _ _ _ _ _ E Hp Hq), C1. reflexivity.
        + cbn [chain]. split; auto. apply edge_joined. eauto.
    Qed.

    Lemma chain_trail : forall ids, ids <> [] -> chain verdicts ss nn ids -> exists w, trail (edge g) ids w.
    Proof.
      induction ids as [|u ids IH]; intros N C; [congruence|]. destruct ids as [|v ids].
      - exists 0%Q. constructor.
      - cbn [chain] in C. destruct C as [J C]. destruct IH as (w & T); auto; [discriminate|].
        apply edge_joined in J as (w0 & E). exists (w0 + w)%Q. now constructor.
    Qed.
  End Graph.

  Lemma visits_cons (ss : list P) a l ps : visits ss (a :: l) ps -> exists p ps', ps = p :: ps' /\ nth_error ss a = Some p /\ visits ss l ps'.
  Proof. intro V. inversion V; subst. eauto. Qed.
  Lemma visits_last (ss : list P) : forall l a p ps, visits ss (a :: l) (p :: ps) -> nth_error ss (last l a) = Some (last ps p).
  Proof.
    induction l as [|b l IH]; intros a p ps V.
    - apply visits_cons in V as (p' & ps' & E & H & V). injection E as <- <-. inversion V; subst. exact H.
    - apply visits_cons in V as (p' & ps' & E & H & V). injection E as <- <-. pose proof V as V0.
      apply visits_cons in V as (q & ps' & -> & Hq & V). rewrite !last_hd.
      assert (L : forall (l : list P) x d, last (x :: l) d = last l x).
      { clear. induction l as [|y l IH]; intros; auto. change (last (y :: l) d = last (y :: l) x). now rewrite !IH. }
      rewrite L. now apply (IH b q ps').
  Qed.
  Lemma tour_app : forall ps p t, (tour dist (p :: ps ++ [t]) == tour dist (p :: ps) + dist (last ps p) t)%Q.
  Proof.
    induction ps as [|q ps IH]; intros p t.
    - cbn [tour app last]. ring.
    - change ((q :: ps) ++ [t]) with (q :: ps ++ [t]).
      change (tour dist (p :: q :: ps ++ [t])) with (dist p q + tour dist (q :: ps ++ [t]))%Q. rewrite IH.
      change (tour dist (p :: q :: ps)) with (dist p q + tour dist (q :: ps))%Q.
      replace (last (q :: ps) p) with (last ps q); [ring|]. clear. revert q p.
      induction ps as [|y l IH]; intros; auto. change (last (y :: l) q = last (y :: l) p). now rewrite <- !IH.
  Qed.
  Lemma tour_ends s t p ps : (tour dist ([s] ++ (p :: ps) ++ [t]) == dist p s + tour dist (p :: ps) + dist (last ps p) t)%Q.
  Proof.
    cbn [app]. change (tour dist (s :: p :: ps ++ [t])) with (dist s p + tour dist (p :: ps ++ [t]))%Q.
    rewrite tour_app, (dist_sym s p). ring.
  Qed.

  Lemma range_visits (ss : list P) ids : (forall i, In i ids -> i < length ss) -> exists ps, visits ss ids ps.
  Proof. intro H. destruct (take_rows_ok ss ids H) as (ps & _ & V). eauto. Qed.

  Lemma attempt_spec k ss next s t n : n = length ss -> 1 <= n -> 1 <= k ->
    let nn := ann ss (Nat.min (n - 1) k) in
    match prm_rebuild verdicts ann k ss next n with
    | Err e => e = RuntimeError /\ attempt_raises dist ss nn s t
    | Ok st1 =>
        ps_samples st1 = Some ss /\ ps_next st1 = next /\
        match prm_query dist verdicts sp st1 s t with
        | Err e => e = RuntimeError /\ attempt_raises dist ss nn s t
        | Ok (d, path, st2) =>
            ps_samples st2 = Some ss /\ ps_next st2 = next /\
            match path with
            | [] => d = None /\ attempt_fails dist verdicts ss nn s t
            | _ => (exists w, d = Some w /\ (w == tour dist ([s] ++ path ++ [t]))%Q) /\ attempt_solves dist verdicts ss nn s t path
            end
        end
    end.
  Proof.
    intros Hn N1 K1 nn. pose proof (ANN ss (Nat.min (n - 1) k)) as Sh. fold nn in Sh. set (kk := Nat.min (Nat.min (n - 1) k) (length ss - 1)) in Sh.
    unfold prm_rebuild. fold nn. destruct (graph_spec dist verdicts CH ss kk nn Sh) as [G0 G1].
    destruct (neighbour_motions ss nn) as [|m0 ms0] eqn:Em.
    { rewrite G0 by auto. split; auto. left. exact Em. }
    destruct G1 as (c & g & Ec & Eg & RM); [discriminate|]. rewrite Eg. rewrite <- Em in Ec.
    assert (Kpos : 0 < kk).
    { destruct kk as [|kk']; [|lia]. exfalso. assert (Hs : neighbour_motions ss nn = []).
      { destruct (neighbour_motions ss nn) as [|[p q] l] eqn:E; auto. assert (I : In (p, q) (neighbour_motions ss nn)) by (rewrite E; now left).
        apply (motions_In dist ss nn p q (proj1 Sh)) in I. destruct I as (u & v & i & d & (row & Hr & Hi) & _).
        assert (length row = 0) by (apply Sh; eapply nth_error_In; eauto). destruct row; [destruct i; discriminate|discriminate]. }
      congruence. }
    destruct (min_last_spec nn kk) as (r & Er & LL); auto; [apply Sh|intros ->; destruct Sh as [L _]; simpl in L; lia|].
    rewrite Er. cbn [ps_samples ps_next]. split; auto. split; auto.
    unfold prm_query. cbn [ps_samples ps_cert ps_graph ps_next].
    destruct (entries_spec dist verdicts CH ss r s) as [S0 S1]. destruct (entries_spec dist verdicts CH ss r t) as [T0 T1].
    destruct (near dist ss r s) as [|ns0 nsl] eqn:Ens.
    { rewrite S0 by auto. split; auto. right. exists r. auto. }
    destruct S1 as (ls & Els & Ns & Hls); [discriminate|]. rewrite Els.
    destruct (near dist ss r t) as [|nt0 ntl] eqn:Ent.
    { rewrite T0 by auto. split; auto. right. exists r. auto. }
    destruct T1 as (lg & Elg & Ng & Hlg); [discriminate|]. rewrite Elg.
    assert (Rm : roadmap ss g).
    { apply (sub_roadmap dist (fun p q => c (p, q)) dist_nonneg dist_sym ss kk nn 0 None g g Sh RM); [apply RM|apply RM|red; auto]. }
    assert (Rng : forall q l, (forall i d, In (i, d) l <-> exists p, nth_error ss i = Some p /\ d = dist p q /\ entered dist verdicts ss r q i) ->
               forall i d, In (i, d) l -> i < length ss /\ (0 <= d)%Q).
    { intros q l Hl i d I. apply Hl in I as (p & Hp & -> & _). split; auto. apply nth_error_Some. congruence. }
    destruct (query_lists_spec sp ss g ls lg SP Rm Ns Ng (Rng s ls Hls) (Rng t lg Hlg)) as (g3 & i_s & i_g & El & Same & Q).
    rewrite El.
    assert (Cost : forall a l w ds dt p ps, In (a, ds) ls -> trail (edge g) (a :: l) w -> In (last l a, dt) lg -> visits ss (a :: l) (p :: ps) ->
      (ds + w + dt == tour dist ([s] ++ (p :: ps) ++ [t]))%Q).
    { intros a l w ds dt p ps Ia T It V. rewrite tour_ends.
      destruct (trail_tour ss kk nn c g Sh Ec RM _ _ _ T V) as [-> _].
      apply Hls in Ia as (p' & Hp' & -> & _). apply Hlg in It as (q' & Hq' & -> & _).
      pose proof (visits_last ss l a p ps V) as Hl. apply visits_cons in V as (? & ? & E & Ha & _). injection E as <- <-.
      rewrite Hp' in Ha. injection Ha as ->. rewrite Hq' in Hl. injection Hl as ->. reflexivity. }
    assert (Route : forall ids, route dist verdicts ss nn r s t ids -> exists a l w ds dt, ids = a :: l /\ In (a, ds) ls /\ trail (edge g) (a :: l) w /\ In (last l a, dt) lg).
    { intros ids (a & Ha & Es & Hc & Et). destruct ids as [|a' l]; [discriminate|]. injection Ha as ->. rewrite last_hd in Et.
      destruct (chain_trail ss kk nn c g Sh Ec RM (a :: l)) as (w & T); auto; [discriminate|].
      pose proof Es as (p & Hp & _). pose proof Et as (q & Hq & _).
      exists a, l, w, (dist p s), (dist q t). split; auto. split; [apply Hls; eauto|]. split; auto. apply Hlg; eauto. }
    destruct (sp g3 i_s i_g) as [[d mid]|].
    - destruct Q as [(a & l & w & ds & dt & ps & -> & Ia & T & It & Ed & Et & V) Min]. rewrite Et. cbn [ps_samples ps_next].
      split; auto. split; auto. pose proof V as V0. apply visits_cons in V0 as (p & ps' & -> & Hp & V').
      split; [exists d; split; auto; rewrite Ed; eapply Cost; eauto|].
      exists r, (a :: l). split; auto. split.
      + exists a. split; auto. split; [apply Hls in Ia as (? & _ & _ & E); auto|].
        split; [apply (trail_tour ss kk nn c g Sh Ec RM _ _ _ T V)|]. rewrite last_hd. apply Hlg in It as (? & _ & _ & E). auto.
      + split; auto. intros ids' mids' R' Vs'. destruct (Route ids' R') as (a' & l' & w' & ds' & dt' & -> & Ia' & T' & It').
        pose proof Vs' as V0. apply visits_cons in V0 as (p' & ps'' & -> & _ & _).
        rewrite <- (Cost a l w ds dt p ps') by auto. rewrite <- (Cost a' l' w' ds' dt' p' ps'') by auto. rewrite <- Ed. eapply Min; eauto.
    - cbn [take_rows ps_samples ps_next]. split; auto. split; auto. split; auto. exists r. split; auto.
      rewrite Ens, Ent. split; [discriminate|]. split; [discriminate|]. intros ids R'.
      destruct (Route ids R') as (a' & l' & w' & ds' & dt' & -> & Ia' & T' & It'). eapply Q; eauto.
  Qed.
  (** A query leaves the roadmap of the stream as it was. *)
  Theorem stream_query_restores k ss next s t n st1 d path st2 :
    prm_rebuild verdicts ann k ss next n = Ok st1 -> prm_query dist verdicts sp st1 s t = Ok (d, path, st2) ->
    ps_samples st2 = ps_samples st1 /\ ps_cert st2 = ps_cert st1 /\ ps_next st2 = ps_next st1 /\
    exists g g', ps_graph st1 = Some g /\ ps_graph st2 = Some g' /\ same_graph g' g.
  Proof.
    intros H Q. pose proof (ANN ss (Nat.min (n - 1) k)) as Sh. unfold prm_rebuild in H. set (nn := ann ss (Nat.min (n - 1) k)) in *. set (kk := Nat.min (Nat.min (n - 1) k) (length ss - 1)) in Sh.
    destruct (graph_spec dist verdicts CH ss kk nn Sh) as [G0 G1].
    destruct (batch_to_graph verdicts ss nn) as [g|e] eqn:Eg; [|discriminate]. destruct (min_last nn) as [r|]; [|discriminate]. injection H as <-.
    destruct (neighbour_motions ss nn) as [|m0 ms0] eqn:Em; [discriminate (G0 eq_refl)|]. destruct G1 as (c & g' & _ & Eg' & RM); [discriminate|]. injection Eg' as <-.
    assert (Rm : roadmap ss g).
    { apply (sub_roadmap dist (fun p q => c (p, q)) dist_nonneg dist_sym ss kk nn 0 None g g Sh RM); [apply RM|apply RM|red; auto]. }
    unfold prm_query in Q. cbn [ps_samples ps_cert ps_graph ps_next] in *.
    destruct (entries_spec dist verdicts CH ss r s) as [S0 S1]. destruct (entries_spec dist verdicts CH ss r t) as [T0 T1].
    destruct (near dist ss r s) as [|ns0 nsl]; [rewrite S0 in Q by auto; discriminate|].
    destruct S1 as (ls & Els & Ns & Hls); [discriminate|]. rewrite Els in Q.
    destruct (near dist ss r t) as [|nt0 ntl]; [rewrite T0 in Q by auto; discriminate|].
    destruct T1 as (lg & Elg & Ng & Hlg); [discriminate|]. rewrite Elg in Q.
    assert (Rng : forall q l, (forall i d, In (i, d) l <-> exists p, nth_error ss i = Some p /\ d = dist p q /\ entered dist verdicts ss r q i) ->
               forall i d, In (i, d) l -> i < length ss /\ (0 <= d)%Q).
    { intros q l Hl i d' I. apply Hl in I as (p & Hp & -> & _). split; auto. apply nth_error_Some. congruence. }
    destruct (query_lists_spec sp ss g ls lg SP Rm Ns Ng (Rng s ls Hls) (Rng t lg Hlg)) as (g3 & i_s & i_g & El & Same & _).
    rewrite El in Q. destruct (sp g3 i_s i_g) as [[d' mid]|]; (destruct (take_rows ss _) as [ps|e]; [|discriminate]); injection Q as <- <- <-; cbn; eauto 8.
  Qed.
End Attempt.

(** * The stream *)
Section Stream.
  Context {P : Type}.
  Variable dist : P -> P -> Q.
  Variable verdicts : list (P * P) -> option (list bool).
  Variable smp : nat -> P.
  Variable ann : list P -> nat -> rows.
  Variable sp : sp_oracle.
  Hypothesis CH : array_checker verdicts.
  Hypothesis dist_nonneg : forall p q, (0 <= dist p q)%Q.
  Hypothesis dist_sym : forall p q, (dist p q == dist q p)%Q.
  Hypothesis ANN : ann_shape dist ann.
  Hypothesis SP : sp_correct sp.

  (** the first n samples, after the state drawn by the constructor, and their neighbours *)
  Definition drawn (pos n : nat) : list P := map smp (seq (S pos) n).
  Definition lists (k pos n : nat) : rows := ann (drawn pos n) (Nat.min (n - 1) k).

  Variables (max_samples : Z) (factor : Q) (start goal : P) (k pos : nat) (min_samples : Z).

  (** the sizes of the first i attempts; all of them found no route *)
  Definition tried (i : nat) : list Z := map (fun j => Qint (count min_samples factor j)) (seq 0 i).
  Definition size_at (i : nat) : nat := size min_samples factor i.
  Definition all_fail (i : nat) : Prop :=
    forall j, j < i -> attempt_fails dist verdicts (drawn pos (size_at j)) (lists k pos (size_at j)) start goal.

  Definition ends_right (out : stream_end (P := P)) : Prop :=
    match out with
    | StartInCollision => ~ judged verdicts [(start, start)] (start, start)
    | GoalInCollision => judged verdicts [(start, start)] (start, start) /\ ~ judged verdicts [(goal, goal)] (goal, goal)
    | _ =>
      judged verdicts [(start, start)] (start, start) /\ judged verdicts [(goal, goal)] (goal, goal) /\
      match out with
      | NoPath sizes => exists i, 0 < i /\ sizes = tried i /\ all_fail i /\ (inject_Z (max_samples + 1) <= count min_samples factor i)%Q
      | Found sizes path => exists i mids, sizes = tried (S i) /\ all_fail i /\ (count min_samples factor i < inject_Z (max_samples + 1))%Q /\
          path = [start] ++ mids ++ [goal] /\ attempt_solves dist verdicts (drawn pos (size_at i)) (lists k pos (size_at i)) start goal mids
      | Raised e sizes =>
          exists i, all_fail i /\ (count min_samples factor i < inject_Z (max_samples + 1))%Q /\
          ((e = ArithmeticError /\ 0 < i /\ sizes = tried i /\ size_at i <= size_at (i - 1)) \/
           (e = RuntimeError /\ (i = 0 \/ size_at (i - 1) < size_at i) /\ (sizes = tried i \/ sizes = tried (S i)) /\
            attempt_raises dist (drawn pos (size_at i)) (lists k pos (size_at i)) start goal))
      | _ => (max_samples < min_samples)%Z
      end
    end.

  Lemma drawn_length n : length (drawn pos n) = n.
  Proof. unfold drawn. now rewrite map_length, seq_length. Qed.
  Lemma drawn_app n m : n <= m -> drawn pos n ++ draw smp (S pos + n) (m - n) = drawn pos m.
  Proof.
    intro H. unfold drawn, draw. rewrite <- map_app. f_equal.
    replace m with (n + (m - n)) at 2 by lia. now rewrite seq_app.
  Qed.

  Lemma Qlt_bool_spec x y : Qlt_bool x y = true <-> (x < y)%Q.
  Proof.
    unfold Qlt_bool. rewrite negb_true_iff. split.
    - intro H. apply Qnot_le_lt. intro L. apply Qle_bool_iff in L. congruence.
    - intro H. apply not_true_iff_false. intro L. apply Qle_bool_iff in L. apply (Qlt_not_le _ _ H L).
  Qed.
  Lemma conf_judged p : exists b, conf_ok verdicts p = Ok b /\ (b = true <-> judged verdicts [(p, p)] (p, p)).
  Proof.
    destruct (proj2 CH [(p, p)]) as (c & E); [discriminate|]. unfold conf_ok. rewrite E. cbn [map]. exists (c (p, p)).
    split; auto. rewrite (judged_chk verdicts _ c _ E). cbn [In]. tauto.
  Qed.
  Lemma size_first : (1 <= min_samples)%Z -> size_at 0 = Z.to_nat min_samples.
  Proof.
    intro H. unfold size_at, size, count. cbn [Nat.iter nat_rect]. unfold Qint.
    assert (A : Qle_bool 0 (inject_Z min_samples) = true) by (apply Qle_bool_iff; unfold Qle; simpl; lia).
    rewrite A. unfold Qround.Qfloor, inject_Z. now rewrite Z.div_1_r.
  Qed.

  Definition state_at (i : nat) (st : prm_state (P := P)) : Prop :=
    match i with
    | O => st = prm_new pos
    | S j => ps_samples st = Some (drawn pos (size_at j)) /\ ps_next st = S pos + size_at j
    end.

  Lemma tried_S i : tried (S i) = tried i ++ [Qint (count min_samples factor i)].
  Proof. unfold tried. now rewrite seq_S, map_app. Qed.
  Lemma tried_nil i : match tried i with [] => true | _ => false end = match i with O => true | _ => false end.
  Proof. destruct i; reflexivity. Qed.

  Lemma attempts_spec : (1 <= min_samples)%Z -> 1 <= k ->
    judged verdicts [(start, start)] (start, start) -> judged verdicts [(goal, goal)] (goal, goal) ->
    forall fuel i st, state_at i st -> all_fail i -> (forall j, j < i -> j < size_at j) ->
    forall out, attempts dist verdicts smp ann sp max_samples factor start goal k fuel (count min_samples factor i) st (tried i) = Some out ->
    ends_right out.
  Proof.
    intros M K Js Jg. induction fuel as [|fuel IH]; intros i st Hst AF Pos out H; cbn [attempts] in H; [discriminate|].
    destruct (Qlt_bool (count min_samples factor i) (inject_Z (max_samples + 1))) eqn:B.
    2: { assert (B' : (inject_Z (max_samples + 1) <= count min_samples factor i)%Q).
         { apply Qnot_lt_le. intro L. apply Qlt_bool_spec in L. congruence. }
         destruct i as [|i].
         - cbn [tried seq map] in H. injection H as <-. cbn [ends_right]. split; auto. split; auto.
           unfold count, Qle in B'. simpl in B'. lia.
         - cbn [tried seq map] in H. change (Some (NoPath (tried (S i))) = Some out) in H. injection H as <-. cbn [ends_right].
           split; auto. split; auto. exists (S i). split; [lia|]. auto. }
    apply Qlt_bool_spec in B. rewrite tried_nil in H.
    assert (N1 : (Qint (count min_samples factor i) <=? 0)%Z && match i with O => true | _ => false end = false).
    { destruct i; [|now rewrite andb_false_r]. rewrite andb_true_r. apply Z.leb_gt.
      pose proof (size_first M) as E. unfold size_at, size in E. lia. }
    rewrite N1 in H. clear N1. fold (size min_samples factor i) in H. change (size min_samples factor i) with (size_at i) in H.
    (* the rebuilt roadmap *)
    assert (G : (prm_grow verdicts smp ann k st (size_at i) = Err ArithmeticError /\ 0 < i /\ size_at i <= size_at (i - 1)) \/
                (prm_grow verdicts smp ann k st (size_at i) = prm_rebuild verdicts ann k (drawn pos (size_at i)) (S pos + size_at i) (size_at i) /\
                 (i = 0 \/ size_at (i - 1) < size_at i) /\ i < size_at i)).
    { unfold prm_grow. destruct i as [|j].
      - cbn in Hst. subst st. right. cbn [ps_samples ps_next prm_new]. split; [reflexivity|]. split; auto. rewrite (size_first M). lia.
      - cbn [state_at] in Hst. destruct Hst as [-> ->]. rewrite drawn_length. replace (S j - 1) with j by lia.
        destruct (Nat.leb_spec (size_at (S j)) (size_at j)) as [L|L]; [left; split; auto; split; [lia|auto]|right].
        split; [rewrite drawn_app by lia; f_equal; lia|]. split; auto. specialize (Pos j ltac:(lia)). lia. }
    destruct G as [(G & I0 & L)|(G & L & Gr)]; rewrite G in H.
    { injection H as <-. cbn [ends_right]. split; auto. split; auto. exists i. split; auto. split; auto. }
    pose proof (attempt_spec dist verdicts ann sp CH dist_nonneg dist_sym ANN SP k (drawn pos (size_at i)) (S pos + size_at i) start goal (size_at i)
      (eq_sym (drawn_length _)) ltac:(lia) K) as A. cbv zeta in A. fold (lists k pos (size_at i)) in A.
    destruct (prm_rebuild verdicts ann k (drawn pos (size_at i)) (S pos + size_at i) (size_at i)) as [st1|e].
    2: { injection H as <-. cbn [ends_right]. destruct A as [-> A]. split; auto. split; auto. exists i. split; auto. split; auto. right. auto. }
    destruct A as (A1 & A2 & A). rewrite <- tried_S in H.
    destruct (prm_query dist verdicts sp st1 start goal) as [[[d path] st2]|e].
    2: { injection H as <-. cbn [ends_right]. destruct A as [-> A]. split; auto. split; auto. exists i. split; auto. split; auto. right. auto. }
    destruct A as (A3 & A4 & A). destruct path as [|p path].
    - destruct A as [_ A]. change (count min_samples factor i * factor)%Q with (count min_samples factor (S i)) in H.
      apply (IH (S i) st2); auto.
      + cbn [state_at]. auto.
      + intros j Hj. destruct (Nat.eq_dec j i) as [->|]; auto. apply AF. lia.
      + intros j Hj. destruct (Nat.eq_dec j i) as [->|]; auto. apply Pos. lia.
    - injection H as <-. cbn [ends_right]. split; auto. split; auto. exists i, (p :: path). split; auto. split; auto. split; auto. split; auto. apply A.
  Qed.

  (** C136.  However the stream ends, it ends as specified. *)
  Theorem motion_stream_exact : (1 <= min_samples)%Z -> 1 <= k -> forall fuel out,
    motion_stream dist verdicts smp ann sp max_samples factor start goal k fuel pos min_samples = Some out -> ends_right out.
  Proof.
    intros M K fuel out H. unfold motion_stream in H.
    destruct (conf_judged start) as (b & Eb & Jb). rewrite Eb in H. destruct b.
    2: { injection H as <-. cbn [ends_right]. rewrite <- Jb. discriminate. }
    destruct (conf_judged goal) as (b & Eb' & Jb'). rewrite Eb' in H. destruct b.
    2: { injection H as <-. cbn [ends_right]. rewrite <- Jb, <- Jb'. split; [reflexivity|discriminate]. }
    apply (attempts_spec M K ltac:(tauto) ltac:(tauto) fuel 0 (prm_new pos)); auto.
    - reflexivity.
    - intros j Hj. lia.
    - intros j Hj. lia.
  Qed.

  Lemma attempts_end : (1 <= min_samples)%Z -> forall fuel i st, state_at i st -> (forall j, j < i -> j < size_at j) ->
    (Z.to_nat max_samples + 2 <= fuel + i) -> (forall j, j < i -> (Z.of_nat (size_at j) <= max_samples)%Z) ->
    0 < fuel ->
    exists out, attempts dist verdicts smp ann sp max_samples factor start goal k fuel (count min_samples factor i) st (tried i) = Some out.
  Proof.
    intro M. induction fuel as [|fuel IH]; intros i st Hst Pos F Bd F0; [lia|]. cbn [attempts].
    destruct (Qlt_bool (count min_samples factor i) (inject_Z (max_samples + 1))) eqn:B.
    2: { destruct (tried i); eauto. }
    destruct ((Qint (count min_samples factor i) <=? 0)%Z && _); [eauto|].
    change (Z.to_nat (Qint (count min_samples factor i))) with (size_at i).
    destruct (prm_grow verdicts smp ann k st (size_at i)) as [st1|e] eqn:G; [|eauto].
    destruct (prm_query dist verdicts sp st1 start goal) as [[[d path] st2]|e] eqn:Q; [|eauto].
    destruct path as [|p path]; [|eauto].
    rewrite <- tried_S. change (count min_samples factor i * factor)%Q with (count min_samples factor (S i)).
    (* the sizes grow *)
    assert (Rb : forall kk ss next n st1, prm_rebuild verdicts ann kk ss next n = Ok st1 -> ps_samples st1 = Some ss /\ ps_next st1 = next).
    { intros kk ss next n st3 R. unfold prm_rebuild in R. destruct (batch_to_graph _ _ _); [|discriminate].
      destruct (min_last _); [|discriminate]. injection R as <-. auto. }
    assert (Qs : ps_samples st2 = ps_samples st1 /\ ps_next st2 = ps_next st1).
    { unfold prm_query in Q. destruct (ps_samples st1) as [ss|]; [|discriminate]. destruct (ps_cert st1); [|discriminate].
      destruct (ps_graph st1); [|discriminate]. destruct (batch_query_samples _ _ _ _ _); [|discriminate].
      destruct (batch_query_samples _ _ _ _ _); [|discriminate]. destruct (loop_in _ _ _) as [[g3 v1] v2].
      destruct (sp g3 v1 v2) as [[? ?]|]; (destruct (take_rows _ _); [|discriminate]); injection Q as _ _ <-; auto. }
    assert (Gr : ps_samples st1 = Some (drawn pos (size_at i)) /\ ps_next st1 = S pos + size_at i /\ i < size_at i).
    { unfold prm_grow in G. destruct i as [|j].
      - cbn in Hst. subst st. cbn [ps_samples ps_next prm_new] in G. apply Rb in G as [-> ->]. split; auto. split; auto. rewrite (size_first M). lia.
      - cbn [state_at] in Hst. destruct Hst as [H1 H2]. rewrite H1, H2, drawn_length in G.
        destruct (Nat.leb_spec (size_at (S j)) (size_at j)) as [L|L]; [discriminate|]. apply Rb in G as [-> ->].
        split; [now rewrite drawn_app by lia|]. split; [lia|]. specialize (Pos j ltac:(lia)). lia. }
    destruct Gr as (G1 & G2 & G3).
    assert (Bi : (Z.of_nat (size_at i) <= max_samples)%Z).
    { apply Qlt_bool_spec in B. unfold size_at, size in *. set (x := count min_samples factor i) in *.
      assert (Hx : (0 < Qint x)%Z) by lia. rewrite Z2Nat.id by lia.
      assert (Xn : (0 <= x)%Q).
      { apply Qnot_lt_le. intro L. unfold Qint in Hx. destruct (Qle_bool 0 x) eqn:E0; [apply Qle_bool_iff in E0; apply (Qlt_not_le _ _ L E0)|].
        assert (Qround.Qfloor (- x) >= 0)%Z; [|lia].
        assert (0 <= Qround.Qfloor (- x))%Z; [|lia]. change 0%Z with (Qround.Qfloor 0). apply Qround.Qfloor_resp_le.
        apply Qlt_le_weak in L. apply Qopp_le_compat in L. exact L. }
      unfold Qint. assert (E0 : Qle_bool 0 x = true) by now apply Qle_bool_iff. rewrite E0.
      assert (inject_Z (Qround.Qfloor x) < inject_Z (max_samples + 1))%Q by (eapply Qle_lt_trans; [apply Qround.Qfloor_le|exact B]).
      rewrite <- Zlt_Qlt in H. lia. }
    apply (IH (S i)).
    - cbn [state_at]. destruct Qs as [-> ->]. auto.
    - intros j Hj. destruct (Nat.eq_dec j i) as [->|]; auto. apply Pos. lia.
    - lia.
    - intros j Hj. destruct (Nat.eq_dec j i) as [->|]; auto. apply Bd. lia.
    - destruct fuel; [|lia]. exfalso. lia.
  Qed.

  Theorem motion_stream_ends : (1 <= min_samples)%Z -> exists out,
    motion_stream dist verdicts smp ann sp max_samples factor start goal k (Z.to_nat max_samples + 2) pos min_samples = Some out.
  Proof.
    intro M. unfold motion_stream. destruct (conf_ok verdicts start) as [[|]|]; eauto. destruct (conf_ok verdicts goal) as [[|]|]; eauto.
    apply (attempts_end M (Z.to_nat max_samples + 2) 0 (prm_new pos)); try lia. reflexivity.
  Qed.
End Stream.
Print Assumptions motion_stream_exact.
Print Assumptions motion_stream_ends.

(** The path found: it leads from the start to the goal through drawn samples, and the checker
    accepted every leg, in one direction or the other, in some call. *)
Lemma chain_legs {P} (verdicts : list (P * P) -> option (list bool)) (ss : list P) nn : forall ids ps, visits ss ids ps -> chain verdicts ss nn ids ->
  forall j p q, nth_error ps j = Some p -> nth_error ps (S j) = Some q -> exists batch, judged verdicts batch (p, q) \/ judged verdicts batch (q, p).
Proof.
  induction 1 as [|u p' ids ps Hu V IH]; intros C j p q Hp Hq; [destruct j; discriminate|].
  destruct ids as [|v ids]; [inversion V; subst; destruct j as [|j]; discriminate|].
  cbn [chain] in C. destruct C as [J C]. destruct j as [|j].
  - apply visits_cons in V as (q' & ps' & -> & Hv & _). cbn in Hp, Hq. injection Hp as <-. injection Hq as <-.
    exists (neighbour_motions ss nn). destruct J as [(_ & a & b & Ha & Hb & J)|(_ & a & b & Ha & Hb & J)]; [left|right]; congruence.
  - cbn [nth_error] in Hp. apply (IH C j); auto.
Qed.

Section Path.
  Context {P : Type}.
  Variable dist : P -> P -> Q.
  Variable verdicts : list (P * P) -> option (list bool).
  Variable smp : nat -> P.
  Variable ann : list P -> nat -> rows.
  Variable sp : sp_oracle.
  Hypothesis CH : array_checker verdicts.
  Hypothesis dist_nonneg : forall p q, (0 <= dist p q)%Q.
  Hypothesis dist_sym : forall p q, (dist p q == dist q p)%Q.
  Hypothesis ANN : ann_shape dist ann.
  Hypothesis SP : sp_correct sp.
  Variables (max_samples : Z) (factor : Q) (start goal : P) (k pos : nat) (min_samples : Z).

  Theorem stream_path_checked fuel sizes path : (1 <= min_samples)%Z -> 1 <= k ->
    motion_stream dist verdicts smp ann sp max_samples factor start goal k fuel pos min_samples = Some (Found sizes path) ->
    (exists mids, path = [start] ++ mids ++ [goal] /\ mids <> [] /\ forall p, In p mids -> exists j, pos < j /\ p = smp j) /\
    forall j p q, nth_error path j = Some p -> nth_error path (S j) = Some q ->
      exists batch, judged verdicts batch (p, q) \/ judged verdicts batch (q, p).
  Proof.
    intros M K H. apply (motion_stream_exact dist verdicts smp ann sp CH dist_nonneg dist_sym ANN SP max_samples factor start goal k pos min_samples M K) in H.
    destruct H as (Js & Jg & i & mids & _ & _ & _ & Ep & (r & ids & _ & (a & Ha & Es & C & Et) & V & _)).
    destruct ids as [|u ids]; [discriminate|]. injection Ha as ->.
    pose proof V as V0. apply visits_cons in V as (p0 & ps & -> & Hp0 & V).
    split.
    - exists (p0 :: ps). split; auto. split; [discriminate|]. intros p Hp. apply In_nth_error in Hp as (j & Hj).
      assert (G : exists v, nth_error (drawn smp pos (size_at factor min_samples i)) v = Some p).
      { clear - V0 Hj. revert j Hj. induction V0 as [|v y l ps' Hv V IH]; intros j Hj; destruct j; try discriminate; cbn in Hj; [injection Hj as <-; eauto|eauto]. }
      destruct G as (v & Hv). unfold drawn in Hv. rewrite nth_error_map in Hv. destruct (nth_error (seq _ _) v) as [x|] eqn:X; [|discriminate].
      cbn in Hv. injection Hv as <-. exists x. split; auto. apply nth_error_In, in_seq in X. lia.
    - intros j p q Hp Hq. subst path. cbn [app] in Hp, Hq. destruct j as [|j].
      + cbn in Hp, Hq. injection Hp as <-. injection Hq as <-. destruct Es as (p' & Hp' & _ & J). rewrite Hp0 in Hp'. injection Hp' as <-. eauto.
      + cbn [nth_error] in Hp. change (nth_error ((p0 :: ps) ++ [goal]) j = Some p) in Hp.
        change (nth_error ((p0 :: ps) ++ [goal]) (S j) = Some q) in Hq.
        assert (Lj : S j < length ((p0 :: ps) ++ [goal])) by (apply nth_error_Some; congruence).
        rewrite app_length in Lj. cbn [length] in Lj.
        rewrite nth_error_app1 in Hp by (cbn [length]; lia).
        destruct (Nat.eq_dec j (length ps)) as [->|Nj].
        * rewrite nth_error_app2 in Hq by (cbn [length]; lia). replace (S (length ps) - length (p0 :: ps)) with 0 in Hq by (cbn [length]; lia).
          injection Hq as <-. destruct Et as (p' & Hp' & _ & J).
          replace (last (a :: ids) a) with (last ids a) in Hp' by (destruct ids; reflexivity).
          assert (L := visits_last (drawn smp pos (size_at factor min_samples i)) ids a p0 ps V0). rewrite Hp' in L. injection L as ->.
          assert (E : nth_error (p0 :: ps) (length ps) = Some (last ps p0)).
          { clear. revert p0. induction ps as [|y l IH]; intro p0; [reflexivity|]. cbn [length nth_error]. rewrite IH. f_equal. clear. revert y p0.
            induction l as [|z l IH]; intros; auto. change (last (z :: l) y = last (z :: l) p0). now rewrite <- !IH. }
          rewrite E in Hp. injection Hp as <-. eauto.
        * rewrite nth_error_app1 in Hq by (cbn [length]; lia).
          apply (chain_legs verdicts (drawn smp pos (size_at factor min_samples i)) _ (a :: ids) (p0 :: ps) V0 C j); auto.
  Qed.
End Path.
Print Assumptions stream_path_checked.

(** ** The stream only asks the checker about the start, the goal and the samples *)
Section Ext.
  Context {P : Type}.
  Variable dist : P -> P -> Q.
  Variables v1 v2 : list (P * P) -> option (list bool).
  Variable smp : nat -> P.
  Variable ann : list P -> nat -> rows.
  Variable sp : sp_oracle.
  Variable D : P -> Prop.
  Hypothesis agree : forall b, (forall m, In m b -> D (fst m) /\ D (snd m)) -> v1 b = v2 b.
  Hypothesis Dsmp : forall j, D (smp j).

  Lemma query_samples_ext ss r q : Forall D ss -> D q -> batch_query_samples dist v1 ss r q = batch_query_samples dist v2 ss r q.
  Proof.
    intros F Hq. unfold batch_query_samples. rewrite agree; [reflexivity|]. intros m Hm. apply in_map_iff in Hm as (ip & <- & I).
    apply filter_In in I as [I _]. destruct ip as [i p]. apply in_combine_r in I. rewrite Forall_forall in F. cbn [fst snd]. auto.
  Qed.
  Lemma to_graph_ext ss nn : Forall D ss -> batch_to_graph v1 ss nn = batch_to_graph v2 ss nn.
  Proof.
    intro F. unfold batch_to_graph. destruct (sample_pairs ss _) as [ms|] eqn:E; auto. rewrite agree; [reflexivity|].
    revert ms E. generalize (row_edges nn 0 None). rewrite Forall_forall in F.
    induction l as [|e l IH]; intros ms E m Hm; cbn [sample_pairs] in E; [injection E as <-; destruct Hm|].
    unfold sample_pair in E. destruct (nth_error ss (fst (fst e))) as [p|] eqn:Ep; [|discriminate].
    destruct (nth_error ss (snd (fst e))) as [q|] eqn:Eq; [|discriminate].
    destruct (sample_pairs ss l) as [ms'|]; [|discriminate]. injection E as <-. destruct Hm as [<-|Hm]; [|eauto].
    cbn [fst snd]. split; apply F; eapply nth_error_In; eauto.
  Qed.
  Lemma grow_ext k st n : (forall ss, ps_samples st = Some ss -> Forall D ss) ->
    prm_grow v1 smp ann k st n = prm_grow v2 smp ann k st n /\
    forall st', prm_grow v1 smp ann k st n = Ok st' -> forall ss, ps_samples st' = Some ss -> Forall D ss.
  Proof.
    intro F.
    assert (Dr : forall a m, Forall D (draw smp a m)) by (intros; apply Forall_forall; intros x Hx; apply in_map_iff in Hx as (j & <- & _); apply Dsmp).
    assert (Rb : forall ss next m, Forall D ss -> prm_rebuild v1 ann k ss next m = prm_rebuild v2 ann k ss next m /\
       forall st', prm_rebuild v1 ann k ss next m = Ok st' -> forall ss', ps_samples st' = Some ss' -> Forall D ss').
    { intros ss next m Fs. unfold prm_rebuild. rewrite to_graph_ext by auto. split; auto. intros st' R ss' E.
      destruct (batch_to_graph _ _ _); [|discriminate]. destruct (min_last _); [|discriminate]. injection R as <-. cbn in E. congruence. }
    unfold prm_grow. destruct (ps_samples st) as [old|] eqn:E; [|now apply Rb].
    destruct (n <=? length old); [split; [reflexivity|discriminate]|]. apply Rb. apply Forall_app. auto.
  Qed.
  Lemma query_ext st s t : (forall ss, ps_samples st = Some ss -> Forall D ss) -> D s -> D t ->
    prm_query dist v1 sp st s t = prm_query dist v2 sp st s t.
  Proof.
    intros F Hs Ht. unfold prm_query. destruct (ps_samples st) as [ss|]; auto. destruct (ps_cert st) as [r|]; auto. destruct (ps_graph st); auto.
    now rewrite !query_samples_ext by auto.
  Qed.
  Lemma query_keeps st s t d path st' : prm_query dist v1 sp st s t = Ok (d, path, st') -> ps_samples st' = ps_samples st.
  Proof.
    unfold prm_query. intro Q. destruct (ps_samples st) as [ss|]; [|discriminate]. destruct (ps_cert st); [|discriminate].
    destruct (ps_graph st); [|discriminate]. destruct (batch_query_samples _ _ _ _ _); [|discriminate].
    destruct (batch_query_samples _ _ _ _ _); [|discriminate]. destruct (loop_in _ _ _) as [[g3 n1] n2].
    destruct (sp g3 n1 n2) as [[? ?]|]; (destruct (take_rows _ _); [|discriminate]); injection Q as _ _ <-; auto.
  Qed.
  Lemma attempts_ext maxs factor s t k : D s -> D t -> forall fuel x st sizes, (forall ss, ps_samples st = Some ss -> Forall D ss) ->
    attempts dist v1 smp ann sp maxs factor s t k fuel x st sizes = attempts dist v2 smp ann sp maxs factor s t k fuel x st sizes.
  Proof.
    intros Hs Ht. induction fuel as [|fuel IH]; intros x st sizes F; cbn [attempts]; auto.
    destruct (Qlt_bool _ _); auto. destruct (_ && _); auto.
    destruct (grow_ext k st (Z.to_nat (Qint x)) F) as [<- G]. destruct (prm_grow v1 smp ann k st _) as [st1|e]; auto.
    rewrite <- (query_ext st1 s t) by eauto. destruct (prm_query dist v1 sp st1 s t) as [[[d path] st2]|e] eqn:Q; auto.
    destruct path; auto. apply IH. intros ss E. apply query_keeps in Q. rewrite Q in E. eauto.
  Qed.
  Lemma motion_stream_ext maxs factor s t k fuel pos mins : D s -> D t ->
    motion_stream dist v1 smp ann sp maxs factor s t k fuel pos mins = motion_stream dist v2 smp ann sp maxs factor s t k fuel pos mins.
  Proof.
    intros Hs Ht. unfold motion_stream.
    assert (C : forall p, D p -> conf_ok v1 p = conf_ok v2 p).
    { intros p Hp. unfold conf_ok. rewrite agree; auto. intros m [<-|[]]. auto. }
    rewrite !C by auto. destruct (conf_ok v2 s) as [[|]|]; auto. destruct (conf_ok v2 t) as [[|]|]; auto.
    apply attempts_ext; auto. discriminate.
  Qed.
End Ext.

(** ** When the stream raises *)
Section Raises.
  Context {P : Type}.
  Variable dist : P -> P -> Q.
  Variable verdicts : list (P * P) -> option (list bool).
  Variable smp : nat -> P.
  Variable ann : list P -> nat -> rows.
  Variable sp : sp_oracle.
  Hypothesis CH : array_checker verdicts.
  Hypothesis dist_nonneg : forall p q, (0 <= dist p q)%Q.
  Hypothesis dist_sym : forall p q, (dist p q == dist q p)%Q.
  Hypothesis ANN : ann_shape dist ann.
  Hypothesis SP : sp_correct sp.
  Variables (max_samples : Z) (factor : Q) (start goal : P) (k pos : nat) (min_samples : Z).
  Hypothesis M : (1 <= min_samples)%Z.
  Hypothesis grows : (inject_Z min_samples + 1 <= inject_Z min_samples * factor)%Q.

  Lemma count_least i : (inject_Z min_samples <= count min_samples factor i /\ 1 <= factor)%Q.
  Proof.
    assert (M' : (1 <= inject_Z min_samples)%Q) by (change 1%Q with (inject_Z 1); rewrite <- Zle_Qle; auto).
    assert (F : (1 <= factor)%Q).
    { apply Qnot_lt_le. intro L. assert (inject_Z min_samples * factor <= inject_Z min_samples * 1)%Q.
      { apply Qmult_le_l; [lra|]. lra. }
      lra. }
    split; auto. induction i as [|i IH]; [apply Qle_refl|].
    change (count min_samples factor (S i)) with (count min_samples factor i * factor)%Q.
    assert (count min_samples factor i * 1 <= count min_samples factor i * factor)%Q by (apply Qmult_le_l; lra). lra.
  Qed.
  Lemma size_grows i : size min_samples factor i < size min_samples factor (S i).
  Proof.
    destruct (count_least i) as [L F]. assert (M' : (1 <= inject_Z min_samples)%Q) by (change 1%Q with (inject_Z 1); rewrite <- Zle_Qle; auto).
    set (x := count min_samples factor i) in *.
    assert (G : (x + 1 <= x * factor)%Q).
    { assert (E : (inject_Z min_samples * 1 <= inject_Z min_samples * (inject_Z min_samples * (factor - 1)))%Q) by (apply Qmult_le_l; lra).
      assert (0 <= factor - 1)%Q by lra.
      assert (inject_Z min_samples * (factor - 1) <= x * (factor - 1))%Q by (apply Qmult_le_compat_r; auto). lra. }
    unfold size. change (count min_samples factor (S i)) with (x * factor)%Q. fold x.
    unfold Qint. assert (P1 : Qle_bool 0 x = true) by (apply Qle_bool_iff; lra). assert (P2 : Qle_bool 0 (x * factor) = true) by (apply Qle_bool_iff; lra).
    rewrite P1, P2. assert (H : (Qround.Qfloor (x + inject_Z 1) <= Qround.Qfloor (x * factor))%Z) by (apply Qround.Qfloor_resp_le; exact G).
    assert (E : Qround.Qfloor (x + inject_Z 1) = (Qround.Qfloor x + 1)%Z).
    { unfold Qround.Qfloor, Qplus, inject_Z. destruct x as [a b]. cbn [Qnum Qden]. rewrite Pos.mul_1_r, Z.mul_1_r. apply Z.div_add. lia. }
    assert (0 <= Qround.Qfloor x)%Z by (change 0%Z with (Qround.Qfloor 0); apply Qround.Qfloor_resp_le; lra). lia.
  Qed.

  (** when the counts grow by at least one, the only exceptions are calls on an empty array *)
  Theorem stream_no_exception : 1 <= k ->
    (forall i, (count min_samples factor i < inject_Z (max_samples + 1))%Q ->
       let n := size min_samples factor i in ~ attempt_raises dist (drawn smp pos n) (lists smp ann k pos n) start goal) ->
    forall fuel out, motion_stream dist verdicts smp ann sp max_samples factor start goal k fuel pos min_samples = Some out ->
    forall e sizes, out <> Raised e sizes.
  Proof.
    intros K NR fuel out H e sizes ->. cbv zeta in NR.
    apply (motion_stream_exact dist verdicts smp ann sp CH dist_nonneg dist_sym ANN SP max_samples factor start goal k pos min_samples M K) in H.
    destruct H as (_ & _ & i & _ & B & [(_ & I & _ & L)|(_ & _ & _ & R)]).
    - unfold size_at in L. pose proof (size_grows (i - 1)) as G. replace (S (i - 1)) with i in G by lia. lia.
    - exact (NR i B R).
  Qed.
End Raises.
Print Assumptions stream_no_exception.

(** ** Examples, on the integers *)
Definition row_checker (c : Z * Z -> bool) (b : list (Z * Z)) : option (list bool) := match b with [] => None | _ => Some (map c b) end.
Lemma row_array_checker c : array_checker (row_checker c).
Proof. split; [reflexivity|]. intros [|m b] N; [congruence|]. exists c. reflexivity. Qed.
(** motions no longer than two *)
Definition within2 (m : Z * Z) : bool := (Z.abs (fst m - snd m) <=? 2)%Z.
Definition zrun c l max_samples factor s t k min_samples :=
  motion_stream zdist (row_checker c) (stream l) zann sp_enum max_samples factor s t k 20 0 min_samples.

(** two roadmaps have no route, the third has *)
Example stream_finds_path : zrun within2 [0; 2; 6; 8; 4; 5; 9]%Z 8 (3 # 2) 1%Z 7%Z 3 3 = Some (Found [3; 4; 6]%Z [1; 2; 4; 6; 7]%Z).
Proof. reflexivity. Qed.
Example stream_runs_out : zrun (fun m => wall5 (fst m) (snd m)) [0; 2; 6; 8; 4; 5; 9]%Z 7 (3 # 2) 1%Z 7%Z 2 4 = Some (NoPath [4; 6]%Z).
Proof. reflexivity. Qed.
(** the hypotheses of the theorems hold of these runs *)
Example stream_finds_path_spec : attempt_fails zdist (row_checker within2) [0; 2; 6]%Z (zann [0; 2; 6]%Z 2) 1%Z 7%Z /\
  exists mids, attempt_solves zdist (row_checker within2) [0; 2; 6; 8; 4; 5]%Z (zann [0; 2; 6; 8; 4; 5]%Z 3) 1%Z 7%Z mids.
Proof.
  pose proof (motion_stream_exact zdist (row_checker within2) (stream [0; 2; 6; 8; 4; 5; 9]%Z) zann sp_enum (row_array_checker within2)
    zdist_nonneg zdist_sym (fun ss k => proj1 (brute_ann_exact zdist ss k)) sp_enum_correct 8 (3 # 2) 1%Z 7%Z 3 0 3 ltac:(lia) ltac:(lia) 20 _ stream_finds_path) as H.
  destruct H as (_ & _ & i & mids & Ht & AF & _ & _ & S).
  assert (i = 2) as ->.
  { apply (f_equal (@length Z)) in Ht. unfold tried in Ht. rewrite map_length, seq_length in Ht. cbn in Ht. lia. }
  split; [exact (AF 0 ltac:(lia))|]. exists mids. exact S.
Qed.

(** the sizes need not grow: int() of the next count may be the old size *)
Theorem stream_sizes_grow_refuted : exists c l max_samples factor s t k min_samples sizes,
  (1 < factor)%Q /\ (1 <= min_samples)%Z /\ zrun c l max_samples factor s t k min_samples = Some (Raised ArithmeticError sizes).
Proof.
  exists within2, [0; 2; 6; 8; 4; 5; 9]%Z, 8%Z, (11 # 10)%Q, 1%Z, 7%Z, 1, 4%Z, [4]%Z. split; [reflexivity|]. split; [lia|]. reflexivity.
Qed.
Print Assumptions stream_sizes_grow_refuted.

(** the first roadmap has samples near both ends *)
Example no_exception_case : ~ attempt_raises zdist [0; 2; 6]%Z (zann [0; 2; 6]%Z 2) 1%Z 7%Z /\
  forall i, (count 3 (3 # 2) i < inject_Z (3 + 1))%Q -> size 3 (3 # 2) i = 3.
Proof.
  split.
  - intros [H|(r & ((l & x & H) & _) & N)]; [discriminate|].
    assert (R : (4 <= r)%Q).
    { change (zann [0; 2; 6]%Z 2) with [[(1, zdist 0 2); (2, zdist 0 6)]; [(0, zdist 2 0); (2, zdist 2 6)]; [(1, zdist 6 2); (0, zdist 6 0)]] in H.
      destruct H as [H|[H|[H|[]]]]; destruct l as [|e1 [|e2 [|e3 l]]]; try discriminate; injection H as _ _ <-; discriminate. }
    assert (A : forall p q, (zdist p q <= 4)%Q -> In p [0; 2; 6]%Z -> near zdist [0; 2; 6]%Z r q <> []).
    { intros p q D I E. assert (J : In p (near zdist [0; 2; 6]%Z r q)) by (apply near_In; split; auto; lra). rewrite E in J. destruct J. }
    destruct N as [N|N]; revert N; [apply (A 0%Z)|apply (A 6%Z)]; try discriminate; cbn; auto.
  - intros [|i] H; [reflexivity|]. exfalso.
    assert (C : forall j, (9 # 2 <= count 3 (3 # 2) (S j))%Q).
    { induction j as [|j IH]; [discriminate|]. change (count 3 (3 # 2) (S (S j))) with (count 3 (3 # 2) (S j) * (3 # 2))%Q. lra. }
    specialize (C i). change (inject_Z (3 + 1)) with 4%Q in H. lra.
Qed.
