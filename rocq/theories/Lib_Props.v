(** C179 The roadmap does not depend on the neighbour library that is installed

    Model: Lib_Model.v (ann.py 95-138), with the nearest neighbour roadmap of Prm_Model.v. *)
From Coq Require Import Arith List QArith ZArith Bool Lia String.
From Coq Require Lqa.
From Verif Require Import NkGraph_Model NkGraph_Spec Prm_Model Prm_Spec PrmQuery_Proofs PrmFc_Proofs PrmNn_Proofs PrmAnn_Inst
  PrmNn_Props Sp_Oracle PrmEx Lib_Model.
Import ListNotations.
Close Scope Q_scope.
Close Scope string_scope.

(** ** Specification *)
(** the same links between different samples; the second graph has besides a loop at every sample whose own motion is valid *)
Definition linked (g : graph) (u v : nat) : Prop := exists w, edge g u v w.
Definition same_but_loops {P} (check : P -> P -> bool) (ss : list P) (g g' : graph) : Prop :=
  (forall u v, u <> v -> (linked g u v <-> linked g' u v)) /\
  (forall u, ~ linked g u u) /\
  (forall u, linked g' u u <-> exists p, nth_error ss u = Some p /\ check p p = true).
Definition same_distance (d d' : option Q) : Prop :=
  match d, d' with Some x, Some y => (x == y)%Q | None, None => True | _, _ => False end.

Section Lib.
  Context {P : Type}.
  Variable dist : P -> P -> Q.
  Variable check : P -> P -> bool.
  Variable smp : nat -> P.
  Variable near : list P -> nat -> rows.
  Variable sp : sp_oracle.
  Hypothesis dist_nonneg : forall p q, (0 <= dist p q)%Q.
  Hypothesis dist_sym : forall p q, (dist p q == dist q p)%Q.
  Hypothesis dist_self : forall p, (dist p p == 0)%Q.
  Hypothesis SP : sp_correct sp.
  Hypothesis NEAR : ann_exact dist near.
  Notation pynn := (pynn near).

  (** ** the lists of pynndescent *)
  Lemma near_len ss k : List.length (near ss k) = List.length ss.
  Proof. destruct (NEAR ss k) as [(L & _) _]. exact L. Qed.
  Lemma pynn_S ss k : S k <= List.length ss - 1 ->
    pynn ss (S k) = map (fun ur => (fst ur, 0%Q) :: snd ur) (combine (seq 0 (List.length ss)) (near ss k)).
  Proof. intro H. unfold Lib_Model.pynn. rewrite Nat.min_l by lia. reflexivity. Qed.
  Lemma pynn_0 ss k : Nat.min k (List.length ss - 1) = 0 -> pynn ss k = map (fun _ => []) ss.
  Proof. intro H. unfold Lib_Model.pynn. now rewrite H. Qed.
  Lemma pynn_min ss k : pynn ss k = pynn ss (Nat.min k (List.length ss - 1)).
  Proof. unfold Lib_Model.pynn. now rewrite Nat.min_l with (n := Nat.min k (List.length ss - 1)) by lia. Qed.
  Lemma row_pynn ss k u : S k <= List.length ss - 1 ->
    nth_error (pynn ss (S k)) u = option_map (fun row => (u, 0%Q) :: row) (nth_error (near ss k) u).
  Proof.
    intro H. rewrite pynn_S by auto. assert (L : List.length ss = List.length (near ss k)) by now rewrite near_len. rewrite L.
    assert (G : forall (l : rows) a u, nth_error (map (fun ur => (fst ur, 0%Q) :: snd ur) (combine (seq a (List.length l)) l)) u =
                                   option_map (fun row => (a + u, 0%Q) :: row) (nth_error l u)).
    { clear. induction l as [|r l IH]; intros a [|u]; cbn; auto.
      - now rewrite Nat.add_0_r.
      - rewrite IH. now rewrite Nat.add_succ_r. }
    apply G.
  Qed.
  Lemma lists_pynn ss k u v i d : S k <= List.length ss - 1 ->
    lists_at (pynn ss (S k)) u v i d <->
    match i with 0 => u < List.length ss /\ v = u /\ d = 0%Q | S i => lists_at (near ss k) u v i d end.
  Proof.
    intro H. unfold lists_at. rewrite row_pynn by auto. split.
    - intros (row & E & N). destruct (nth_error (near ss k) u) as [r|] eqn:Er; [|discriminate]. cbn in E. injection E as <-.
      destruct i as [|i]; cbn in N.
      + injection N as <- <-. split; auto. rewrite <- (near_len ss k). apply nth_error_Some. congruence.
      + eauto.
    - destruct i as [|i].
      + intros (Hu & -> & ->). rewrite <- (near_len ss k) in Hu. apply nth_error_Some in Hu. destruct (nth_error (near ss k) u); [|congruence].
        eexists. split; reflexivity.
      + intros (r & -> & N). eexists. split; [reflexivity|]. exact N.
  Qed.
  Lemma pynn_shape : ann_shape dist pynn.
  Proof.
    intros ss k. rewrite pynn_min. destruct (Nat.min k (List.length ss - 1)) as [|k'] eqn:M.
    - rewrite pynn_0 by reflexivity. split; [apply map_length|]. split.
      + intros row H. apply in_map_iff in H. destruct H as (p & <- & _). reflexivity.
      + assert (N : forall u v i d, ~ lists_at (map (fun _ : P => @nil (nat * Q)) ss) u v i d).
        { intros u v i d (row & H1 & H2). apply nth_error_In, in_map_iff in H1. destruct H1 as (_ & <- & _). destruct i; discriminate. }
        split; intros u v i d H; exfalso; eapply N; eauto.
    - assert (B : S k' <= List.length ss - 1) by lia. destruct (NEAR ss k') as [(L & Rows & Ids & Ds) _].
      split; [|split; [|split]].
      + rewrite pynn_S, map_length, combine_length, seq_length, L by auto. lia.
      + intros row H. apply In_nth_error in H. destruct H as (u & H). rewrite row_pynn in H by auto.
        destruct (nth_error (near ss k') u) as [r|] eqn:Er; [|discriminate]. injection H as <-. cbn.
        rewrite (Rows r) by (eapply nth_error_In; eauto). rewrite Nat.min_l by lia. reflexivity.
      + intros u v [|i] d H; rewrite lists_pynn in H by auto; [lia|]. eauto.
      + intros u v [|i] d H; rewrite lists_pynn in H by auto; [|eauto].
        destruct H as (Hu & -> & ->). apply nth_error_Some in Hu. destruct (nth_error ss u) as [p|] eqn:E; [|congruence].
        exists p, p. split; auto. split; auto. now rewrite dist_self.
  Qed.
  Lemma near_self ss k u i d : ~ lists_at (near ss k) u u i d.
  Proof.
    intros (row & H1 & H2). destruct (NEAR ss k) as [_ X]. destruct (X u row H1) as (_ & Ns & _). apply Ns.
    apply in_map_iff. exists (u, d). split; auto. eapply nth_error_In; eauto.
  Qed.
  Lemma throw_pynn ss kk k : S kk <= List.length ss - 1 -> throw_away (pynn ss (S kk)) (S k) = throw_away (near ss kk) k.
  Proof.
    intro H. unfold throw_away. rewrite pynn_S by auto. assert (L : List.length ss = List.length (near ss kk)) by now rewrite near_len. rewrite L.
    rewrite map_length, combine_length, seq_length, Nat.min_id.
    assert (G : forall (l : rows) a,
      flat_map (fun ur => map (fun vd : nat * Q => (fst ur, fst vd)) (skipn (S k) (snd ur)))
        (combine (seq a (List.length l)) (map (fun ur => (fst ur, 0%Q) :: snd ur) (combine (seq a (List.length l)) l))) =
      flat_map (fun ur => map (fun vd => (fst ur, fst vd)) (skipn k (snd ur))) (combine (seq a (List.length l)) l)).
    { clear. induction l as [|r l IH]; intro a; auto. cbn [List.length seq combine map flat_map fst snd skipn]. now rewrite IH. }
    apply G.
  Qed.
  Lemma min_last_cons r r' (l : rows) : min_last (r :: r' :: l) =
    match last_dist r, min_last (r' :: l) with Some a, Some b => Some (if Qle_bool a b then a else b) | _, _ => None end.
  Proof. reflexivity. Qed.
  Lemma min_last_pynn ss k : 1 <= k -> S k <= List.length ss - 1 -> min_last (pynn ss (S k)) = min_last (near ss k).
  Proof.
    intros Hk H. rewrite pynn_S by auto. assert (L : List.length ss = List.length (near ss k)) by now rewrite near_len. rewrite L.
    assert (Ne : forall row, In row (near ss k) -> row <> []).
    { destruct (NEAR ss k) as [(_ & Rows & _) _]. intros row Hr E. subst. apply Rows in Hr. cbn in Hr. lia. }
    revert Ne. generalize (near ss k). intro l. generalize 0.
    induction l as [|r l IH]; intros a Ne; auto. cbn [List.length seq combine map fst snd].
    assert (Hl : last_dist ((a, 0%Q) :: r) = last_dist r).
    { destruct r as [|e r]; [exfalso; apply (Ne []); cbn; auto|]. cbn. f_equal. f_equal. destruct r; auto.
      clear. revert e p. induction r as [|x r IH]; intros; auto. cbn in *. apply (IH e x). }
    destruct l as [|r' l]; [exact Hl|]. specialize (IH (S a)). cbn [List.length seq combine map fst snd] in *.
    rewrite !min_last_cons, Hl, IH; [reflexivity|]. intros; apply Ne; cbn; auto.
  Qed.

  (** ** graphs *)
  Lemma built_same ss k g g' : S k <= List.length ss - 1 ->
    nn_roadmap check ss (near ss k) 0 None g -> nn_roadmap check ss (pynn ss (S k)) 0 None g' -> same_but_loops check ss g g'.
  Proof.
    intros B (_ & _ & G & _) (_ & _ & G' & _).
    assert (Lk : forall u v, u <> v -> ((exists d, nn_link check ss (near ss k) 0 None u v d) <-> (exists d, nn_link check ss (pynn ss (S k)) 0 None u v d))).
    { intros u v N. split; intros (d & A & (i & Hi) & C & D); exists d; split; auto; split; auto.
      - exists (S i). apply lists_pynn; auto.
      - apply lists_pynn in Hi; auto. destruct i as [|i]; [destruct Hi as (_ & E & _); congruence|eauto]. }
    split; [|split].
    - intros u v N. unfold linked. rewrite G, G'. pose proof (Lk u v N) as L1. pose proof (Lk v u (not_eq_sym N)) as L2. split; intros (d & [H|H]).
      + destruct (proj1 L1 (ex_intro _ d H)) as (d' & ?). eauto.
      + destruct (proj1 L2 (ex_intro _ d H)) as (d' & ?). eauto.
      + destruct (proj2 L1 (ex_intro _ d H)) as (d' & ?). eauto.
      + destruct (proj2 L2 (ex_intro _ d H)) as (d' & ?). eauto.
    - intros u H. apply G in H. destruct H as (d & [(_ & (i & Hi) & _)|(_ & (i & Hi) & _)]); eapply near_self; eauto.
    - intro u. unfold linked. rewrite G'. split.
      + intros (d & [(_ & _ & _ & p & q & E1 & E2 & C)|(_ & _ & _ & p & q & E1 & E2 & C)]); exists p; split; auto; congruence.
      + intros (p & E & C). exists 0%Q. left. split; [lia|]. split; [|split; [discriminate|exists p, p; auto]].
        exists 0. apply lists_pynn; auto. split; auto. apply nth_error_Some. congruence.
  Qed.
  Lemma dropped_same ss k k0 g g' : wf g -> wf g' -> same_but_loops check ss g g' ->
    same_but_loops check ss (drop_edges (throw_away (near ss k) k0) g) (drop_edges (throw_away (near ss k) k0) g').
  Proof.
    intros W W' (A & B & C). set (es := throw_away (near ss k) k0).
    destruct (drop_edges_spec check smp es g W) as (_ & _ & _ & D). destruct (drop_edges_spec check smp es g' W') as (_ & _ & _ & D').
    assert (N : forall u, ~ In (u, u) es).
    { intros u H. apply (throw_away_In check smp) in H. destruct H as (i & d & _ & H). eapply near_self; eauto. }
    unfold linked in *. split; [|split].
    - intros u v Ne. split; intros (w & E); [apply D in E|apply D' in E]; destruct E as (E & F).
      + destruct (proj1 (A u v Ne) (ex_intro _ w E)) as (w' & E'). exists w'. apply D'. auto.
      + destruct (proj2 (A u v Ne) (ex_intro _ w E)) as (w' & E'). exists w'. apply D. auto.
    - intros u (w & E). apply D in E. apply (B u). exists w. tauto.
    - intro u. rewrite <- C. split; intros (w & E); exists w; [apply D' in E; tauto|apply D'; auto].
  Qed.
  Lemma same_graph_same ss g g' h h' : same_graph h g -> same_graph h' g' -> same_but_loops check ss g g' -> same_but_loops check ss h h'.
  Proof.
    intros (_ & H) (_ & H') (A & B & C).
    assert (L : forall u v, linked h u v <-> linked g u v) by (intros; unfold linked, edge; now rewrite H).
    assert (L' : forall u v, linked h' u v <-> linked g' u v) by (intros; unfold linked, edge; now rewrite H').
    split; [|split]; intros.
    - rewrite L, L'. auto.
    - rewrite L. auto.
    - rewrite L'. auto.
  Qed.

  (** ** shortest paths *)
  Definition weighs (ss : list P) (g : graph) : Prop :=
    forall u v w, edge g u v w -> exists p q, nth_error ss u = Some p /\ nth_error ss v = Some q /\ (w == dist p q)%Q.
  Lemma trail_there ss g g' : weighs ss g -> weighs ss g' -> same_but_loops check ss g g' ->
    forall l c, trail (edge g) l c -> exists c', trail (edge g') l c' /\ (c' == c)%Q.
  Proof.
    intros W W' (A & B & _) l c T. induction T as [i|i j l w c E T IH].
    - exists 0%Q. split; [constructor|reflexivity].
    - destruct IH as (c' & T' & Ec). assert (Ne : i <> j) by (intros ->; apply (B j); exists w; auto).
      destruct (proj1 (A i j Ne) (ex_intro _ w E)) as (w' & E'). exists (w' + c')%Q. split; [now constructor|].
      destruct (W _ _ _ E) as (p & q & P1 & P2 & Ew). destruct (W' _ _ _ E') as (p' & q' & P1' & P2' & Ew').
      assert (p' = p) by congruence. assert (q' = q) by congruence. subst. rewrite Ec, Ew, Ew'. reflexivity.
  Qed.
  Lemma trail_back ss g g' : weighs ss g -> weighs ss g' -> same_but_loops check ss g g' ->
    forall l c, trail (edge g') l c -> exists l' c', trail (edge g) l' c' /\ (c' == c)%Q /\ hd_error l' = hd_error l /\ forall a, last l' a = last l a.
  Proof.
    intros W W' (A & _ & _) l c T. induction T as [i|i j l w c E T IH].
    - exists [i], 0%Q. split; [constructor|]. split; [reflexivity|]. auto.
    - destruct IH as (l' & c' & T' & Ec & Hh & Hl). destruct l' as [|j' l']; [discriminate|]. injection Hh as ->.
      destruct (W' _ _ _ E) as (p & q & P1 & P2 & Ew). destruct (Nat.eq_dec i j) as [->|Ne].
      + exists (j :: l'), c'. split; auto. split; [|split; auto]. assert (q = p) by congruence. subst. rewrite Ec, Ew, dist_self. ring.
      + destruct (proj2 (A i j Ne) (ex_intro _ w E)) as (w' & E'). exists (i :: j :: l'), (w' + c')%Q. split; [now constructor|].
        destruct (W _ _ _ E') as (p' & q' & P1' & P2' & Ew'). assert (p' = p) by congruence. assert (q' = q) by congruence. subst.
        split; [rewrite Ec, Ew, Ew'; reflexivity|]. split; auto.
  Qed.
  Lemma answers_same ss r g g' s t d path d' path' : weighs ss g -> weighs ss g' -> same_but_loops check ss g g' ->
    right_answer dist check ss r (edge g) s t d path -> right_answer dist check ss r (edge g') s t d' path' -> same_distance d d'.
  Proof.
    intros W W' S R R'.
    assert (There : forall ids c, solution dist check ss r (edge g) s t ids c -> solution dist check ss r (edge g') s t ids c).
    { intros ids c (a & z & c0 & ds & dt & H1 & H2 & T & En1 & En2 & Ec). destruct (trail_there ss g g' W W' S _ _ T) as (c1 & T1 & E1).
      exists a, z, c1, ds, dt. split; auto. split; auto. split; auto. split; auto. split; auto. rewrite Ec, E1. reflexivity. }
    assert (Back : forall ids c, solution dist check ss r (edge g') s t ids c -> exists ids', solution dist check ss r (edge g) s t ids' c).
    { intros ids c (a & z & c0 & ds & dt & H1 & H2 & T & En1 & En2 & Ec). destruct (trail_back ss g g' W W' S _ _ T) as (l' & c1 & T1 & E1 & Hh & Hl).
      exists l', a, z, c1, ds, dt. split; [congruence|]. split; [now rewrite Hl|]. split; auto. split; auto. split; auto. rewrite Ec, E1. reflexivity. }
    destruct d as [d|], d' as [d'|]; cbn in *; auto.
    - destruct R as ((ids & So & _) & Min), R' as ((ids' & So' & _) & Min'). apply Qle_antisym.
      + destruct (Back _ _ So') as (i & Si). eauto.
      + eauto.
    - destruct R as ((ids & So & _) & _), R' as (_ & No). eapply No; eauto.
    - destruct R' as ((ids & So & _) & _), R as (_ & No). destruct (Back _ _ So) as (i & Si). eapply No; eauto.
  Qed.

  (** ** histories *)
  Definition one_more (op : nn_op (P := P)) : nn_op (P := P) := match op with NK k => NK (S k) | op => op end.
  (** growths to more than one sample beyond the neighbours, at least one neighbour, no change of the radius *)
  Definition fits (K : nat) (op : nn_op (P := P)) : Prop :=
    match op with NGrow n => K + 2 <= n | NK k => 1 <= k | NRadius _ => False | _ => True end.
  Let run1 := nn_run dist check smp near sp.
  Let run2 := nn_run dist check smp pynn sp.
  Definition alike (st st' : nn_state (P := P)) : Prop :=
    nn_max_k st' = S (nn_max_k st) /\ nn_k st' = S (nn_k st) /\ nn_conn_r st = None /\ nn_conn_r st' = None /\
    nn_trunc st = false /\ nn_trunc st' = false /\ nn_cert st' = nn_cert st /\ nn_samples st' = nn_samples st /\ nn_next st' = nn_next st /\
    1 <= nn_k st /\ nn_k st <= nn_max_k st /\
    (match nn_samples st with
     | None => True
     | Some ss => exists kk g g' c c', S kk <= List.length ss - 1 /\ nn_master st = Some (near ss kk) /\ nn_master st' = Some (pynn ss (S kk)) /\
         nn_graph st = Some g /\ nn_graph st' = Some g' /\ nn_cache st = Some c /\ nn_cache st' = Some c' /\
         same_but_loops check ss g g' /\ same_but_loops check ss c c'
     end) /\
    ((nn_master st = None /\ nn_master st' = None) \/ exists ss kk, S kk <= List.length ss - 1 /\ nn_master st = Some (near ss kk) /\ nn_master st' = Some (pynn ss (S kk))).

  Lemma rebuilt st st' ss next n : alike st st' -> List.length ss = n -> nn_max_k st + 2 <= n ->
    alike (snd (nn_rebuild check near st ss next n)) (snd (nn_rebuild check pynn st' ss next n)) /\
    exists x, nn_rebuild check near st ss next n = (Ok None, x).
  Proof.
    intros (M & K & _ & _ & T & T' & Ce & Sa & Ne & K1 & K2 & _) L Hn. unfold nn_rebuild. rewrite K, T, T', M.
    replace (Nat.min (n - 1) (nn_k st)) with (nn_k st) by lia. replace (Nat.min (n - 1) (S (nn_k st))) with (S (nn_k st)) by lia.
    set (k := nn_k st) in *. assert (B : S k <= List.length ss - 1) by lia.
    destruct (shape_to_graph dist check ss _ _ 0 None (exact_shape dist near NEAR ss k)) as (g & Eg & Rg & _).
    destruct (shape_to_graph dist check ss _ _ 0 None (pynn_shape ss (S k))) as (g' & Eg' & Rg' & _).
    rewrite Eg, Eg', min_last_pynn by auto. pose proof (built_same ss k g g' B Rg Rg') as Sm.
    destruct (min_last (near ss k)) as [cert|] eqn:Em.
    - split; [|eauto]. cbn [snd]. unfold alike. cbn [nn_max_k nn_k nn_conn_r nn_trunc nn_cert nn_samples nn_graph nn_master nn_cache nn_next].
      split; [auto|]. split; [auto|]. split; [auto|]. split; [auto|]. split; [auto|]. split; [auto|]. split; [auto|]. split; [auto|]. split; [auto|].
      split; [auto|]. split; [auto|]. split; [|right; exists ss, k; auto]. exists k, g, g', g, g'. auto 12.
    - exfalso. revert Em. destruct (NEAR ss k) as [(L' & Rows & _) _]. assert (Nr : forall row, In row (near ss k) -> exists d, last_dist row = Some d).
      { intros row Hr. apply Rows in Hr. destruct row; cbn in *; [lia|eauto]. }
      assert (Nn : near ss k <> []) by (intro E; rewrite E in L'; cbn in L'; lia). revert Nr Nn. generalize (near ss k). clear.
      induction r as [|r l IH]; [congruence|]. intros Nr _. destruct l as [|r' l].
      + destruct (Nr r) as (d & E); [cbn; auto|]. cbn. congruence.
      + rewrite min_last_cons. destruct (Nr r) as (d & ->); [cbn; auto|]. intro H. destruct (min_last (r' :: l)) eqn:E; [discriminate|].
        apply IH; auto; [|discriminate]. intros; apply Nr; cbn in *; auto.
  Qed.

  Lemma query_keeps st s t : nn_max_k (snd (nn_query dist check sp st s t)) = nn_max_k st /\ nn_trunc (snd (nn_query dist check sp st s t)) = nn_trunc (P := P) st.
  Proof.
    unfold nn_query. destruct (nn_samples st); auto. destruct (match nn_conn_r st with Some r => Some r | None => nn_cert st end); auto.
    destruct (nn_graph st); auto. destruct (query_best _ _ _ _ _ _ _ _). auto.
  Qed.
  Lemma graphs_wf ann ops k trunc pos ss g c : ann_shape dist ann -> let st := nn_run dist check smp ann sp ops (nn_new k trunc pos) in
    nn_samples st = Some ss -> nn_graph st = Some g -> nn_cache st = Some c -> wf g /\ wf c /\ weighs ss g.
  Proof.
    intros ANN st Hs Hg Hc. pose proof (nn_run_inv dist check smp dist_nonneg dist_sym ann ANN sp SP ops _ (nn_new_inv check ann k trunc pos)) as I.
    fold st in I. unfold nn_inv in I. rewrite Hs in I. destruct I as (kk & g0 & c0 & Hm & Hg0 & Hc0 & Hn & W & V & S).
    assert (g0 = g) by congruence. assert (c0 = c) by congruence. subst. split; auto. split; [apply Hn|].
    intros u v w E. apply S in E. eapply nn_roadmap_weight; eauto.
  Qed.
  Lemma histories_alike K pos ops : 1 <= K -> Forall (fits K) ops -> 
    alike (run1 ops (nn_new K false pos)) (run2 (map one_more ops) (nn_new (S K) false pos)) /\
    nn_max_k (run1 ops (nn_new K false pos)) = K.
  Proof.
    intro HK. induction ops as [|op ops IH] using rev_ind; intro F.
    - split; [|reflexivity]. cbn. unfold alike. cbn. auto 20.
    - apply Forall_app in F. destruct F as [F Fo]. apply Forall_inv in Fo. destruct (IH F) as [A M]. clear IH. rewrite map_app. cbn [map].
      unfold run1, run2, nn_run in *. rewrite !fold_left_app. cbn [fold_left].
      set (st := fold_left (nn_step dist check smp near sp) ops (nn_new K false pos)) in *.
      set (st' := fold_left (nn_step dist check smp pynn sp) (map one_more ops) (nn_new (S K) false pos)) in *.
      pose proof A as (M1 & K1 & C1 & C2 & T1 & T2 & Ce & Sa & Ne & Kl & Ku & Gr & Ma). destruct op as [n|r|k|s t|]; cbn [one_more nn_step fits] in *.
      + unfold nn_grow. rewrite Sa, Ne.
        assert (A0 : alike (mkNn (nn_max_k st) (nn_k st) None (nn_trunc st) (nn_cert st) (nn_samples st) (nn_graph st) (nn_master st) (nn_cache st) (nn_next st))
                           (mkNn (nn_max_k st') (nn_k st') None (nn_trunc st') (nn_cert st') (nn_samples st) (nn_graph st') (nn_master st') (nn_cache st') (nn_next st))).
        { unfold alike. cbn [nn_max_k nn_k nn_conn_r nn_trunc nn_cert nn_samples nn_graph nn_master nn_cache nn_next]. auto 20. }
        destruct (nn_samples st) as [old|] eqn:Hs.
        * destruct (Nat.leb_spec n (List.length old)); [cbn [snd]; auto|].
          destruct (rebuilt _ _ (old ++ draw smp (nn_next st) (n - List.length old)) (nn_next st + (n - List.length old)) n A0) as (B & x & E).
          { unfold draw. rewrite app_length, map_length, seq_length. lia. }
          { cbn. lia. }
          split; auto. unfold nn_rebuild in *. destruct (nn_to_graph _ _ _ _ _); [|discriminate]. destruct (min_last _); [|discriminate].
          cbn [nn_trunc nn_max_k] in *. rewrite T1 in *. cbn. auto.
        * destruct (rebuilt _ _ (draw smp (nn_next st) n) (nn_next st + n) n A0) as (B & x & E).
          { unfold draw. rewrite map_length, seq_length. lia. }
          { cbn. lia. }
          split; auto. unfold nn_rebuild in *. destruct (nn_to_graph _ _ _ _ _); [|discriminate]. destruct (min_last _); [|discriminate].
          cbn [nn_trunc nn_max_k] in *. rewrite T1 in *. cbn. auto.
      + destruct Fo.
      + unfold nn_set_k. rewrite M1, K1. replace (S (nn_max_k st) <? S k) with (nn_max_k st <? k) by reflexivity.
        replace (S (nn_k st) <? S k) with (nn_k st <? k) by reflexivity. destruct (Nat.ltb_spec (nn_max_k st) k); [cbn; auto|].
        destruct (nn_samples st) as [ss|] eqn:Hs.
        * destruct Gr as (kk & g & g' & c & c' & B & Hm & Hm' & Hg & Hg' & Hc & Hc' & Sg & Sc). rewrite Hm, Hm', Hg, Hg', Hc, Hc'.
          rewrite throw_pynn by auto.
          destruct (graphs_wf near ops K false pos ss g c) as (Wg & Wc & _); auto; [now apply exact_shape|].
          destruct (graphs_wf pynn (map one_more ops) (S K) false pos ss g' c') as (Wg' & Wc' & _); auto; [apply pynn_shape|].
          assert (Sg0 := dropped_same ss kk k g g' Wg Wg' Sg). assert (Sc0 := dropped_same ss kk k c c' Wc Wc' Sc).
          revert Sg0 Sc0; destruct (nn_k st <? k); destruct (throw_away (near ss kk) k) eqn:Th; intros Sg0 Sc0; cbn [snd option_map]; (split; [|auto]); unfold alike;
            cbn [nn_max_k nn_k nn_conn_r nn_trunc nn_cert nn_samples nn_graph nn_master nn_cache nn_next]; rewrite ?Hs, ?Sa;
            (repeat (split; [solve [auto; lia]|])); (split; [|right; exists ss, kk; auto]).
          all: do 5 eexists; split; [exact B|]; split; [reflexivity|]; split; [reflexivity|]; split; [reflexivity|]; split; [reflexivity|];
               split; [reflexivity|]; split; [reflexivity|]; split; auto.
        * pose proof (nn_run_inv dist check smp dist_nonneg dist_sym near (exact_shape dist near NEAR) sp SP ops _ (nn_new_inv check near K false pos)) as I1.
          pose proof (nn_run_inv dist check smp dist_nonneg dist_sym pynn pynn_shape sp SP (map one_more ops) _ (nn_new_inv check pynn (S K) false pos)) as I2.
          unfold nn_run in I1, I2. fold st in I1. fold st' in I2. unfold nn_inv in I1, I2. rewrite Hs in I1. rewrite Sa in I2.
          destruct I1 as [G1 Ca1], I2 as [G2 Ca2]. rewrite G1, G2, Ca1, Ca2.
          destruct (nn_k st <? k); [cbn; auto|].
          destruct Ma as [[Ma1 Ma2]|(ss & kk & B & Ma1 & Ma2)]; rewrite Ma1, Ma2.
          { split; [|auto]. cbn [snd]. unfold alike. cbn [nn_max_k nn_k nn_conn_r nn_trunc nn_cert nn_samples nn_graph nn_master nn_cache nn_next]. rewrite ?Hs, ?Sa. auto 20. }
          rewrite throw_pynn by auto. destruct (throw_away (near ss kk) k); (split; [|auto]); cbn [snd]; unfold alike;
            cbn [nn_max_k nn_k nn_conn_r nn_trunc nn_cert nn_samples nn_graph nn_master nn_cache nn_next]; rewrite ?Hs, ?Sa;
            (repeat (split; [solve [auto; lia]|])); right; exists ss, kk; auto.
      + destruct (query_keeps st s t) as [Q1 Q2]. destruct (query_keeps st' s t) as [Q1' Q2'].
        pose proof (nn_query_preserves dist check smp near sp dist_nonneg dist_sym SP (exact_shape dist near NEAR) K false pos ops s t) as (E1 & E2 & E3 & E4 & E5 & E6 & E7 & E8).
        pose proof (nn_query_preserves dist check smp pynn sp dist_nonneg dist_sym SP pynn_shape (S K) false pos (map one_more ops) s t) as (E1' & E2' & E3' & E4' & E5' & E6' & E7' & E8').
        unfold nn_run in E1, E2, E3, E4, E5, E6, E7, E8, E1', E2', E3', E4', E5', E6', E7', E8'.
        fold st in E1, E2, E3, E4, E5, E6, E7, E8. fold st' in E1', E2', E3', E4', E5', E6', E7', E8'.
        split; [|congruence]. unfold alike. rewrite E1, E2, E3, E4, E5, E6, E7, Q1, Q2, E1', E2', E3', E4', E5', E6', E7', Q1', Q2'.
        (repeat (split; [solve [auto]|])). split; [|auto]. destruct (nn_samples st) as [ss|]; auto.
        destruct Gr as (kk & g & g' & c & c' & B & Hm & Hm' & Hg & Hg' & Hc & Hc' & Sg & Sc). rewrite Hg in E8. rewrite Hg' in E8'.
        destruct (nn_graph (snd (nn_query dist check sp st s t))) as [h|]; [|tauto]. destruct (nn_graph (snd (nn_query dist check sp st' s t))) as [h'|]; [|tauto].
        exists kk, h, h', c, c'. split; auto. split; auto. split; auto. split; auto. split; auto. split; auto. split; auto. split; auto.
        eapply same_graph_same; eauto.
      + unfold nn_reset. split; auto. unfold alike. cbn [nn_max_k nn_k nn_conn_r nn_trunc nn_cert nn_samples nn_graph nn_master nn_cache nn_next]. auto 20.
  Qed.

  (** C179, what holds: asked for one neighbour more, pynndescent gives the roadmap that kgraph gives, with loops besides, the same
      certified radius, and the same distance for every query *)
  Theorem one_more_neighbour : forall k pos ops, 1 <= k -> Forall (fits k) ops ->
    let st := nn_run dist check smp near sp ops (nn_new k false pos) in
    let st' := nn_run dist check smp pynn sp (map one_more ops) (nn_new (S k) false pos) in
    nn_samples st' = nn_samples st /\ nn_cert st' = nn_cert st /\ nn_next st' = nn_next st /\
    match nn_samples st, nn_graph st, nn_graph st' with
    | Some ss, Some g, Some g' => same_but_loops check ss g g'
    | None, None, None => True
    | _, _, _ => False
    end /\
    forall s t, match fst (nn_query dist check sp st s t), fst (nn_query dist check sp st' s t) with
      | Ok (d, _), Ok (d', _) => same_distance d d'
      | Err e, Err e' => e = e'
      | _, _ => False
      end.
  Proof.
    intros k pos ops Hk F st st'. assert (A : alike st st') by exact (proj1 (histories_alike k pos ops Hk F)).
    destruct A as (_ & _ & C1 & C2 & _ & _ & Ce & Sa & Ne & _ & _ & Gr & _).
    split; auto. split; auto. split; auto. destruct (nn_samples st) as [ss|] eqn:Hs.
    - destruct Gr as (kk & g & g' & c & c' & B & Hm & Hm' & Hg & Hg' & Hc & Hc' & Sg & Sc). rewrite Hg, Hg'. split; auto.
      intros s t. destruct (nn_cert st) as [r|] eqn:Hr.
      + destruct (nn_query_optimal dist check smp near sp dist_nonneg dist_sym SP (exact_shape dist near NEAR) k false pos ops ss r s t) as (g0 & d & path & E0 & Q & R & _).
        { exact Hs. } { fold st. now rewrite C1. }
        destruct (nn_query_optimal dist check smp pynn sp dist_nonneg dist_sym SP pynn_shape (S k) false pos (map one_more ops) ss r s t) as (g1 & d' & path' & E1 & Q' & R' & _).
        { exact Sa. } { fold st'. now rewrite C2, Ce. }
        fold st in E0, Q. fold st' in E1, Q'. rewrite Q, Q'. assert (g0 = g) by congruence. assert (g1 = g') by congruence. subst g0 g1.
        destruct (graphs_wf near ops k false pos ss g c) as (_ & _ & Wg); auto; [now apply exact_shape|].
        destruct (graphs_wf pynn (map one_more ops) (S k) false pos ss g' c') as (_ & _ & Wg'); auto; [apply pynn_shape|].
        exact (answers_same ss r g g' s t d path d' path' Wg Wg' Sg R R').
      + unfold nn_query. rewrite Hs, Sa, C1, C2, Ce, Hr. reflexivity.
    - pose proof (nn_run_inv dist check smp dist_nonneg dist_sym near (exact_shape dist near NEAR) sp SP ops _ (nn_new_inv check near k false pos)) as I1.
      pose proof (nn_run_inv dist check smp dist_nonneg dist_sym pynn pynn_shape sp SP (map one_more ops) _ (nn_new_inv check pynn (S k) false pos)) as I2.
      fold st in I1. fold st' in I2. unfold nn_inv in I1, I2. rewrite Hs in I1. rewrite Sa in I2. destruct I1 as [-> _], I2 as [-> _]. split; auto.
      intros s t. unfold nn_query. rewrite Hs, Sa. reflexivity.
  Qed.

  (** the certified radius stays honest with pynndescent: closer pairs are linked, whatever radii and queries follow *)
  Theorem pynn_certified : forall k trunc pos ops n x st1 ops2,
    nn_grow check smp pynn (nn_run dist check smp pynn sp ops (nn_new k trunc pos)) n = (Ok x, st1) ->
    Forall radius_or_query ops2 ->
    let st := nn_run dist check smp pynn sp ops2 st1 in
    exists ss g cert, nn_samples st = Some ss /\ nn_graph st = Some g /\ nn_cert st = Some cert /\
      forall i j p q, nth_error ss i = Some p -> nth_error ss j = Some q -> i <> j ->
        (dist p q < cert)%Q -> (forall r, nn_conn_r st = Some r -> (dist p q < r)%Q) -> check p q = true ->
        exists w, edge g i j w /\ (w == dist p q)%Q.
  Proof.
    intros k trunc pos ops n x st1 ops2 Hg F st. pose proof pynn_shape as ANN.
    set (st0 := nn_run dist check smp pynn sp ops (nn_new k trunc pos)) in *.
    pose proof (nn_run_inv dist check smp dist_nonneg dist_sym pynn ANN sp SP ops _ (nn_new_inv check pynn k trunc pos)) as I0.
    fold st0 in I0.
    assert (I1 : nn_inv check pynn st1).
    { pose proof (nn_grow_inv dist check smp pynn ANN st0 n I0) as H. now rewrite Hg in H. }
    assert (Sh : exists ss kk cert c, nn_samples st1 = Some ss /\ nn_cert st1 = Some cert /\ nn_cache st1 = Some c /\
              min_last (pynn ss kk) = Some cert /\ nn_roadmap check ss (pynn ss kk) 0 None c /\ short_inv st1).
    { unfold nn_grow in Hg. destruct (nn_samples st0) as [old|].
      - destruct (n <=? List.length old); [discriminate|].
        apply (nn_rebuild_ok dist check smp pynn ANN) in Hg.
        destruct Hg as (cert & c & A1 & A2 & A3 & _ & A4 & _ & _ & A5 & _ & _ & _ & _ & B). eauto 12.
      - apply (nn_rebuild_ok dist check smp pynn ANN) in Hg.
        destruct Hg as (cert & c & A1 & A2 & A3 & _ & A4 & _ & _ & A5 & _ & _ & _ & _ & B). eauto 12. }
    destruct Sh as (ss & kk & cert & c & A1 & A2 & A3 & A4 & A5 & Sh).
    destruct (short_run dist check smp pynn sp dist_nonneg dist_sym SP ANN ops2 F st1 I1) as (B1 & B2 & B3 & B4 & B5); auto; [congruence|].
    fold st in B1, B2, B3, B4, B5.
    destruct B1 as (g & c' & Eg & Ec & W & Wc & Sb & _ & K).
    assert (c' = c) by congruence. subst c'.
    exists ss, g, cert. split; [congruence|]. split; [auto|]. split; [congruence|].
    intros i j p q Hi Hj Hij D Dr C.
    assert (Hc : exists w, edge c i j w /\ (w == dist p q)%Q).
    { rewrite pynn_min in A4, A5. destruct (Nat.min kk (List.length ss - 1)) as [|k'] eqn:M.
      - rewrite pynn_0 in A4 by reflexivity. destruct ss as [|p0 ss]; [discriminate|]. exfalso. destruct ss; discriminate.
      - assert (B : S k' <= List.length ss - 1) by lia.
        destruct (shape_to_graph dist check ss _ _ 0 None (exact_shape dist near NEAR ss k')) as (c0 & _ & R0 & _).
        destruct (Nat.eq_dec k' 0) as [->|Nk].
        + exfalso. apply (Qlt_not_le _ _ D). apply (Qle_trans _ 0); auto. 
          assert (Hr : In ((i, 0%Q) :: []) (pynn ss 1)).
          { apply nth_error_In with (n := i). rewrite row_pynn by auto. destruct (NEAR ss 0) as [(L & Rows & _) _].
            assert (Hi' : i < List.length (near ss 0)) by (rewrite L; apply nth_error_Some; congruence). apply nth_error_Some in Hi'.
            destruct (nth_error (near ss 0) i) as [row|] eqn:E; [|congruence]. apply nth_error_In, Rows in E. cbn in *. now destruct row. }
          destruct (min_last_le _ _ A4 _ Hr) as (d & Ed & Le). cbn in Ed. congruence.
        + rewrite min_last_pynn in A4 by lia.
          destruct (certified_pairs dist check dist_sym ss _ _ cert c0 i j p q (NEAR ss k') A4 R0 Hi Hj Hij D C) as (w & E & Ew).
          destruct (built_same ss k' c0 c B R0 A5) as (Sm & _). destruct (proj1 (Sm i j Hij) (ex_intro _ w E)) as (w' & E').
          exists w'. split; auto. destruct (nn_roadmap_weight dist check dist_sym ss _ _ 0 None c i j w' (ANN ss (S k')) A5 E') as (p' & q' & P1 & P2 & Ew').
          rewrite Ew'. assert (p' = p) by congruence. assert (q' = q) by congruence. subst. reflexivity. }
    destruct Hc as (w & E & Ew). exists w. split; auto. destruct (nn_conn_r st) as [r|]; auto.
    apply K; auto. rewrite Ew. auto.
  Qed.

  (** asked for one neighbour, pynndescent names every sample its own: the certified radius is zero, and a query is answered only
      where start and goal lie on one sample *)
  Theorem one_neighbour_is_itself : forall trunc pos n, 2 <= n ->
    let st := nn_run dist check smp pynn sp [NGrow n] (nn_new 1 trunc pos) in
    (exists cert, nn_cert st = Some cert /\ (cert == 0)%Q) /\
    forall s t d path, fst (nn_query dist check sp st s t) = Ok (Some d, path) ->
      exists p, In p path /\ (dist p s <= 0)%Q /\ (dist p t <= 0)%Q /\ (d == 0)%Q.
  Proof.
    intros trunc pos n Hn st.
    destruct (nn_grow check smp pynn (nn_new 1 trunc pos) n) as [out st0] eqn:G. assert (E0 : st = st0) by (unfold st, nn_run; cbn [fold_left nn_step]; now rewrite G).
    unfold nn_grow in G. cbn [nn_samples nn_new] in G. set (ss := draw smp (nn_next (nn_new 1 trunc pos)) n) in *.
    assert (L : List.length ss = n) by (unfold ss, draw; now rewrite map_length, seq_length).
    assert (B : 1 <= List.length ss - 1) by lia.
    assert (Row : forall u row, nth_error (pynn ss 1) u = Some row -> row = [(u, 0%Q)]).
    { intros u row H. rewrite row_pynn in H by auto. destruct (nth_error (near ss 0) u) as [r|] eqn:E; [|discriminate]. injection H as <-.
      destruct (NEAR ss 0) as [(_ & Rows & _) _]. apply nth_error_In, Rows in E. destruct r; [reflexivity|discriminate]. }
    assert (Mi : min_last (pynn ss 1) = Some 0%Q).
    { assert (Rs : forall row, In row (pynn ss 1) -> last_dist row = Some 0%Q).
      { intros row H. apply In_nth_error in H. destruct H as (u & H). now rewrite (Row _ _ H). }
      assert (Ne : pynn ss 1 <> []).
      { destruct (pynn_shape ss 1) as (Lp & _). intro E. rewrite E in Lp. cbn in Lp. lia. }
      revert Rs Ne. generalize (pynn ss 1). clear. induction r as [|r l IH]; [congruence|]. intros Rs _. destruct l as [|r' l].
      - cbn. apply Rs. cbn. auto.
      - rewrite min_last_cons, Rs, IH; [reflexivity|intros; apply Rs; cbn in *; auto|discriminate|cbn; auto]. }
    unfold nn_rebuild in G. cbn [nn_k nn_new] in G. replace (Nat.min (n - 1) 1) with 1 in G by lia.
    destruct (shape_to_graph dist check ss _ _ 0 None (pynn_shape ss 1)) as (g & Eg & Rg & _). rewrite Eg, Mi in G.
    assert (Ce : nn_cert st = Some 0%Q /\ nn_samples st = Some ss /\ exists h, nn_graph st = Some h /\ subgraph h g /\
              (match nn_conn_r st with Some r => Some r | None => nn_cert st end) = Some 0%Q).
    { rewrite E0. destruct trunc; cbn [nn_trunc nn_new] in G.
      - unfold nn_set_radius in G. cbn [nn_cert nn_conn_r nn_graph] in G. injection G as _ <-. cbn. split; auto. split; auto.
        eexists. split; [reflexivity|]. split; auto. destruct Rg as (W & V & _). eapply (prune_live_facts check smp ss 0%Q g g W V). red. auto.
      - injection G as _ <-. cbn. split; auto. split; auto. exists g. split; auto. split; auto. red. auto. }
    destruct Ce as (Ce & Sa & h & Hh & Sub & Ra). split; [exists 0%Q; split; [auto|reflexivity]|]. intros s t d path Q.
    destruct (nn_query_optimal dist check smp pynn sp dist_nonneg dist_sym SP pynn_shape 1 trunc pos [NGrow n] ss 0%Q s t Sa Ra) as (g1 & d1 & path1 & E1 & Q1 & R & _).
    fold st in E1, Q1. rewrite Q in Q1. injection Q1 as <- <-. assert (g1 = h) by congruence. subst g1.
    destruct R as ((ids & So & Vi) & Min).
    destruct So as (a & z & c & ds & dt & H1 & H2 & T & (p & P1 & -> & P2 & _) & (q & Q2 & -> & Q3 & _) & Ed).
    assert (Loop : forall l c, trail (edge h) l c -> forall a, hd_error l = Some a -> last l a = a /\ (c == 0)%Q).
    { intros l c0 T0. induction T0 as [i|i j l w c0 E T0 IH]; intros a0 Ha; injection Ha as <-; [split; reflexivity|].
      apply Sub in E. destruct Rg as (_ & _ & _ & Lw). assert (X : j = i /\ (w == 0)%Q).
      { apply Lw in E. destruct E as [(_ & (k & row & E1' & E2') & _)|(_ & (k & row & E1' & E2') & _)]; rewrite (Row _ _ E1') in E2';
          destruct k as [|[|k]]; try discriminate; injection E2' as <- <-; split; reflexivity. }
      destruct X as [-> Ew]. destruct (IH i eq_refl) as [IH1 IH2]. split; [exact IH1|]. rewrite Ew, IH2. reflexivity. }
    destruct (Loop _ _ T a H1) as [La Ec]. assert (z = a) by congruence. subst z. assert (q = p) by congruence. subst q.
    exists p. split; [|split; auto; split; auto].
    - destruct ids as [|a' ids]; [discriminate|]. injection H1 as ->. destruct path as [|p' path]; inversion Vi as [|x0 y0 l0 l1 Vp Vr]. assert (p' = p) by congruence. left. auto.
    - rewrite Ed, Ec. assert (A1 : (dist p s == 0)%Q) by (apply Qle_antisym; auto). assert (A2 : (dist p t == 0)%Q) by (apply Qle_antisym; auto). rewrite A1, A2. reflexivity.
  Qed.
End Lib.
Print Assumptions one_more_neighbour.
Print Assumptions pynn_certified.
Print Assumptions one_neighbour_is_itself.

(** C179 is false: the same calls answer with kgraph installed and find no path without *)
Definition installed (available : bool) (ss : list Z) (k : nat) (trunc : bool) (ops : list nn_op) : nn_state :=
  nn_run zdist free (stream ss) (neighbours zann available) sp_enum ops (nn_new k trunc 0).
Theorem library_refuted : exists ss k trunc ops s t d path,
  fst (nn_query zdist free sp_enum (installed true ss k trunc ops) s t) = Ok (Some d, path) /\
  fst (nn_query zdist free sp_enum (installed false ss k trunc ops) s t) = Ok (None, []).
Proof. exists [0; 2; 4]%Z, 1, false, [NGrow 3], 0%Z, 4%Z. do 2 eexists. split; vm_compute; reflexivity. Qed.
Print Assumptions library_refuted.

(** growing, taking a neighbour away and querying meets the hypotheses of [one_more_neighbour]; the counts differ by the loops *)
Example one_more_ex : Forall (fits 2) [NGrow 4; NK 1; NQuery 0%Z 4%Z] /\
  let st := installed true [0; 2; 4; 9]%Z 2 false [NGrow 4; NK 1] in
  let st' := installed false [0; 2; 4; 9]%Z 3 false [NGrow 4; NK 2] in
  nn_cert st = Some 2%Q /\ nn_cert st' = Some 2%Q /\
  edges_of (nn_graph st) = [(0, 1, 2%Q); (2, 3, 5%Q)] /\
  edges_of (nn_graph st') = [(0, 0, 0%Q); (0, 1, 2%Q); (1, 1, 0%Q); (2, 3, 5%Q); (2, 2, 0%Q); (3, 3, 0%Q)].
Proof. split; [repeat constructor|]. repeat split; vm_compute; reflexivity. Qed.
Example certified_ex : exists x st1,
  nn_grow free (stream [0; 2; 4; 9]%Z) (pynn zann) (nn_new 3 true 0) 4 = (Ok x, st1) /\ Forall radius_or_query [NRadius 3%Q; NQuery 0%Z 4%Z] /\
  option_map (fun g => has_edge g 1 0) (nn_graph (nn_run zdist free (stream [0; 2; 4; 9]%Z) (pynn zann) sp_enum [NRadius 3%Q] st1)) = Some true.
Proof. do 2 eexists. split; [reflexivity|]. split; [repeat constructor|]. vm_compute. reflexivity. Qed.
Example itself_ex : let st := installed false [0; 2; 4]%Z 1 true [NGrow 3] in
  nn_cert st = Some 0%Q /\ (exists p, fst (nn_query zdist free sp_enum st 2%Z 2%Z) = Ok (Some 0%Q, p)) /\
  fst (nn_query zdist free sp_enum st 0%Z 2%Z) = Ok (None, []).
Proof. split; [vm_compute; reflexivity|]. split; [eexists|]; vm_compute; reflexivity. Qed.
Example zdist_self_ex : forall p, (zdist p p == 0)%Q.
Proof. intro p. unfold zdist. rewrite Z.sub_diag. reflexivity. Qed.
Example named_ex : get_ann false "kgraph" = Ok PyNNDescent /\ get_ann true "kgraph" = Ok KGraph /\ get_ann true "hnsw" = Err NotImplementedError.
Proof. repeat split. Qed.

(** kgraph serves exactly the roadmaps that ask for it where it is installed; other names than the two raise *)
Theorem library_by_name : forall available name,
  (get_ann available name = Ok KGraph <-> available = true /\ name = "kgraph"%string) /\
  (get_ann available name = Ok PyNNDescent <-> name = "pynndescent"%string \/ (name = "kgraph"%string /\ available = false)) /\
  ((exists e, get_ann available name = Err e) <-> name <> "kgraph"%string /\ name <> "pynndescent"%string).
Proof.
  intros available name. unfold get_ann.
  destruct (String.eqb_spec name "pynndescent") as [->|N1]; [|destruct (String.eqb_spec name "kgraph") as [->|N2]; [destruct available|]];
    repeat split; intros; repeat match goal with H : _ /\ _ |- _ => destruct H | H : _ \/ _ |- _ => destruct H | H : exists _, _ |- _ => destruct H end;
    try congruence; eauto.
Qed.
Print Assumptions library_by_name.
Example by_name_ex : get_ann false "kgraph" = Ok PyNNDescent /\ get_ann true "faiss" = Err NotImplementedError.
Proof. split; reflexivity. Qed.
