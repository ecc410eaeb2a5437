(** C177 The entry and exit pairs of a roadmap can be queried with their distances
    C178 A saved roadmap is the roadmap *)
From Coq Require Import Arith List QArith ZArith Bool String Lia.
From Verif Require Import NkGraph_Model NkGraph_Spec NkGraph_Proofs Prm_Model Prm_Spec PrmQuery_Proofs PrmFc_Proofs PrmNn_Proofs
  PrmRp_Proofs PrmFc_Props PrmNn_Props Sp_Oracle PrmAnn_Inst PrmEx Mode_Model.
Import ListNotations.
Close Scope Q_scope.
Close Scope string_scope.
Open Scope nat_scope.

(** ** Specification *)
(** [l] leads from i to j *)
Definition leads (l : list nat) (i j : nat) : Prop := hd_error l = Some i /\ last l i = j.
(** the length of a shortest roadmap path, or nothing when there is none *)
Definition least (E : nat -> nat -> Q -> Prop) (i j : nat) (o : option Q) : Prop :=
  match o with
  | Some d => (exists l c, leads l i j /\ trail E l c /\ (d == c)%Q) /\ forall l c, leads l i j -> trail E l c -> (d <= c)%Q
  | None => forall l c, leads l i j -> ~ trail E l c
  end.
(** networkit's SPSP *)
Definition dg_correct (dg : graph -> nat -> nat -> option Q) : Prop :=
  forall g i j, wf g -> (forall u v w, edge g u v w -> (0 <= w)%Q) -> g_alive g i = true -> g_alive g j = true ->
    least (edge g) i j (dg g i j).

Lemma least_ext (E E' : nat -> nat -> Q -> Prop) i j o : (forall u v w, E u v w <-> E' u v w) -> least E i j o -> least E' i j o.
Proof.
  intros X. assert (T : forall l c, trail E l c <-> trail E' l c).
  { intros l c. split; induction 1; constructor; auto; now apply X. }
  destruct o as [d|]; cbn.
  - intros [(l & c & H & H1 & H2) H3]. split.
    + exists l, c. split; auto. split; auto. now apply T.
    + intros l' c' L' T'. apply (H3 l'); auto. now apply T.
  - intros H l c L T'. apply (H l c L). now apply T.
Qed.

(** ** SPSP from a shortest path routine, for the examples *)
Definition dg_of (sp : sp_oracle) (g : graph) (i j : nat) : option Q := if i =? j then Some 0%Q else option_map fst (sp g i j).
Lemma leads_form l i j : leads l i j -> i <> j -> exists m, l = i :: m ++ [j].
Proof.
  intros [H L] N. destruct l as [|a l]; [discriminate|]. inversion H; subst a. destruct l as [|b l]; [cbn in L; congruence|].
  destruct (exists_last (l := b :: l)) as (m & z & E); [discriminate|]. exists m. rewrite E. rewrite E in L.
  rewrite app_comm_cons, last_last in L. now subst.
Qed.
Lemma form_leads i m j : leads (i :: m ++ [j]) i j.
Proof. split; auto. rewrite app_comm_cons. apply last_last. Qed.
Lemma trail_nonneg (E : nat -> nat -> Q -> Prop) l c : (forall u v w, E u v w -> (0 <= w)%Q) -> trail E l c -> (0 <= c)%Q.
Proof.
  intros H T. induction T; [apply Qle_refl|]. rewrite <- (Qplus_0_l 0). apply Qplus_le_compat; eauto.
Qed.
Lemma dg_of_correct sp : sp_correct sp -> dg_correct (dg_of sp).
Proof.
  intros C g i j W N _ _. unfold dg_of. destruct (Nat.eqb_spec i j) as [->|Ne].
  - split.
    + exists [j], 0%Q. split; [split; auto|]. split; [constructor|apply Qeq_refl].
    + intros l c _ T. eapply trail_nonneg; eauto.
  - specialize (C g i j W N Ne). destruct (sp g i j) as [[d mid]|]; cbn.
    + destruct C as (_ & (c & T & E) & M). split.
      * exists (i :: mid ++ [j]), c. split; [apply form_leads|]. auto.
      * intros l c' L T'. destruct (leads_form l i j L Ne) as [m ->]. eauto.
    + intros l c L T. destruct (leads_form l i j L Ne) as [m ->]. eapply C; eauto.
Qed.

Section Props.
  Context {P : Type}.
  Variable dist : P -> P -> Q.
  Variable check : P -> P -> bool.
  Variable smp : nat -> P.
  Variable ann : list P -> nat -> rows.
  Variable sp : sp_oracle.
  Variable dist_to_path : P -> Q.
  Variable dg : graph -> nat -> nat -> option Q.

  Notation run := (m_run dist check smp ann sp dist_to_path dg).
  Notation step := (m_step dist check smp ann sp dist_to_path dg).

  (** the calls without the switch *)
  Definition proj (op : m_op (P := P)) : list nn_op :=
    match op with
    | MMode _ => []
    | MGrow n => [NGrow n] | MRadius r => [NRadius r] | MK k => [NK k] | MQuery s t => [NQuery s t] | MReset => [NReset]
    end.
  Lemma after_nn {A} st (out : res A * nn_state) r : m_nn (snd (after dist_to_path dg st out r)) = snd out.
  Proof. unfold after. destruct out as [[x|e] s]; auto. destruct (retable _ _ _ _ _ _); auto. Qed.
  Lemma after_on {A} st (out : res A * nn_state) r : m_on (snd (after dist_to_path dg st out r)) = m_on st.
  Proof. unfold after. destruct out as [[x|e] s]; auto. destruct (retable _ _ _ _ _ _); auto. Qed.
  Lemma step_nn st op : m_nn (step st op) = nn_run dist check smp ann sp (proj op) (m_nn st).
  Proof.
    destruct op; cbn [m_step proj nn_run fold_left nn_step]; auto; unfold m_grow, m_set_k, m_set_radius; try apply after_nn.
    unfold m_query. destruct (nn_query _ _ _ _ _ _); auto.
  Qed.
  Lemma run_nn ops : forall st, m_nn (run ops st) = nn_run dist check smp ann sp (flat_map proj ops) (m_nn st).
  Proof.
    induction ops as [|op ops IH]; intro st; auto. cbn [m_run fold_left flat_map]. fold (run ops (step st op)).
    unfold nn_run. rewrite fold_left_app. fold (nn_run dist check smp ann sp (proj op) (m_nn st)). rewrite <- step_nn. apply IH.
  Qed.
  Lemma step_on st op : m_on (step st op) = match op with MMode b => b | _ => m_on st end.
  Proof.
    destruct op; cbn [m_step]; auto; unfold m_grow, m_set_k, m_set_radius; try apply after_on.
    unfold m_query. destruct (nn_query _ _ _ _ _ _); auto.
  Qed.

  (** the calls that the classes offer *)
  Definition offered (op : m_op (P := P)) : Prop := match op with MMode _ => False | _ => True end.

  (** C177, what holds: through the calls that it offers a nearest neighbour roadmap never comes to answer; it raises
      NotImplementedError whenever it answers a path query *)
  Theorem nn_never_answers : forall k trunc pos ops s t, Forall offered ops ->
    let st := run ops (m_new k trunc pos) in
    (forall l, m_query_all dist check st s t <> Ok l) /\
    (forall a, fst (m_query dist check sp st s t) = Ok a -> m_query_all dist check st s t = Err NotImplementedError).
  Proof.
    intros k trunc pos ops s t F st.
    assert (On : m_on st = false).
    { unfold st. assert (G : forall st0, m_on st0 = false -> m_on (run ops st0) = false).
      { clear st. induction F as [|op ops H F IH]; intros st0 E; auto. cbn [m_run fold_left]. apply IH. rewrite step_on.
        destruct op; auto. destruct H. }
      now apply G. }
    unfold m_query_all, table_answers. rewrite On. split.
    - intro l. destruct (nn_samples _); [destruct (match nn_conn_r _ with Some r => Some r | None => _ end)|]; discriminate.
    - intros a Ha. unfold m_query, nn_query in Ha. destruct (nn_samples (m_nn st)); [|discriminate].
      destruct (match nn_conn_r (m_nn st) with Some r => Some r | None => nn_cert (m_nn st) end); [auto|discriminate].
  Qed.

  (** switching on after the calls, on a new roadmap or since its last reset with the switch off, does not help: there is no table *)
  Theorem switch_too_late : forall k trunc pos before ops s t, before = [] \/ (exists b, before = b ++ [MReset; MMode false]) -> Forall offered ops ->
    m_query_all dist check (run (before ++ ops ++ [MMode true]) (m_new k trunc pos)) s t = Err TypeError.
  Proof.
    intros k trunc pos before ops s t B F.
    assert (RA : forall l m st, run (l ++ m) st = run m (run l st)) by (intros; apply fold_left_app).
    rewrite !RA. set (st := run before (m_new k trunc pos)).
    assert (Z : m_on st = false /\ m_table st = None).
    { unfold st. destruct B as [->|(b & ->)]; [split; reflexivity|]. rewrite RA. split; reflexivity. }
    clearbody st. revert st Z. induction F as [|op ops H F IH]; intros st [Zo Zt].
    - cbn. unfold m_query_all. cbn [m_nn m_on m_table]. unfold table_answers. rewrite Zt.
      destruct (nn_samples (m_nn st)); [destruct (match nn_conn_r _ with Some r => Some r | None => _ end)|]; reflexivity.
    - cbn [m_run fold_left]. apply IH. split; [rewrite step_on; destruct op; auto; destruct H|].
      assert (A : forall A (out : res A * nn_state) r, m_table (snd (after dist_to_path dg st out r)) = None).
      { intros A out r. unfold after, retable. rewrite Zo. destruct out as [[x|e] s0]; auto. }
      destruct op; cbn [m_step]; auto; unfold m_grow, m_set_k, m_set_radius; try apply A.
      unfold m_query. destruct (nn_query _ _ _ _ _ _); auto.
  Qed.

  (** the same for the radius roadmap, in every state *)
  Theorem radius_never_answers : forall st tab s t,
    (forall l, rp_query_all dist check false tab st s t <> Ok l) /\
    (forall a, fst (rp_query dist check sp st s t) = Ok a -> rp_query_all dist check false tab st s t = Err NotImplementedError).
  Proof.
    intros st tab s t. unfold rp_query_all, table_answers, rp_query. split.
    - intro l. destruct (rp_samples st); discriminate.
    - intros a Ha. destruct (rp_samples st); [auto|discriminate].
  Qed.

  Lemma gather_ok : forall (l : list (option (P * P) * res (option Q) * (nat * nat))),
    (forall pts d ij, In (pts, d, ij) l -> (exists pq, pts = Some pq) /\ exists x, d = Ok x) ->
    exists a, gather l = Ok a /\ map snd a = map snd l /\
      forall pq d ij, In (pq, d, ij) a <-> In (Some pq, Ok d, ij) l.
  Proof.
    induction l as [|[[pts d] ij] l IH]; intro H; cbn [gather].
    - exists []. split; auto. split; auto. cbn. tauto.
    - destruct (H pts d ij (or_introl eq_refl)) as [[pq ->] [x ->]].
      destruct IH as (a & E & M & I). { intros pts' d' ij' Hin. apply (H pts' d' ij'). now right. } rewrite E.
      eexists. split; [reflexivity|]. split; [cbn; now rewrite M|]. intros pq' d' ij'. cbn. rewrite I.
      split; intros [X|X]; auto; left; congruence.
  Qed.

  (** the full roadmap answers with the pairs, and with an exception in place of the distances *)
  Theorem full_conn_returns_exception : forall st s t ss, fc_samples st = Some ss ->
    exists pts ids, fc_query_all dist check st s t = Ok (pts, TheException NotImplementedError, ids) /\ NoDup ids /\
      (forall i j, In (i, j) ids <-> (exists d, entry dist check ss (fc_conn_r st) s i d) /\ (exists d, entry dist check ss (fc_conn_r st) t j d)) /\
      Forall2 (fun pq ij => nth_error ss (fst ij) = Some (fst pq) /\ nth_error ss (snd ij) = Some (snd pq)) pts ids.
  Proof.
    intros st s t ss Es. unfold fc_query_all. rewrite Es.
    destruct (query_all_enumerates dist check ss (fc_conn_r st) s t (fun _ _ => Ok None)) as (N & I & V).
    destruct (gather_ok (query_all dist check ss (fc_conn_r st) s t (fun _ _ => Ok None))) as (a & E & M & In_).
    { intros pts d [i j] H. destruct (V pts d i j H) as (-> & p & q & -> & _). split; eauto. }
    rewrite E. eexists. eexists. split; [reflexivity|]. rewrite M. split; auto. split; auto.
    rewrite <- M. assert (G : forall pq d ij, In (pq, d, ij) a -> nth_error ss (fst ij) = Some (fst pq) /\ nth_error ss (snd ij) = Some (snd pq)).
    { intros pq d [i j] H. apply In_ in H. destruct (V _ _ _ _ H) as (_ & p & q & Epq & A & B). inversion Epq; subst. auto. }
    clear - G. induction a as [|[[pq d] ij] a IH]; cbn; constructor; [apply (G pq d); now left|]. apply IH. intros. apply (G pq0 d0). now right.
  Qed.

  (** ** with the switch on *)
  Hypothesis dist_nonneg : forall p q, (0 <= dist p q)%Q.
  Hypothesis dist_sym : forall p q, (dist p q == dist q p)%Q.
  Hypothesis ANN : ann_shape dist ann.
  Hypothesis SP : sp_correct sp.
  Hypothesis DG : dg_correct dg.

  Definition radius_in_use (st : nn_state (P := P)) : option Q := match nn_conn_r st with Some r => Some r | None => nn_cert st end.
  (** a call that changes the roadmap and returns *)
  Definition returns (st : mode_state (P := P)) (op : m_op (P := P)) : Prop :=
    match op with
    | MGrow n => exists x, fst (m_grow check smp ann dist_to_path dg st n) = Ok x
    | MRadius r => fst (m_set_radius dist_to_path dg st r) = Ok tt
    | MK k => fst (m_set_k dist_to_path dg st k) = Ok tt
    | _ => False
    end.
  Definition queries (l : list (P * P)) : list m_op := map (fun q => MQuery (fst q) (snd q)) l.

  Definition tabled (st : mode_state (P := P)) : Prop :=
    m_on st = true /\ exists ss g g0 r, nn_samples (m_nn st) = Some ss /\ nn_graph (m_nn st) = Some g /\
      radius_in_use (m_nn st) = Some r /\ roadmap ss g0 /\ same_graph g g0 /\ m_table st = Some (compute_spsp dist_to_path dg g0 ss r).

  Lemma after_ok {A} st (out : res A * nn_state) rf x : m_on st = true -> fst (after dist_to_path dg st out rf) = Ok x ->
    exists r ss g, rf (snd out) = Some r /\ nn_samples (snd out) = Some ss /\ nn_graph (snd out) = Some g /\
      fst out = Ok x /\ snd (after dist_to_path dg st out rf) = mkMode true (snd out) (Some (compute_spsp dist_to_path dg g ss r)).
  Proof.
    intros On H. unfold after, retable in *. rewrite On in *. destruct out as [[y|e] s]; [|discriminate]. cbn [fst snd] in *.
    destruct (rf s) as [r|]; [|discriminate]. destruct (nn_samples s) as [ss|]; [|discriminate]. destruct (nn_graph s) as [g|]; [|discriminate].
    cbn in *. exists r, ss, g. repeat split; auto.
  Qed.
  Lemma grow_radius st n x s : nn_grow check smp ann st n = (Ok x, s) -> nn_conn_r s = None \/ nn_conn_r s = nn_cert s.
  Proof.
    assert (R : forall st ss next x s, nn_rebuild check ann st ss next n = (Ok x, s) -> nn_conn_r s = None \/ nn_conn_r s = nn_cert s).
    { clear st x s. intros st ss next x s H. unfold nn_rebuild in H. destruct (nn_to_graph _ _ _ _ _); [|discriminate].
      destruct (min_last _) as [cert|]; [|discriminate]. destruct (nn_trunc st).
      - unfold nn_set_radius in H. cbn in H. inversion H; subst. cbn. auto.
      - inversion H; subst. cbn. auto. }
    unfold nn_grow. destruct (nn_samples st); [destruct (n <=? List.length l); [discriminate|]|]; apply R.
  Qed.
  Lemma inv_run k trunc pos ops : nn_inv check ann (m_nn (run ops (m_new k trunc pos))).
  Proof. rewrite run_nn. apply (nn_run_inv dist check smp dist_nonneg dist_sym ann ANN sp SP). apply nn_new_inv. Qed.
  Lemma inv_step st op : nn_inv check ann (m_nn st) -> nn_inv check ann (m_nn (step st op)).
  Proof. rewrite step_nn. apply (nn_run_inv dist check smp dist_nonneg dist_sym ann ANN sp SP). Qed.

  Lemma returns_tabled st op : nn_inv check ann (m_nn st) -> m_on st = true -> returns st op -> tabled (step st op).
  Proof.
    intros I On R. pose proof (inv_step st op I) as I'.
    assert (Same : forall g : graph, same_graph g g) by (intro; split; auto).
    assert (Fin : forall ss g r s, step st op = mkMode true s (Some (compute_spsp dist_to_path dg g ss r)) ->
              nn_samples s = Some ss -> nn_graph s = Some g -> radius_in_use s = Some r -> tabled (step st op)).
    { intros ss g r s E Hs Hg Hr. rewrite E in I'. rewrite E. split; auto. exists ss, g, g, r. cbn [m_nn m_table]. split; auto. split; auto. split; auto.
      split; [|split; auto]. apply (nn_inv_roadmap dist check dist_nonneg dist_sym ann ANN s); auto. }
    destruct op; cbn [returns] in R; try tauto; cbn [m_step] in *.
    - destruct R as [x R]. unfold m_grow in *. destruct (after_ok _ _ _ _ On R) as (r & ss & g & A & B & C & D & E).
      apply (Fin ss g r _ E B C). unfold radius_in_use. destruct (nn_grow check smp ann (m_nn st) n) as [o s] eqn:G. cbn in *. subst o.
      destruct (grow_radius _ _ _ _ G) as [Z|Z]; rewrite Z; auto. rewrite A. auto.
    - unfold m_set_radius in *. destruct (after_ok _ _ _ _ On R) as (r' & ss & g & A & B & C & D & E).
      apply (Fin ss g r' _ E B C). unfold radius_in_use. now rewrite A.
    - unfold m_set_k in *. destruct (after_ok _ _ _ _ On R) as (r' & ss & g & A & B & C & D & E).
      apply (Fin ss g r' _ E B C). unfold radius_in_use. now rewrite A.
  Qed.
  Lemma query_tabled k trunc pos ops s t : let st := run ops (m_new k trunc pos) in tabled st -> tabled (step st (MQuery s t)).
  Proof.
    intros st (On & ss & g & g0 & r & Hs & Hg & Hr & Rm & Sg & Ht). cbn [m_step]. unfold m_query.
    destruct (nn_query dist check sp (m_nn st) s t) as [out nn] eqn:E.
    pose proof (nn_query_preserves dist check smp ann sp dist_nonneg dist_sym SP ANN k trunc pos (flat_map proj ops) s t) as Pr.
    cbv zeta in Pr. change (nn_new k trunc pos) with (m_nn (m_new (P := P) k trunc pos)) in Pr. rewrite <- run_nn in Pr. fold st in Pr. rewrite E in Pr. cbn [snd] in Pr.
    destruct Pr as (A & B & C & _ & _ & _ & _ & G). rewrite Hg in G. destruct (nn_graph nn) as [g'|] eqn:Eg; [|tauto].
    split; auto. exists ss, g', g0, r. cbn [m_nn m_table snd]. unfold radius_in_use in *. rewrite A, B, C. split; auto. split; auto. split; auto. split; auto.
    split; auto. destruct G as [G1 G2], Sg as [S1 S2]. split; intro u; [rewrite G1; apply S1|rewrite G2; apply S2].
  Qed.

  Lemma tabled_after k trunc pos ops op qs : let st0 := run ops (m_new k trunc pos) in
    m_on st0 = true -> returns st0 op -> tabled (run (queries qs) (step st0 op)).
  Proof.
    intros st0 On R. pose proof (returns_tabled st0 op (inv_run k trunc pos ops) On R) as T.
    assert (G : forall qs ops', tabled (run ops' (m_new k trunc pos)) -> tabled (run (queries qs) (run ops' (m_new k trunc pos)))).
    { clear T R On st0 qs ops op. intro qs. induction qs as [|[s t] qs IH]; intros ops' T; auto. cbn [queries map m_run fold_left].
      pose proof (query_tabled k trunc pos ops' s t T) as T'.
      assert (E : step (run ops' (m_new k trunc pos)) (MQuery s t) = run (ops' ++ [MQuery s t]) (m_new k trunc pos)).
      { unfold m_run. rewrite fold_left_app. reflexivity. }
      cbn [fst snd]. rewrite E in *. apply (IH (ops' ++ [MQuery s t]) T'). }
    assert (E : step st0 op = run (ops ++ [op]) (m_new k trunc pos)). { unfold st0, m_run. rewrite fold_left_app. reflexivity. }
    rewrite E in *. now apply G.
  Qed.

  (** C177, had the switch been on: after every growth or change of radius or neighbours that returns, and any queries, each
      pair of an entry and an exit is listed once with the length of the shortest roadmap path between them, for starts and goals
      on the reference path *)
  Theorem answers_with_switch : forall k trunc pos ops op qs s t,
    let st0 := run ops (m_new k trunc pos) in
    let st := run (queries qs) (step st0 op) in
    m_on st0 = true -> returns st0 op ->
    (forall p, (dist_to_path p <= dist p s)%Q) -> (forall p, (dist_to_path p <= dist p t)%Q) ->
    exists ss r g l, nn_samples (m_nn st) = Some ss /\ radius_in_use (m_nn st) = Some r /\ nn_graph (m_nn st) = Some g /\
      m_query_all dist check st s t = Ok l /\ NoDup (map snd l) /\
      (forall i j, In (i, j) (map snd l) <-> (exists d, entry dist check ss r s i d) /\ (exists d, entry dist check ss r t j d)) /\
      (forall p q d i j, In (p, q, d, (i, j)) l -> nth_error ss i = Some p /\ nth_error ss j = Some q /\ least (edge g) i j d).
  Proof.
    intros k trunc pos ops op qs s t st0 st On R Ds Dt.
    destruct (tabled_after k trunc pos ops op qs On R) as (On' & ss & g & g0 & r & Hs & Hg & Hr & Rm & Sg & Ht). fold st0 in Hs, Hg, Hr, Ht, On'. fold st in Hs, Hg, Hr, Ht, On'.
    exists ss, r, g. unfold m_query_all. rewrite Hs. unfold radius_in_use in Hr. rewrite Hr. unfold table_answers. rewrite On', Ht.
    unfold compute_spsp. set (look := table_lookup _ _).
    destruct (query_all_enumerates dist check ss r s t look) as (N & I & V).
    assert (Look : forall i j p q, nth_error ss i = Some p -> nth_error ss j = Some q ->
       In (i, j) (map snd (query_all dist check ss r s t look)) -> look i j = Ok (dg g0 i j)).
    { intros i j p q Hi Hj Hin. apply I in Hin. destruct Hin as [(d1 & p1 & A1 & A2 & A3 & _) (d2 & q1 & B1 & B2 & B3 & _)].
      assert (p1 = p) by congruence. assert (q1 = q) by congruence. subst p1 q1.
      destruct (lookup_table_faithful dist_to_path ss r (dg g0) i j p q Hi Hj) as [L _]. apply L; [apply (Qle_trans _ (dist p s))|apply (Qle_trans _ (dist q t))]; auto. }
    destruct (gather_ok (query_all dist check ss r s t look)) as (l & E & M & In_).
    { intros pts d [i j] H. destruct (V pts d i j H) as (-> & p & q & -> & Hi & Hj). split; eauto. exists (dg g0 i j).
      apply (Look i j p q Hi Hj). change (i, j) with (snd (Some (p, q), look i j, (i, j))). now apply in_map. }
    exists l. rewrite M. split; auto. split; auto. split; auto. split; auto. split; auto. split; auto.
    intros p q d i j H. apply In_ in H. destruct (V _ _ _ _ H) as (Ed & p' & q' & Epq & Hi & Hj). inversion Epq; subst p' q'.
    split; auto. split; auto.
    assert (Hin : In (i, j) (map snd (query_all dist check ss r s t look))).
    { change (i, j) with (snd (Some (p, q), Ok d, (i, j))). now apply in_map. }
    rewrite (Look i j p q Hi Hj Hin) in Ed. inversion Ed; subst d.
    apply least_ext with (E := edge g0). { intros u v w. unfold edge. destruct Sg as [_ S2]. now rewrite S2. }
    apply DG; try apply Rm; eapply nth_error_lt; eauto.
  Qed.

  (** then the distance of the path query is the least sum over the listed rows, and is infinite exactly when every row's is *)
  Theorem answers_agree_with_query : forall k trunc pos ops op qs s t l d path,
    let st0 := run ops (m_new k trunc pos) in
    let st := run (queries qs) (step st0 op) in
    m_on st0 = true -> returns st0 op ->
    (forall p, (dist_to_path p <= dist p s)%Q) -> (forall p, (dist_to_path p <= dist p t)%Q) ->
    m_query_all dist check st s t = Ok l -> fst (m_query dist check sp st s t) = Ok (d, path) ->
    match d with
    | Some c => (exists p q x ij, In (p, q, Some x, ij) l /\ (c == dist p s + x + dist q t)%Q) /\
                forall p q x ij, In (p, q, Some x, ij) l -> (c <= dist p s + x + dist q t)%Q
    | None => forall p q x ij, ~ In (p, q, Some x, ij) l
    end.
  Proof.
    intros k trunc pos ops op qs s t l d path st0 st On R Ds Dt Hl Hq.
    destruct (answers_with_switch k trunc pos ops op qs s t On R Ds Dt) as (ss & r & g & l' & Hs & Hr & Hg & Hl' & _ & I & V).
    fold st0 in Hs, Hr, Hg, Hl'. fold st in Hs, Hr, Hg, Hl'. assert (l' = l) by congruence. subst l'.
    assert (Est : st = run (ops ++ op :: queries qs) (m_new k trunc pos)). { unfold st, st0, m_run. now rewrite fold_left_app. }
    pose proof (nn_query_optimal dist check smp ann sp dist_nonneg dist_sym SP ANN k trunc pos (flat_map proj (ops ++ op :: queries qs)) ss r s t) as O.
    cbv zeta in O. change (nn_new k trunc pos) with (m_nn (m_new (P := P) k trunc pos)) in O. rewrite <- run_nn, <- Est in O.
    destruct (O Hs Hr) as (g' & d' & path' & Hg' & Eq & RA & _). assert (g' = g) by congruence. subst g'.
    assert (Ed : d' = d). { unfold m_query in Hq. destruct (nn_query dist check sp (m_nn st) s t) as [o n]. cbn in *. congruence. } subst d'.
    assert (Row : forall p q x ij, In (p, q, Some x, ij) l -> exists ids c, solution dist check ss r (edge g) s t ids c /\ (c == dist p s + x + dist q t)%Q).
    { intros p q x [i j] H. destruct (V _ _ _ _ _ H) as (Hi & Hj & (ids & c & [Hh Hla] & T & Ex) & _).
      assert (Hin : In (i, j) (map snd l)) by (change (i, j) with (snd ((p, q), Some x, (i, j))); now apply in_map).
      apply I in Hin. destruct Hin as [(d1 & En1) (d2 & En2)].
      exists ids, (d1 + c + d2)%Q. split.
      - exists i, j, c, d1, d2. repeat split; auto; reflexivity.
      - destruct En1 as (p1 & A1 & -> & _). destruct En2 as (q1 & B1 & -> & _). assert (p1 = p) by congruence. assert (q1 = q) by congruence. subst.
        rewrite Ex. reflexivity. }
    destruct d as [c|]; cbn in RA.
    - destruct RA as [(ids & (a & z & c0 & ds & dt & Hh & Hla & T & En1 & En2 & Ec) & _) Min]. split.
      + assert (Hin : In (a, z) (map snd l)) by (apply I; split; eauto).
        apply in_map_iff in Hin. destruct Hin as ([[[p q] o] ij] & E & Hin). cbn in E. subst ij.
        destruct (V _ _ _ _ _ Hin) as (Hi & Hj & L). destruct o as [x|].
        * exists p, q, x, (a, z). split; auto. destruct L as [_ L]. specialize (L ids c0 (conj Hh Hla) T).
          destruct (Row p q x (a, z) Hin) as (ids' & c' & S' & Ec'). specialize (Min ids' c' S'). rewrite Ec' in Min.
          destruct En1 as (p1 & A1 & -> & _). destruct En2 as (q1 & B1 & -> & _). assert (p1 = p) by congruence. assert (q1 = q) by congruence. subst.
          apply Qle_antisym; auto. rewrite Ec. apply Qplus_le_compat; [|apply Qle_refl]. apply Qplus_le_compat; [apply Qle_refl|auto].
        * exfalso. apply (L ids c0); [split; auto|auto].
      + intros p q x ij H. destruct (Row p q x ij H) as (ids' & c' & S' & Ec'). rewrite <- Ec'. eauto.
    - destruct RA as [_ No]. intros p q x ij H. destruct (Row p q x ij H) as (ids' & c' & S' & _). eapply No; eauto.
  Qed.

  (** C178.  Saving writes the graph and the samples under the two names and touches nothing else; without a roadmap it raises and
      writes nothing *)
  Theorem save_exact : forall (g : option graph) (samples : option (list P)) filepath d,
    let out := save g samples filepath d in
    match g with
    | None => out = (RuntimeWarning, d)
    | Some g =>
        fst out = Saved /\ snd out (filepath ++ ".nkb")%string = Some (GraphFile g) /\
        (forall ss, samples = Some ss -> snd out (filepath ++ ".npy")%string = Some (SamplesFile ss)) /\
        forall x, x <> (filepath ++ ".nkb")%string -> x <> (filepath ++ ".npy")%string -> snd out x = d x
    end.
  Proof.
    intros [g|] samples f d; [|reflexivity]. cbv zeta. split; [reflexivity|].
    assert (Ne : String.eqb (f ++ ".nkb")%string (f ++ ".npy")%string = false).
    { apply String.eqb_neq. induction f as [|a f IH]; cbn; [discriminate|]. intro H. inversion H. auto. }
    unfold save, write. cbn [snd]. destruct samples as [ss|]; cbv beta.
    - rewrite Ne, String.eqb_refl. split; auto. split.
      + intros ss' E. inversion E; subst. now rewrite String.eqb_refl.
      + intros x A B. apply String.eqb_neq in A, B. now rewrite A, B.
    - rewrite String.eqb_refl. split; auto. split; [discriminate|]. intros x A _. apply String.eqb_neq in A. now rewrite A.
  Qed.

  (** in every history the three classes can be saved exactly while they have samples, and the saved edges are valid motions between
      the saved samples with their distances *)
  Definition good_save (samples : option (list P)) (og : option graph) : Prop :=
    (samples = None <-> og = None) /\
    forall ss g u v w, samples = Some ss -> og = Some g -> edge g u v w ->
      exists p q, nth_error ss u = Some p /\ nth_error ss v = Some q /\ (w == dist p q)%Q /\ (check p q = true \/ check q p = true).
  Theorem saved_roadmaps : 
    (forall r pos ops, let st := fc_run dist check smp sp ops (fc_new r pos) in good_save (fc_samples st) (fc_graph st)) /\
    (forall k trunc pos ops, let st := nn_run dist check smp ann sp ops (nn_new k trunc pos) in good_save (nn_samples st) (nn_graph st)) /\
    (forall fuel r max_k pos ops st, max_k < fuel -> rp_run dist check smp ann sp fuel ops (rp_new r max_k pos) = Some st ->
       good_save (rp_samples st) (rp_graph st)).
  Proof.
    split; [|split].
    - intros r pos ops st. pose proof (fc_run_inv dist check smp dist_nonneg dist_sym sp SP ops _ (fc_new_inv dist check r pos)) as I.
      fold st in I. unfold fc_inv in I. destruct (fc_samples st) as [ss|], (fc_graph st) as [g|]; try tauto; split; try (split; congruence); try discriminate.
      intros ss' g' u v w E1 E2 E. inversion E1; inversion E2; subst ss' g'. destruct I as (W & _ & X & D).
      destruct (D u v w E) as (p & q & Hp & Hq & Ew). exists p, q. split; auto. split; auto. split; auto.
      destruct (proj1 (X u v)) as [N|N]; [eauto| |]; destruct N as (p' & q' & A & B & _ & C); [left|right]; congruence.
    - intros k trunc pos ops st. pose proof (nn_roadmap_always_valid dist check smp ann sp dist_nonneg dist_sym SP ANN k trunc pos ops) as V.
      cbv zeta in V. fold st in V. destruct (nn_samples st) as [ss|].
      + destruct V as (nn & g & c & _ & Hg & _ & _ & _ & _ & V). rewrite Hg. split; [split; discriminate|].
        intros ss' g' u v w E1 E2 E. inversion E1; inversion E2; subst ss' g'. destruct (V u v w E) as (p & q & A & B & C & D).
        exists p, q. split; auto. split; auto. split; auto. tauto.
      + rewrite V. split; [tauto|]. discriminate.
    - intros fuel r max_k pos ops st F E.
      destruct (rp_run_inv dist check smp ann dist_nonneg dist_sym ANN sp SP fuel ops (rp_new r max_k pos) (rp_new_inv dist check r max_k pos)) as (st' & E' & I & _); [auto|].
      assert (st' = st) by congruence. subst st'. destruct I as (_ & _ & I). destruct (rp_samples st) as [ss|].
      + destruct I as (g & Hg & _ & _ & V). rewrite Hg. split; [split; discriminate|].
        intros ss' g' u v w E1 E2 Ed. inversion E1; inversion E2; subst ss' g'. destruct (V u v w Ed) as (p & q & A & B & C & D).
        exists p, q. auto.
      + rewrite I. split; [tauto|]. discriminate.
  Qed.
End Props.

Print Assumptions nn_never_answers.
Print Assumptions switch_too_late.
Print Assumptions radius_never_answers.
Print Assumptions full_conn_returns_exception.
Print Assumptions answers_with_switch.
Print Assumptions answers_agree_with_query.
Print Assumptions save_exact.
Print Assumptions saved_roadmaps.

(** ** On a line: the reference path is the whole line, every distance to it is zero *)
Definition on_line (p : Z) : Q := 0%Q.
Definition line_run (ss : list Z) (k : nat) (trunc : bool) (ops : list m_op) : mode_state :=
  m_run zdist free (stream ss) zann sp_enum on_line (dg_of sp_enum) ops (m_new k trunc 0).
Definition line_all (st : mode_state) (s t : Z) := m_query_all zdist free st s t.

(** C177 is false: a roadmap that answers the path query has no answer for the pairs *)
Theorem query_all_refuted : exists ss k trunc ops s t d path, Forall offered ops /\
  let st := line_run ss k trunc ops in
  fst (m_query zdist free sp_enum st s t) = Ok (Some d, path) /\ line_all st s t = Err NotImplementedError.
Proof.
  exists [0; 2; 4]%Z, 2, true, [MGrow 3], 0%Z, 4%Z. do 2 eexists. split; [repeat constructor|]. split; vm_compute; reflexivity.
Qed.
Print Assumptions query_all_refuted.

(** with the switch on, choosing fewer neighbours raises on a roadmap that was not cut to its radius, after the edges are gone *)
Theorem switch_fewer_neighbours_refuted : exists ss k ops k', k' < k /\
  let st := line_run ss k false (MMode true :: ops) in
  (exists l, line_all st 0%Z 4%Z = Ok l) /\
  fst (m_set_k on_line (dg_of sp_enum) st k') = Err TypeError /\
  exists g g', nn_graph (m_nn st) = Some g /\ nn_graph (m_nn (snd (m_set_k on_line (dg_of sp_enum) st k'))) = Some g' /\ number_of_edges g' < number_of_edges g.
Proof.
  exists [0; 2; 5]%Z, 2, [MGrow 3], 1. split; [lia|]. cbv zeta. split; [eexists; vm_compute; reflexivity|]. split; [vm_compute; reflexivity|].
  eexists. eexists. split; [reflexivity|]. split; [reflexivity|]. apply Nat.ltb_lt. vm_compute. reflexivity.
Qed.
Print Assumptions switch_fewer_neighbours_refuted.

(** and after a growth that is refused the table no longer fits: the path query answers, the pairs raise IndexError *)
Definition off_line (p : Z) : Q := if (p <? 3)%Z then 0%Q else inject_Z (p - 2).
Theorem switch_refused_growth_refuted : exists ss k ops s t d path,
  let st := m_run zdist free (stream ss) zann sp_enum off_line (dg_of sp_enum) (MMode true :: ops) (m_new k false 0) in
  (forall p, (off_line p <= zdist p s)%Q) /\ (forall p, (off_line p <= zdist p t)%Q) /\
  fst (m_query zdist free sp_enum st s t) = Ok (Some d, path) /\ m_query_all zdist free st s t = Err IndexError.
Proof.
  exists [0; 2; 4]%Z, 1, [MGrow 3; MRadius 1%Q; MGrow 2], 2%Z, 2%Z. do 2 eexists. cbv zeta.
  assert (H : forall p, (off_line p <= zdist p 2)%Q).
  { intro p. unfold off_line, zdist. destruct (Z.ltb_spec p 3); unfold Qle; cbn; lia. }
  split; auto. split; auto. split; vm_compute; reflexivity.
Qed.
Print Assumptions switch_refused_growth_refuted.

(** switched off during a change and on again, the roadmap answers from the table of the roadmap before the change: the distance of a path that is gone *)
Theorem switch_later_refuted : exists ss k k' s t l g p q d i j,
  let st := line_run ss k false [MMode true; MGrow 3; MMode false; MK k'; MMode true] in
  m_on st = true /\ line_all st s t = Ok l /\ nn_graph (m_nn st) = Some g /\ In (p, q, Some d, (i, j)) l /\
  forall ids c, leads ids i j -> ~ trail (edge g) ids c.
Proof.
  exists [0; 2; 5]%Z, 2, 1, 0%Z, 5%Z. eexists. eexists. exists 0%Z, 5%Z, 5%Q, 0, 2. cbv zeta.
  split; [reflexivity|]. split; [vm_compute; reflexivity|]. split; [reflexivity|]. split; [cbn; tauto|].
  match goal with |- forall ids c, _ -> ~ trail (edge ?g0) ids c => set (g := g0) end.
  assert (S2 : forall u v w, u < 2 -> edge g u v w -> v < 2).
  { intros u v w L H. destruct u as [|[|u]]; [| |lia]; revert H; vm_compute; intuition; match goal with H : (_, _) = (_, _) |- _ => injection H as <- _ end; repeat constructor. }
  assert (LL : forall (l : list nat) x d d', last (x :: l) d = last (x :: l) d').
  { induction l as [|a l IH]; intros x d d'; [reflexivity|]. change (last (a :: l) d = last (a :: l) d'). apply IH. }
  assert (T : forall ids c, trail (edge g) ids c -> forall a, hd_error ids = Some a -> a < 2 -> last ids a < 2).
  { induction 1 as [i|i j l w c E T IH]; intros a H L; cbn in H; injection H as <-; [exact L|]. change (last (i :: j :: l) i) with (last (j :: l) i).
    rewrite (LL l j i j). apply IH; [reflexivity|eapply S2; eauto]. }
  intros ids c [H1 H2] H. specialize (T ids c H 0 H1). rewrite H2 in T. lia.
Qed.
Print Assumptions switch_later_refuted.

(** the hypotheses of [answers_with_switch] hold of a roadmap that is grown, cut and queried *)
Example answers_ex :
  let st0 := line_run [0; 2; 9]%Z 2 true [MMode true; MGrow 3] in
  let st := m_step zdist free (stream [0; 2; 9]%Z) zann sp_enum on_line (dg_of sp_enum) st0 (MRadius 3%Q) in
  m_on st0 = true /\ returns free (stream [0; 2; 9]%Z) zann on_line (dg_of sp_enum) st0 (MRadius 3%Q) /\
  line_all st 1%Z 2%Z = Ok [(0%Z, 0%Z, Some 0%Q, (0, 0)); (2%Z, 0%Z, Some 2%Q, (1, 0)); (0%Z, 2%Z, Some 2%Q, (0, 1)); (2%Z, 2%Z, Some 0%Q, (1, 1))] /\
  exists d path, fst (m_query zdist free sp_enum st 1%Z 2%Z) = Ok (Some d, path) /\ (d == 1)%Q.
Proof.
  split; [vm_compute; reflexivity|]. split; [vm_compute; reflexivity|]. split; [vm_compute; reflexivity|].
  do 2 eexists. split; [vm_compute; reflexivity|reflexivity].
Qed.
Example too_late_ex : line_all (line_run [0; 2; 5]%Z 2 true [MGrow 3; MMode true]) 0%Z 5%Z = Err TypeError /\
  line_all (line_run [0; 2; 5]%Z 2 true [MMode true; MGrow 2; MReset; MMode false; MGrow 1; MMode true]) 0%Z 2%Z = Err TypeError.
Proof. split; vm_compute; reflexivity. Qed.
Definition three := nn_run zdist free (stream [0; 2; 5]%Z) zann sp_enum [NGrow 3; NRadius 2%Q] (nn_new 2 false 0).
Example save_ex :
  fst (save (nn_graph three) (nn_samples three) "runs/a" (fun _ => None)) = Saved /\
  snd (save (nn_graph three) (nn_samples three) "runs/a" (fun _ => None)) "runs/a.npy"%string = Some (SamplesFile [0; 2; 5]%Z) /\
  option_map number_of_edges (nn_graph three) = Some 1 /\
  fst (save (nn_graph (nn_reset three)) (nn_samples (nn_reset three)) "runs/b" (fun _ => None)) = RuntimeWarning.
Proof. repeat split; vm_compute; reflexivity. Qed.
Example full_ex : let st := fc_run zdist free (stream [0; 2; 5]%Z) sp_enum [FGrow 3] (fc_new 2%Q 0) in
  fc_query_all zdist free st 0%Z 5%Z = Ok ([(0, 5); (2, 5)]%Z, TheException NotImplementedError, [(0, 2); (1, 2)]).
Proof. vm_compute. reflexivity. Qed.
