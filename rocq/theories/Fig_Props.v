(** C180 The figures of roadmaps show the roadmap and a shortest path on it

    Model: Fig_Model.v (vis_narrow_passages.ipynb, cells 5 and 6; vis_straight_line_env.ipynb, cells 1 and 3). *)
From Coq Require Import Arith List QArith ZArith Bool Lia.
From Coq Require Lqa.
From Verif Require Import NkGraph_Model NkGraph_Spec NkGraph_Proofs Prm_Model Prm_Spec PrmQuery_Proofs PrmFc_Proofs PrmNn_Proofs PrmAnn_Inst
  PrmFc_Props PrmNn_Props Sp_Oracle PrmEx Fig_Model.
Import ListNotations.
Close Scope Q_scope.

(** ** Specification *)
Definition linked (g : graph) (u v : nat) : Prop := exists w, edge g u v w.
Section Spec.
  Context {P : Type}.
  (** a segment runs between the samples of an index pair *)
  Definition drawn_at (ss : list P) (pq : P * P) (ij : nat * nat) : Prop :=
    nth_error ss (fst ij) = Some (fst pq) /\ nth_error ss (snd ij) = Some (snd pq).
  (** the segments are those of the links, each drawn once *)
  Definition shows (ss : list P) (E : nat -> nat -> Prop) (reds : list (P * P)) : Prop :=
    exists ids, NoDup ids /\ (forall i j, In (i, j) ids <-> i <= j /\ E i j) /\
      Forall2 (drawn_at ss) reds ids.
  (** every blue segment lies on a red one *)
  Definition on_roadmap (f : figure (P := P)) : Prop := forall p q, In (p, q) (blues f) -> In (p, q) (reds f) \/ In (q, p) (reds f).
End Spec.

Section Fig.
  Context {P : Type}.
  Variable dist : P -> P -> Q.
  Variable check : P -> P -> bool.
  Variable smp : nat -> P.
  Variable ann : list P -> nat -> rows.
  Variable sp : sp_oracle.
  Hypothesis dist_nonneg : forall p q, (0 <= dist p q)%Q.
  Hypothesis dist_sym : forall p q, (dist p q == dist q p)%Q.
  Hypothesis SP : sp_correct sp.

  (** ** one figure *)
  Lemma nodup_app {A} (l m : list A) : NoDup l -> NoDup m -> (forall x, In x l -> ~ In x m) -> NoDup (l ++ m).
  Proof.
    intros N M D. induction N as [|x l Nx N IH]; auto. cbn. constructor.
    - rewrite in_app_iff. intros [H|H]; [auto|]. apply (D x); cbn; auto.
    - apply IH. intros y Hy. apply D. cbn. auto.
  Qed.
  Lemma edge_list_nodup g : wf g -> NoDup (map fst (edge_list g)).
  Proof.
    intro W. unfold edge_list. assert (N : NoDup (filter (g_alive g) (seq 0 (g_upper g)))) by apply NoDup_filter, seq_NoDup.
    revert N. generalize (filter (g_alive g) (seq 0 (g_upper g))). intros l N. induction N as [|u l Nu N IH]; [constructor|].
    cbn [flat_map]. rewrite map_app. apply nodup_app; auto.
    - rewrite map_map. cbn. pose proof (wf_nodup g W u) as Nd. induction (g_out g u) as [|[v w] r IHr]; [constructor|]. cbn in Nd. inversion Nd; subst.
      cbn. destruct (u <=? v); cbn; auto. constructor; auto. intro H. apply in_map_iff in H. destruct H as ([v' w'] & E & H). cbn in E.
      injection E as ->. apply filter_In in H. apply H1. apply in_map_iff. exists (v, w'). tauto.
    - intros [a b] H1 H2. apply in_map_iff in H1. destruct H1 as ([[a' b'] w] & E & H1). cbn in E. injection E as -> ->.
      apply in_map_iff in H1. destruct H1 as (e & E & _). injection E as -> _ _.
      apply in_map_iff in H2. destruct H2 as ([[a' b''] w'] & E & H2). cbn in E. injection E as -> ->.
      apply in_flat_map in H2. destruct H2 as (x & Hx & H2). apply in_map_iff in H2. destruct H2 as (e' & E & _). injection E as -> _ _. auto.
  Qed.
  Lemma draw_ok (ss : list P) l : (forall u v w, In (u, v, w) l -> u < length ss /\ v < length ss) ->
    exists r, draw_edges ss l = Ok r /\
      Forall2 (drawn_at ss) r (map fst l).
  Proof.
    induction l as [|[[u v] w] l IH]; intro H; [exists []; split; [reflexivity|constructor]|].
    destruct IH as (r & E & F); [intros; eapply H; cbn; eauto|]. destruct (H u v w) as [Hu Hv]; [cbn; auto|].
    apply nth_error_Some in Hu. apply nth_error_Some in Hv. cbn [draw_edges].
    destruct (nth_error ss u) as [p|] eqn:Eu; [|congruence]. destruct (nth_error ss v) as [q|] eqn:Ev; [|congruence].
    rewrite E. cbn [bind]. exists ((p, q) :: r). split; auto. cbn. constructor; auto. split; auto.
  Qed.
  Lemma reds_ok (ss : list P) g : wf g -> vertices_are_samples ss g ->
    exists r, draw_edges ss (edge_list g) = Ok r /\ shows ss (linked g) r /\ number_of_edges g = length r /\ number_of_nodes g = length ss.
  Proof.
    intros W V. assert (Rg : forall u v w, edge g u v w -> u < length ss /\ v < length ss).
    { intros u v w E. destruct (wf_alive g W u v w E) as [A B]. now split; apply V. }
    destruct (draw_ok ss (edge_list g)) as (r & E & F).
    { intros u v w H. apply edge_list_In in H; auto. destruct H. eauto. }
    exists r. split; auto. split; [|split].
    - exists (map fst (edge_list g)). split; [now apply edge_list_nodup|]. split; auto. intros i j. rewrite in_map_iff. split.
      + intros ([[u v] w] & E0 & H). cbn in E0. injection E0 as -> ->. apply edge_list_In in H; auto. destruct H as [H L]. split; auto. exists w. auto.
      + intros (L & w & H). exists (i, j, w). split; auto. apply edge_list_In; auto.
    - unfold number_of_edges. apply Forall2_length in F || (clear - F; rewrite <- (map_length fst); induction F; cbn; congruence).
    - unfold number_of_nodes. rewrite <- (seq_length (length ss) 0). apply Nat.le_antisymm; apply NoDup_incl_length.
      + apply NoDup_filter, seq_NoDup.
      + intros i H. apply filter_In in H. apply in_seq. destruct H as [_ H]. apply V in H. lia.
      + apply seq_NoDup.
      + intros i H. apply in_seq in H. assert (A : g_alive g i = true) by (apply V; lia). apply filter_In. split; auto. apply in_seq.
        pose proof (wf_upper g W i A). lia.
  Qed.
  Lemma blue_links (ss : list P) E path ids : visits ss ids path -> (exists c, trail E ids c) ->
    forall p q, In (p, q) (combine path (tl path)) -> exists i j w, nth_error ss i = Some p /\ nth_error ss j = Some q /\ E i j w.
  Proof.
    intros V (c & T). revert path V. induction T as [i|i j l w c Eij T IH]; intros path V p q H.
    - inversion V as [|? x ? l' Hx Hl]; subst. inversion Hl; subst. cbn in H. tauto.
    - inversion V as [|? x ? l' Hx Hl]; subst. inversion Hl as [|? y ? l'' Hy Hl']; subst. cbn in H. destruct H as [H|H].
      + injection H as <- <-. eauto 8.
      + apply (IH (y :: l'')); auto.
  Qed.
  Lemma shows_in (ss : list P) E r i j p q : shows ss E r -> i <= j -> E i j -> nth_error ss i = Some p -> nth_error ss j = Some q -> In (p, q) r.
  Proof.
    intros (ids & _ & I & F) L H Hi Hj. assert (X : In (i, j) ids) by (apply I; auto). clear I. induction F as [|[p' q'] [i' j'] r ids [A B] F IH]; [destruct X|].
    cbn in A, B. destruct X as [X|X]; [injection X as -> ->; left; congruence|right; auto].
  Qed.
  Lemma blues_on ss (g g' : graph) r s t d path rd : wf g -> (forall u v, linked g u v <-> linked g' u v) -> shows ss (linked g') rd ->
    right_answer dist check ss r (edge g) s t d path -> on_roadmap (mkFigure rd (blue_segments path)).
  Proof.
    intros W L S R p q H. cbn [blues reds] in *. unfold blue_segments in H. destruct d as [d|]; cbn in R.
    - destruct R as ((ids & (a & z & c & ds & dt & _ & _ & T & _) & V) & _).
      destruct (blue_links ss (edge g) path ids V (ex_intro _ c T) p q H) as (i & j & w & Hi & Hj & E).
      destruct (Nat.le_ge_cases i j) as [Le|Le].
      + left. eapply shows_in; eauto. apply L. exists w. auto.
      + right. eapply shows_in; eauto. apply L. exists w. now apply (wf_sym g W).
    - destruct R as [-> _]. destruct H.
  Qed.

  (** ** full connection (vis_narrow_passages.ipynb, cell 5) *)
  Definition near_links (ss : list P) (r : Q) (i j : nat) : Prop := near_valid dist check ss r i j \/ near_valid dist check ss r j i.
  (** the blue line is an optimal path over the red links, or absent when there is none *)
  Definition best_path (ss : list P) (r : Q) (L : nat -> nat -> Prop) (s t : P) (f : figure) (d : option Q) : Prop :=
    exists E path, (forall i j, (exists w, E i j w) <-> L i j) /\
      (forall i j w, E i j w -> exists p q, nth_error ss i = Some p /\ nth_error ss j = Some q /\ (w == dist p q)%Q) /\
      blues f = combine path (tl path) /\ right_answer dist check ss r E s t d path.

  Lemma fc_figure_ok r0 pos ops ss s t :
    let st := fc_run dist check smp sp ops (fc_new r0 pos) in
    fc_samples st = Some ss ->
    exists f d, fc_figure dist check sp st s t =
        (Ok (f, d, (length ss, length (reds f))), fc_run dist check smp sp (ops ++ [FQuery s t]) (fc_new r0 pos)) /\
      fst (fc_query dist check sp st s t) = Ok (d, match fst (fc_query dist check sp st s t) with Ok (_, p) => p | Err _ => [] end) /\
      shows ss (near_links ss (fc_conn_r st)) (reds f) /\ on_roadmap f /\ best_path ss (fc_conn_r st) (near_links ss (fc_conn_r st)) s t f d.
  Proof.
    intros st Es. destruct (full_conn_query_optimal dist check smp sp dist_nonneg dist_sym SP r0 pos ops ss s t Es) as (g & d & path & Eg & Eq & R).
    destruct (full_conn_roadmap_exact dist check smp sp dist_nonneg dist_sym SP r0 pos ops ss Es) as (g0 & Eg0 & X).
    destruct (full_conn_query_preserves dist check smp sp dist_nonneg dist_sym SP r0 pos ops s t) as (Ps & Pr & _ & _).
    fold st in Eg, Eq, R, Eg0, Ps, Pr. assert (g0 = g) by congruence. subst g0.
    assert (Er : fc_conn_r st = radius_asked r0 ops).
    { unfold st. apply radius_asked_ok. }
    rewrite <- Er in X. destruct X as (W & V & L & Wt).
    set (st' := snd (fc_query dist check sp st s t)) in *.
    assert (Est : fc_run dist check smp sp (ops ++ [FQuery s t]) (fc_new r0 pos) = st').
    { unfold fc_run. rewrite fold_left_app. reflexivity. }
    assert (Es' : fc_samples (fc_run dist check smp sp (ops ++ [FQuery s t]) (fc_new r0 pos)) = Some ss) by (rewrite Est; congruence).
    destruct (full_conn_roadmap_exact dist check smp sp dist_nonneg dist_sym SP r0 pos (ops ++ [FQuery s t]) ss Es') as (g' & Eg' & X').
    rewrite Est in *. assert (Er' : fc_conn_r st' = radius_asked r0 (ops ++ [FQuery s t])) by (rewrite <- Est; apply radius_asked_ok).
    rewrite <- Er', Pr in X'. destruct X' as (W' & V' & L' & _).
    destruct (reds_ok ss g' W' V') as (rd & Ed & Sh & Ne & Nn).
    assert (Lk : forall u v, linked g u v <-> linked g' u v) by (intros u v; unfold linked; now rewrite L, L').
    exists (mkFigure rd (blue_segments path)), d. split; [|split; [|split; [|split]]].
    - unfold fc_figure. fold st. rewrite (surjective_pairing (fc_query dist check sp st s t)). fold st'. rewrite Eq.
      cbn iota beta. rewrite Eg', Es'. cbn [red_segments counts]. rewrite Ed. cbn [bind reds]. rewrite Ne, Nn. reflexivity.
    - now rewrite Eq.
    - destruct Sh as (ids & N & I & F). exists ids. split; auto. split; auto. intros i j. rewrite I. unfold linked. now rewrite L'.
    - exact (blues_on ss g g' (fc_conn_r st) s t d path rd W Lk Sh R).
    - exists (edge g), path. auto.
  Qed.

  Lemma shows_incl (ss extra : list P) (E E' : nat -> nat -> Prop) r r' : (forall i j, E i j -> E' i j) -> shows ss E r -> shows (ss ++ extra) E' r' -> incl r r'.
  Proof.
    intros H (ids & _ & I & F) S' [p q] Hin. assert (X : exists i j, In (i, j) ids /\ nth_error ss i = Some p /\ nth_error ss j = Some q).
    { clear - F Hin. induction F as [|[p' q'] [i j] r ids [A B] F IH]; [destruct Hin|]. destruct Hin as [Hin|Hin].
      - injection Hin as -> ->. exists i, j. cbn. auto.
      - destruct (IH Hin) as (i' & j' & ? & ?). exists i', j'. cbn. auto. }
    destruct X as (i & j & Hin' & Hi & Hj). apply I in Hin'. destruct Hin' as [Le HE].
    eapply shows_in; eauto; rewrite nth_error_app1; auto; apply nth_error_Some; congruence.
  Qed.

  (** C180.  Cell 5, whatever its numbers: growing to n1 samples, asking for the radius r and drawing, growing to n2 and drawing again.  It
      returns iff n2 is not smaller.  Each figure draws once every pair of its samples within r with a valid motion one way or the
      other, and in blue a shortest solution along drawn segments, or nothing; the printed numbers are those of the samples and of the
      segments.  The second figure contains the first and its path is not longer. *)
  Theorem narrow_passage_figures : forall r0 n1 r n2 pos s t,
    (n2 < n1 -> narrow_cell5 dist check smp sp r0 n1 r n2 pos s t = Err ArithmeticError) /\
    (n1 <= n2 -> exists f1 d1 f2 d2,
       narrow_cell5 dist check smp sp r0 n1 r n2 pos s t = Ok ((f1, d1, (n1, length (reds f1))), (f2, d2, (n2, length (reds f2)))) /\
       let ss1 := map smp (seq (S pos) n1) in let ss2 := map smp (seq (S pos) n2) in
       shows ss1 (near_links ss1 r) (reds f1) /\ on_roadmap f1 /\ best_path ss1 r (near_links ss1 r) s t f1 d1 /\
       shows ss2 (near_links ss2 r) (reds f2) /\ on_roadmap f2 /\ best_path ss2 r (near_links ss2 r) s t f2 d2 /\
       incl (reds f1) (reds f2) /\ (forall c1, d1 = Some c1 -> exists c2, d2 = Some c2 /\ (c2 <= c1)%Q)).
  Proof.
    intros r0 n1 r n2 pos s t.
    set (run := fun ops => fc_run dist check smp sp ops (fc_new r0 pos)).
    set (ss1 := map smp (seq (S pos) n1)). assert (L1 : length ss1 = n1) by (unfold ss1; now rewrite map_length, seq_length).
    assert (Er : fc_set_radius dist check smp (run [FGrow n1]) r = (Ok tt, run [FGrow n1; FRadius r])).
    { unfold run, fc_run. cbn [fold_left fc_step]. unfold fc_set_radius. cbn [fc_grow fc_new fc_samples snd].
      unfold fc_grow. cbn [fc_samples]. now rewrite Nat.ltb_irrefl. }
    assert (S2 : fc_samples (run [FGrow n1; FRadius r]) = Some ss1 /\ fc_conn_r (run [FGrow n1; FRadius r]) = r /\
                 fc_next (run [FGrow n1; FRadius r]) = S pos + n1).
    { unfold run, fc_run. cbn [fold_left fc_step]. unfold fc_set_radius. cbn [fc_grow fc_new fc_samples snd fc_conn_r fc_next fc_graph].
      unfold fc_grow. cbn [fc_samples]. rewrite Nat.ltb_irrefl. cbn [snd fc_samples fc_conn_r fc_next]. rewrite Nat.sub_diag.
      unfold draw. cbn [seq map]. rewrite app_nil_r. rewrite Nat.add_0_r. auto. }
    destruct S2 as (Es1 & Rr & Nx).
    destruct (fc_figure_ok r0 pos [FGrow n1; FRadius r] ss1 s t Es1) as (f1 & d1 & Ef1 & Q1 & Sh1 & On1 & B1).
    cbn [app] in Ef1. fold (run [FGrow n1; FRadius r]) in Ef1, Q1, Sh1, B1. rewrite Rr in Sh1, B1.
    fold (run [FGrow n1; FRadius r; FQuery s t]) in Ef1.
    destruct (full_conn_query_preserves dist check smp sp dist_nonneg dist_sym SP r0 pos [FGrow n1; FRadius r] s t) as (Ps & Pr & Pn & _).
    change (snd (fc_query dist check sp (fc_run dist check smp sp [FGrow n1; FRadius r] (fc_new r0 pos)) s t))
      with (run [FGrow n1; FRadius r; FQuery s t]) in Ps, Pr, Pn.
    fold (run [FGrow n1; FRadius r]) in Ps, Pr, Pn. rewrite Es1 in Ps. rewrite Rr in Pr. rewrite Nx in Pn.
    destruct (full_conn_grow_samples dist check smp (run [FGrow n1; FRadius r; FQuery s t]) n2) as [Gok Gbad].
    rewrite Ps, L1, Pn in Gok. rewrite Ps, L1 in Gbad.
    assert (U : narrow_cell5 dist check smp sp r0 n1 r n2 pos s t =
      match fc_grow dist check smp (run [FGrow n1; FRadius r; FQuery s t]) n2 with
      | (Err e, _) => Err e
      | (Ok _, prm) => match fc_figure dist check sp prm s t with
                       | (Err e, _) => Err e
                       | (Ok second, _) => Ok ((f1, d1, (n1, length (reds f1))), second) end end).
    { unfold narrow_cell5.
      assert (G : exists ds, fc_grow dist check smp (fc_new r0 pos) n1 = (Ok ds, run [FGrow n1])) by (eexists; reflexivity).
      destruct G as (ds & ->). rewrite Er, Ef1, L1. reflexivity. }
    rewrite U. split.
    - intro H. specialize (Gbad H). destruct (fc_grow dist check smp (run [FGrow n1; FRadius r; FQuery s t]) n2) as [[x|e] st'] eqn:Eg; cbn in Gbad; congruence.
    - intro H. destruct (Gok H) as (ds & st' & Eg & Es2 & L2 & _). rewrite Eg.
      assert (Est : st' = run [FGrow n1; FRadius r; FQuery s t; FGrow n2]).
      { change (run [FGrow n1; FRadius r; FQuery s t; FGrow n2]) with (snd (fc_grow dist check smp (run [FGrow n1; FRadius r; FQuery s t]) n2)). now rewrite Eg. }
      set (ex := map smp (seq (S pos + n1) (n2 - n1))) in *.
      assert (Ess : map smp (seq (S pos) n2) = ss1 ++ ex).
      { unfold ss1, ex. rewrite <- map_app, <- seq_app. do 2 f_equal. lia. }
      rewrite Est in *. clear Est st'.
      assert (R2 : fc_conn_r (run [FGrow n1; FRadius r; FQuery s t; FGrow n2]) = r).
      { change (run [FGrow n1; FRadius r; FQuery s t; FGrow n2]) with (snd (fc_grow dist check smp (run [FGrow n1; FRadius r; FQuery s t]) n2)).
        unfold fc_grow. rewrite Ps. destruct (n2 <? length ss1); cbn [snd fc_conn_r]; auto. }
      destruct (fc_figure_ok r0 pos [FGrow n1; FRadius r; FQuery s t; FGrow n2] (ss1 ++ ex) s t Es2) as (f2 & d2 & Ef2 & Q2 & Sh2 & On2 & B2).
      fold (run [FGrow n1; FRadius r; FQuery s t; FGrow n2]) in Ef2, Q2, Sh2, B2. rewrite R2 in Sh2, B2. rewrite Ef2, L2.
      exists f1, d1, f2, d2. split; auto. cbv zeta. rewrite Ess. do 6 (split; auto). split.
      + eapply shows_incl; [|exact Sh1|exact Sh2]. intros i j. unfold near_links, near_valid.
        assert (A : forall x p, nth_error ss1 x = Some p -> nth_error (ss1 ++ ex) x = Some p)
          by (intros x p Hx; rewrite nth_error_app1; auto; apply nth_error_Some; congruence).
        intros [(p & q & Hp & Hq & Hr)|(p & q & Hp & Hq & Hr)]; [left|right]; exists p, q; auto.
      + intros c1 ->. assert (Rle : (fc_conn_r (run [FGrow n1; FRadius r]) <= fc_conn_r (run [FGrow n1; FRadius r; FQuery s t; FGrow n2]))%Q)
          by (rewrite Rr, R2; apply Qle_refl).
        destruct (full_conn_monotone dist check smp sp dist_nonneg dist_sym SP r0 pos [FGrow n1; FRadius r] r0 pos
          [FGrow n1; FRadius r; FQuery s t; FGrow n2] ss1 ex s t c1 _ Es1 Es2 Rle Q1) as (c2 & p2 & E2 & Le).
        fold (run [FGrow n1; FRadius r; FQuery s t; FGrow n2]) in E2. rewrite E2 in Q2. injection Q2 as <-. eauto.
  Qed.

  (** A sample is within any radius of itself, so where motions from a state to itself are valid the printed number of edges is the
      number of samples plus the number of connected pairs of different samples. *)
  Theorem printed_edges_count_loops : forall r0 n1 r n2 pos s t f d v e second,
    (forall p, (dist p p <= r)%Q /\ check p p = true) ->
    narrow_cell5 dist check smp sp r0 n1 r n2 pos s t = Ok ((f, d, (v, e)), second) ->
    let ss := map smp (seq (S pos) n1) in
    exists pairs, NoDup pairs /\ (forall i j, In (i, j) pairs <-> i < j /\ near_links ss r i j) /\ v = n1 /\ e = n1 + length pairs.
  Proof.
    intros r0 n1 r n2 pos s t f d v e second Rf H ss. destruct (narrow_passage_figures r0 n1 r n2 pos s t) as [Hlt Hle].
    destruct (Nat.lt_ge_cases n2 n1) as [L|L]; [rewrite (Hlt L) in H; discriminate|].
    destruct (Hle L) as (f1 & d1 & f2 & d2 & E & (ids & N & I & F) & _). fold ss in N, I, F. rewrite E in H. injection H as <- <- <- <- _. clear E Hlt Hle.
    assert (Ls : length ss = n1) by (unfold ss; now rewrite map_length, seq_length).
    exists (filter (fun ij => fst ij <? snd ij) ids). split; [now apply NoDup_filter|]. split.
    { intros i j. rewrite filter_In, I. cbn [fst snd]. rewrite Nat.ltb_lt. intuition lia. }
    split; auto.
    assert (Lr : length (reds f1) = length ids) by (clear - F; induction F; cbn; congruence). rewrite Lr. rewrite <- Ls at 1.
    rewrite <- (seq_length (length ss) 0), <- (map_length (fun i => (i, i)) (seq 0 (length ss))), <- app_length.
    assert (Rng : forall i j, near_links ss r i j -> i < length ss /\ j < length ss).
    { intros i j [(p & q & A & B & _)|(p & q & A & B & _)]; split; apply nth_error_Some; congruence. }
    apply Nat.le_antisymm; apply NoDup_incl_length; auto.
    - intros [i j] Hin. apply in_app_iff. pose proof Hin as Hin'. apply I in Hin'. destruct Hin' as [Le HL]. destruct (Nat.eq_dec i j) as [->|Ne].
      + left. apply in_map_iff. exists j. split; auto. apply in_seq. apply Rng in HL. lia.
      + right. apply filter_In. split; auto. cbn. apply Nat.ltb_lt. lia.
    - apply nodup_app.
      + apply FinFun.Injective_map_NoDup; [|apply seq_NoDup]. intros a b Hab. now injection Hab.
      + now apply NoDup_filter.
      + intros [i j] H1 H2. apply in_map_iff in H1. destruct H1 as (x & Hx & _). injection Hx as <- <-. apply filter_In in H2.
        cbn in H2. destruct H2 as [_ H2]. apply Nat.ltb_lt in H2. lia.
    - intros [i j] Hin. apply in_app_iff in Hin. destruct Hin as [Hin|Hin]; [|now apply filter_In in Hin].
      apply in_map_iff in Hin. destruct Hin as (x & Hx & Hs). injection Hx as <- <-. apply in_seq in Hs. apply I. split; auto.
      left. assert (X : nth_error ss x <> None) by (apply nth_error_Some; lia). destruct (nth_error ss x) as [p|] eqn:Ex; [|congruence].
      exists p, p. rewrite Ex. destruct (Rf p). auto.
  Qed.

  (** ** nearest neighbours (vis_narrow_passages.ipynb, cell 6; vis_straight_line_env.ipynb) *)
  Hypothesis ANN : ann_shape dist ann.
  (** one of the two samples lists the other among its k neighbours and the motion that way is valid *)
  Definition nn_links (ss : list P) (k : nat) (i j : nat) : Prop :=
    exists d, nn_link check ss (ann ss k) 0 None i j d \/ nn_link check ss (ann ss k) 0 None j i d.
  (** and neither lists the other at position k1 or later *)
  Definition kept_links (ss : list P) (k k1 : nat) (i j : nat) : Prop :=
    nn_links ss k i j /\ (forall x d, lists_at (ann ss k) i j x d -> x < k1) /\ (forall x d, lists_at (ann ss k) j i x d -> x < k1).

  Lemma nn_figure_ok k pos ops ss r g s t :
    let st := nn_run dist check smp ann sp ops (nn_new k false pos) in
    nn_samples st = Some ss -> nn_conn_r st = None -> nn_cert st = Some r -> nn_graph st = Some g ->
    exists f d path rd g', nn_query dist check sp st s t = (Ok (d, path), nn_run dist check smp ann sp (ops ++ [NQuery s t]) (nn_new k false pos)) /\
      nn_samples (nn_run dist check smp ann sp (ops ++ [NQuery s t]) (nn_new k false pos)) = Some ss /\
      nn_graph (nn_run dist check smp ann sp (ops ++ [NQuery s t]) (nn_new k false pos)) = Some g' /\
      draw_edges ss (edge_list g') = Ok rd /\ f = mkFigure rd (blue_segments path) /\
      nn_figure dist check sp st s t =
        (Ok (f, d, (length ss, length (reds f))), nn_run dist check smp ann sp (ops ++ [NQuery s t]) (nn_new k false pos)) /\
      shows ss (linked g) (reds f) /\ on_roadmap f /\ best_path ss r (linked g) s t f d /\
      right_answer dist check ss r (edge g) s t d path /\ (path = [] <-> d = None).
  Proof.
    intros st Es Ec Er Eg.
    destruct (nn_query_optimal dist check smp ann sp dist_nonneg dist_sym SP ANN k false pos ops ss r s t Es) as (g0 & d & path & Eg0 & Eq & R & Em).
    { fold st. now rewrite Ec. }
    fold st in Eg0, Eq, R. assert (g0 = g) by congruence. subst g0.
    pose proof (nn_roadmap_always_valid dist check smp ann sp dist_nonneg dist_sym SP ANN k false pos ops) as V0. cbv zeta in V0. fold st in V0. rewrite Es in V0.
    destruct V0 as (nn & g1 & c & _ & Eg1 & _ & W & V & _ & Wt). assert (g1 = g) by congruence. subst g1.
    destruct (nn_query_preserves dist check smp ann sp dist_nonneg dist_sym SP ANN k false pos ops s t) as (Ps & _ & _ & _ & _ & _ & _ & Sm).
    fold st in Ps, Sm. set (st' := snd (nn_query dist check sp st s t)) in *.
    assert (Est : nn_run dist check smp ann sp (ops ++ [NQuery s t]) (nn_new k false pos) = st').
    { unfold nn_run. rewrite fold_left_app. reflexivity. }
    rewrite Es in Ps. rewrite Eg in Sm. destruct (nn_graph st') as [g'|] eqn:Eg'; [|tauto].
    pose proof (nn_roadmap_always_valid dist check smp ann sp dist_nonneg dist_sym SP ANN k false pos (ops ++ [NQuery s t])) as V1.
    cbv zeta in V1. rewrite Est, Ps in V1. destruct V1 as (nn' & g1 & c' & _ & Eg1' & _ & W' & V' & _). rewrite Eg' in Eg1'. injection Eg1' as <-.
    destruct (reds_ok ss g' W' V') as (rd & Ed & Sh & Ne & Nn).
    assert (Lk : forall u v, linked g u v <-> linked g' u v).
    { intros u v. unfold linked, edge. destruct Sm as [_ So]. now rewrite So. }
    assert (Eqq : nn_query dist check sp st s t = (Ok (d, path), st')) by (rewrite (surjective_pairing (nn_query dist check sp st s t)); now rewrite Eq).
    exists (mkFigure rd (blue_segments path)), d, path, rd, g'. rewrite Est. do 5 (split; auto). split; [|split; [|split; [|split; [|split]]]].
    - unfold nn_figure. rewrite Eqq. rewrite Eg', Ps. cbn [red_segments counts]. rewrite Ed. cbn [bind reds]. rewrite Ne, Nn. reflexivity.
    - destruct Sh as (ids & N & I & F). exists ids. split; auto. split; auto. intros i j. rewrite I. now rewrite Lk.
    - exact (blues_on ss g g' r s t d path rd W Lk Sh R).
    - exists (edge g), path. split; [reflexivity|]. split; auto. intros i j w Hw. destruct (Wt i j w Hw) as (p & q & A & B & C & _). eauto.
    - exact R.
    - exact Em.
  Qed.

  Lemma min_last_some nn : nn <> [] -> (forall row, In row nn -> row <> []) -> min_last nn <> None.
  Proof.
    intro N. destruct nn as [|row nn]; [congruence|]. clear N. revert row. induction nn as [|row' nn IH]; intros row H.
    - cbn. destruct row; cbn; [exfalso; eapply (H []); cbn; auto|discriminate].
    - change (match last_dist row, min_last (row' :: nn) with
              | Some a, Some b => Some (if Qle_bool a b then a else b) | _, _ => None end <> None).
      destruct row as [|e row]; [exfalso; eapply (H []); cbn; auto|]. cbn [last_dist].
      specialize (IH row'). destruct (min_last (row' :: nn)); [discriminate|]. apply IH. intros r Hr. apply H. cbn in *. tauto.
  Qed.
  Lemma grow_ok st n : nn_trunc st = false -> 1 <= nn_k st -> 2 <= n ->
    let old := match nn_samples st with Some s => s | None => [] end in
    length old < n ->
    let ss := old ++ map smp (seq (nn_next st) (n - length old)) in let k := Nat.min (n - 1) (nn_k st) in
    exists st1 c g, nn_grow check smp ann st n = (Ok None, st1) /\ nn_samples st1 = Some ss /\ nn_conn_r st1 = None /\
      nn_cert st1 = Some c /\ min_last (ann ss k) = Some c /\ nn_graph st1 = Some g /\ (forall i j, linked g i j <-> nn_links ss k i j) /\
      nn_master st1 = Some (ann ss k) /\ nn_k st1 = nn_k st /\ nn_max_k st1 = nn_max_k st /\ nn_trunc st1 = false /\ length ss = n /\
      nn_next st1 = nn_next st + (n - length old).
  Proof.
    intros Tr Kk N2 old Lo ss k.
    assert (Ln : length ss = n) by (unfold ss; rewrite app_length, map_length, seq_length; lia).
    destruct (ANN ss k) as (Al & Ar & _). destruct (shape_to_graph dist check ss _ (ann ss k) 0 None (ANN ss k)) as (g & Eg & Hn & _).
    assert (Mn : min_last (ann ss k) <> None).
    { apply min_last_some.
      - intro Z. rewrite Z in Al. cbn in Al. lia.
      - intros row Hr Z. specialize (Ar row Hr). rewrite Z, Ln in Ar. unfold k in Ar. cbn in Ar. lia. }
    destruct (min_last (ann ss k)) as [c|] eqn:Em; [|congruence].
    assert (X : forall st0, nn_trunc st0 = false -> nn_k st0 = nn_k st -> nn_max_k st0 = nn_max_k st -> nn_rebuild check ann st0 ss (nn_next st + (n - length old)) n =
      (Ok None, mkNn (nn_max_k st) (nn_k st) None false (Some c) (Some ss) (Some g) (Some (ann ss k)) (Some g) (nn_next st + (n - length old)))).
    { intros st0 T0 K0 M0. unfold nn_rebuild. rewrite K0. fold k. rewrite Eg, Em, T0, M0. reflexivity. }
    eexists _, c, g. split.
    - unfold nn_grow. subst ss old. destruct (nn_samples st) as [o|].
      + destruct (Nat.leb_spec n (length o)); [lia|]. apply X; auto.
      + cbn [length app] in X. cbn [length app]. rewrite Nat.sub_0_r in *. apply X; auto.
    - cbn. repeat (split; auto). all: destruct Hn as (_ & _ & Hn & _); apply Hn.
  Qed.
  Lemma set_k_ok k0 pos ops ss k1 g : let st := nn_run dist check smp ann sp ops (nn_new k0 false pos) in
    nn_samples st = Some ss -> nn_max_k st = k0 -> k1 <= nn_k st -> nn_k st <= k0 -> nn_graph st = Some g ->
    forall nn, nn_master st = Some nn ->
    exists g', nn_set_k st k1 = (Ok tt, nn_run dist check smp ann sp (ops ++ [NK k1]) (nn_new k0 false pos)) /\
      let st' := nn_run dist check smp ann sp (ops ++ [NK k1]) (nn_new k0 false pos) in
      nn_samples st' = Some ss /\ nn_conn_r st' = nn_conn_r st /\ nn_cert st' = nn_cert st /\ nn_graph st' = Some g' /\
      nn_k st' = k1 /\ nn_max_k st' = k0 /\ nn_trunc st' = nn_trunc st /\ nn_next st' = nn_next st /\
      (forall i j, linked g' i j <-> linked g i j /\ (forall x d, lists_at nn i j x d -> x < k1) /\ (forall x d, lists_at nn j i x d -> x < k1)).
  Proof.
    intros st Es Em Hk Hk0 Eg nn En.
    destruct (nn_set_k_exact dist check smp ann sp dist_nonneg dist_sym SP ANN k0 false pos ops k1) as [_ X]. fold st in X.
    assert (Est : nn_run dist check smp ann sp (ops ++ [NK k1]) (nn_new k0 false pos) = snd (nn_set_k st k1)).
    { unfold nn_run. rewrite fold_left_app. reflexivity. }
    assert (Ek : nn_set_k st k1 = (Ok tt, mkNn (nn_max_k st) k1 (nn_conn_r st) (nn_trunc st) (nn_cert st) (nn_samples st)
       (Some (drop_edges (throw_away nn k1) g)) (nn_master st) (nn_cache st) (nn_next st))).
    { unfold nn_set_k. rewrite Em. destruct (Nat.ltb_spec k0 k1); [lia|]. destruct (Nat.ltb_spec (nn_k st) k1); [lia|]. rewrite En, Eg.
      destruct (throw_away nn k1); reflexivity. }
    destruct (X ss _ Es Ek) as (nn' & g0 & g' & E1 & _ & E2 & E3 & Iff). cbn in E2. injection E2 as <-.
    destruct (Nat.ltb_spec (nn_k st) k1); [lia|]. rewrite Eg in E3. injection E3 as <-. rewrite En in E1. injection E1 as <-.
    eexists. rewrite Est, Ek. cbn [snd nn_samples nn_conn_r nn_cert nn_graph nn_k nn_max_k nn_trunc nn_next]. split; [reflexivity|].
    do 8 (split; auto). intros i j. unfold linked. split.
    - intros (w & Hw). apply Iff in Hw. destruct Hw as (A & B & C). eauto.
    - intros ((w & Hw) & B & C). exists w. apply Iff. auto.
  Qed.

  Lemma shows_ext (ss : list P) (E E' : nat -> nat -> Prop) r : (forall i j, E i j <-> E' i j) -> shows ss E r -> shows ss E' r.
  Proof. intros H (ids & N & I & F). exists ids. split; auto. split; auto. intros i j. rewrite I. now rewrite H. Qed.
  Lemma best_ext ss r (L L' : nat -> nat -> Prop) s t f d : (forall i j, L i j <-> L' i j) -> best_path ss r L s t f d -> best_path ss r L' s t f d.
  Proof. intros H (E & path & A & B). exists E, path. split; auto. intros i j. rewrite A. apply H. Qed.

  (** the state after growing a new roadmap and asking for fewer neighbours *)
  Lemma grown_and_cut k0 n k1 pos : 1 <= k1 <= k0 -> 2 <= n ->
    let ss := map smp (seq (S pos) n) in let k := Nat.min (n - 1) k0 in
    let run := fun ops => nn_run dist check smp ann sp ops (nn_new k0 false pos) in
    exists c g g', nn_grow check smp ann (nn_new k0 false pos) n = (Ok None, run [NGrow n]) /\
      nn_samples (run [NGrow n]) = Some ss /\ nn_graph (run [NGrow n]) = Some g /\ (forall i j, linked g i j <-> nn_links ss k i j) /\
      nn_set_k (run [NGrow n]) k1 = (Ok tt, run [NGrow n; NK k1]) /\ min_last (ann ss k) = Some c /\
      nn_samples (run [NGrow n; NK k1]) = Some ss /\ nn_conn_r (run [NGrow n; NK k1]) = None /\ nn_cert (run [NGrow n; NK k1]) = Some c /\
      nn_graph (run [NGrow n; NK k1]) = Some g' /\ (forall i j, linked g' i j <-> kept_links ss k k1 i j) /\
      nn_k (run [NGrow n; NK k1]) = k1 /\ nn_trunc (run [NGrow n; NK k1]) = false /\ nn_next (run [NGrow n; NK k1]) = S pos + n.
  Proof.
    intros Hk Hn ss k run.
    destruct (grow_ok (nn_new k0 false pos) n) as (st1 & c & g & Eg & Es & Ec & Ecert & Em & Egr & Lg & Ema & Ek & Emk & Et & Ln & Enx); auto; try (cbn; lia).
    cbn [nn_new nn_samples nn_next length app nn_k nn_max_k] in *. rewrite Nat.sub_0_r in *. fold ss in Es, Em, Lg, Ema, Ln. fold k in Em, Lg, Ema.
    assert (E1 : st1 = run [NGrow n]) by (unfold run, nn_run; cbn [fold_left nn_step]; unfold nn_new in Eg |- *; now rewrite Eg). rewrite E1 in *. clear E1 st1.
    destruct (set_k_ok k0 pos [NGrow n] ss k1 g Es) with (nn := ann ss k) as (g' & Esk & A1 & A2 & A3 & A4 & A5 & A6 & A7 & A8 & A9);
      try (cbn; fold (run [NGrow n]); rewrite ?Ek; lia); auto.
    { fold (run [NGrow n]). lia. }
    { fold (run [NGrow n]). lia. }
    cbn [app] in *. fold (run [NGrow n]) in *. fold (run [NGrow n; NK k1]) in *.
    exists c, g, g'. do 6 (split; [first [assumption | now auto]|]). split; [auto|]. split; [congruence|]. split; [congruence|]. split; [auto|].
    split; [|split; [auto|split; congruence]].
    intros i j. rewrite A9, Lg. reflexivity.
  Qed.

  (** C180.  Cell 6, whatever its numbers: the first figure draws the roadmap of k0 neighbours without the pairs one of which lists the other
      at position k1 or later; the second, over n2 samples, draws the roadmap of k1 neighbours.  Its second call of grow_to_n_samples
      raises when n2 is not larger. *)
  Theorem nearest_neighbour_figures : forall k0 n1 k1 n2 pos s t, 1 <= k1 <= k0 -> 2 <= n1 ->
    (n2 <= n1 -> narrow_cell6 dist check smp ann sp k0 n1 k1 n2 pos s t = Err ArithmeticError) /\
    (n1 < n2 -> exists f1 d1 f2 d2 c1 c2,
       narrow_cell6 dist check smp ann sp k0 n1 k1 n2 pos s t = Ok ((f1, d1, (n1, length (reds f1))), (f2, d2)) /\
       let ss1 := map smp (seq (S pos) n1) in let ss2 := map smp (seq (S pos) n2) in
       let K1 := Nat.min (n1 - 1) k0 in let K2 := Nat.min (n2 - 1) k1 in
       min_last (ann ss1 K1) = Some c1 /\ min_last (ann ss2 K2) = Some c2 /\
       shows ss1 (kept_links ss1 K1 k1) (reds f1) /\ on_roadmap f1 /\ best_path ss1 c1 (kept_links ss1 K1 k1) s t f1 d1 /\
       shows ss2 (nn_links ss2 K2) (reds f2) /\ on_roadmap f2 /\ best_path ss2 c2 (nn_links ss2 K2) s t f2 d2).
  Proof.
    intros k0 n1 k1 n2 pos s t Hk Hn.
    set (run := fun ops => nn_run dist check smp ann sp ops (nn_new k0 false pos)).
    destruct (grown_and_cut k0 n1 k1 pos Hk Hn) as (c1 & g & g1 & E1 & _ & _ & _ & E2 & M1 & S1 & C1 & T1 & G1 & L1 & K1 & Tr1 & N1).
    fold (run [NGrow n1]) in E1, E2. fold (run [NGrow n1; NK k1]) in E2, S1, C1, T1, G1, K1, Tr1, N1.
    destruct (nn_figure_ok k0 pos [NGrow n1; NK k1] _ c1 g1 s t S1 C1 T1 G1) as (f1 & d1 & path1 & rd1 & gq & Eq & Sq & Gq & Ed & Ef & Efig & Sh & On & B & _).
    cbn [app] in Eq, Sq, Gq, Efig. fold (run [NGrow n1; NK k1]) in Efig, Eq. fold (run [NGrow n1; NK k1; NQuery s t]) in Eq, Sq, Gq, Efig.
    destruct (nn_query_preserves dist check smp ann sp dist_nonneg dist_sym SP ANN k0 false pos [NGrow n1; NK k1] s t) as (_ & _ & _ & Pk & _ & _ & Pn & _).
    change (snd (nn_query dist check sp (nn_run dist check smp ann sp [NGrow n1; NK k1] (nn_new k0 false pos)) s t))
      with (run [NGrow n1; NK k1; NQuery s t]) in Pk, Pn. fold (run [NGrow n1; NK k1]) in Pk, Pn.
    assert (Pt : nn_trunc (run [NGrow n1; NK k1; NQuery s t]) = false).
    { change (run [NGrow n1; NK k1; NQuery s t]) with (snd (nn_query dist check sp (run [NGrow n1; NK k1]) s t)).
      unfold nn_query. rewrite S1, C1, T1, G1. destruct (query_best dist check sp g1 _ c1 s t). cbn. auto. }
    set (ss1 := map smp (seq (S pos) n1)) in *. assert (Ls : length ss1 = n1) by (unfold ss1; now rewrite map_length, seq_length).
    assert (U : narrow_cell6 dist check smp ann sp k0 n1 k1 n2 pos s t =
      match nn_grow check smp ann (run [NGrow n1; NK k1; NQuery s t]) n2 with
      | (Err e, _) => Err e
      | (Ok _, prm) => match nn_figure dist check sp prm s t with
                       | (Err e, _) => Err e
                       | (Ok (f, d, _), _) => Ok ((f1, d1, (n1, length (reds f1))), (f, d)) end end).
    { unfold narrow_cell6. rewrite E1, E2, Efig, Ls. reflexivity. }
    rewrite U. split.
    - intro H. unfold nn_grow. rewrite Sq, Ls. destruct (Nat.leb_spec n2 n1); [reflexivity|lia].
    - intro H. destruct (grow_ok (run [NGrow n1; NK k1; NQuery s t]) n2) as (st2 & c2 & g2 & Eg & Es2 & Ec2 & Et2 & M2 & Eg2 & L2 & _ & _ & _ & _ & Ln2 & _);
        rewrite ?Sq, ?Pk, ?K1, ?Ls; auto; try lia.
      rewrite Sq, Pk, K1, Pn, N1, Ls in *. rewrite Eg.
      assert (Ess : map smp (seq (S pos) n2) = ss1 ++ map smp (seq (S pos + n1) (n2 - n1))).
      { unfold ss1. rewrite <- map_app, <- seq_app. do 2 f_equal. lia. }
      rewrite <- Ess in *.
      assert (Est : st2 = run [NGrow n1; NK k1; NQuery s t; NGrow n2]).
      { change (run [NGrow n1; NK k1; NQuery s t; NGrow n2]) with (snd (nn_grow check smp ann (run [NGrow n1; NK k1; NQuery s t]) n2)). now rewrite Eg. }
      rewrite Est in *.
      destruct (nn_figure_ok k0 pos [NGrow n1; NK k1; NQuery s t; NGrow n2] _ c2 g2 s t Es2 Ec2 Et2 Eg2)
        as (f2 & d2 & path2 & rd2 & gq2 & _ & _ & _ & _ & _ & Efig2 & Sh2 & On2 & B2 & _).
      fold (run [NGrow n1; NK k1; NQuery s t; NGrow n2]) in Efig2. rewrite Efig2.
      exists f1, d1, f2, d2, c1, c2. split; [reflexivity|]. cbv zeta. split; auto. split; auto.
      split; [eapply shows_ext; eauto|]. split; auto. split; [eapply best_ext; eauto|]. split; [eapply shows_ext; eauto|]. split; auto. eapply best_ext; eauto.
  Qed.

  (** C180.  The first cell of the straight line notebook: the second figure draws the segments of the first whose samples do not list each other at
      position k1 or later.  Its third cell, on the roadmap that is left, raises IndexError iff there is no solution; else it adds a
      shortest path with the legs to its two ends. *)
  Theorem straight_line_figures : forall k0 n k1 pos s t, 1 <= k1 <= k0 -> 2 <= n ->
    exists first second prm c, line_cell1 check smp ann k0 n k1 pos = Ok (first, second, prm) /\
      let ss := map smp (seq (S pos) n) in let K := Nat.min (n - 1) k0 in
      min_last (ann ss K) = Some c /\
      shows ss (nn_links ss K) first /\ shows ss (kept_links ss K k1) second /\ incl second first /\
      exists E, (forall i j, (exists w, E i j w) <-> kept_links ss K k1 i j) /\
        (forall i j w, E i j w -> exists p q, nth_error ss i = Some p /\ nth_error ss j = Some q /\ (w == dist p q)%Q) /\
        ((line_cell3 dist check sp prm s t = Err IndexError /\ forall ids x, ~ solution dist check ss c E s t ids x) \/
         exists f d p path, line_cell3 dist check sp prm s t = Ok f /\ shows ss (kept_links ss K k1) (reds f) /\
           right_answer dist check ss c E s t (Some d) (p :: path) /\
           blues f = combine (p :: path) path ++ [(s, p); (t, last (p :: path) p)]).
  Proof.
    intros k0 n k1 pos s t Hk Hn.
    set (run := fun ops => nn_run dist check smp ann sp ops (nn_new k0 false pos)).
    destruct (grown_and_cut k0 n k1 pos Hk Hn) as (c & g & g1 & E1 & S0 & G0 & L0 & E2 & M1 & S1 & C1 & T1 & G1 & L1 & K1 & Tr1 & N1).
    fold (run [NGrow n]) in E1, E2, S0, G0. fold (run [NGrow n; NK k1]) in E2, S1, C1, T1, G1, K1, Tr1, N1.
    set (ss := map smp (seq (S pos) n)) in *.
    pose proof (nn_roadmap_always_valid dist check smp ann sp dist_nonneg dist_sym SP ANN k0 false pos [NGrow n]) as V0. cbv zeta in V0.
    fold (run [NGrow n]) in V0. rewrite S0, G0 in V0. destruct V0 as (_ & g' & _ & _ & X & _ & W & V & _). injection X as <-.
    pose proof (nn_roadmap_always_valid dist check smp ann sp dist_nonneg dist_sym SP ANN k0 false pos [NGrow n; NK k1]) as V0. cbv zeta in V0.
    fold (run [NGrow n; NK k1]) in V0. rewrite S1, G1 in V0. destruct V0 as (nn1 & g' & cc & _ & X & _ & W1 & V1 & _ & Wt). injection X as <-.
    destruct (reds_ok ss g W V) as (rd0 & D0 & Sh0 & _ & _). destruct (reds_ok ss g1 W1 V1) as (rd1 & D1 & Sh1 & _ & _).
    destruct (nn_figure_ok k0 pos [NGrow n; NK k1] ss c g1 s t S1 C1 T1 G1) as (f & d & path & rd & gq & Eq & Sq & Gq & Ed & Ef & _ & Sh & On & _ & R & Em).
    fold (run [NGrow n; NK k1]) in Eq.
    exists rd0, rd1, (run [NGrow n; NK k1]), c. split.
    { unfold line_cell1. rewrite E1, G0, S0. cbn [red_segments]. rewrite D0. cbn [bind]. rewrite E2, G1, S1. cbn [red_segments]. rewrite D1. reflexivity. }
    cbv zeta. split; auto. split; [eapply shows_ext; eauto|]. split; [eapply shows_ext; eauto|]. split.
    { apply (shows_incl ss [] (linked g1) (linked g)); auto.
      - intros i j H. apply L1 in H. apply L0. apply H.
      - now rewrite app_nil_r. }
    exists (edge g1). split; [exact L1|]. split.
    { intros i j w Hw. destruct (Wt i j w Hw) as (p & q & A & B & Cc & _). eauto. }
    unfold line_cell3. rewrite Eq, Sq, Gq. cbn [red_segments]. rewrite Ed. cbn [bind].
    destruct path as [|p path].
    - left. split; auto. rewrite (proj1 Em eq_refl) in R. apply R.
    - right. destruct d as [d|]; [|discriminate (proj2 Em eq_refl)].
      eexists _, d, p, path. split; [reflexivity|]. split; [|split; [exact R|]].
      + rewrite Ef in Sh. eapply shows_ext; eauto.
      + cbn [blues]. unfold blue_segments. cbn [tl]. do 3 f_equal. destruct path; reflexivity.
  Qed.
End Fig.
Print Assumptions narrow_passage_figures.
Print Assumptions printed_edges_count_loops.
Print Assumptions nearest_neighbour_figures.
Print Assumptions straight_line_figures.

(** ** Examples *)
Definition ex_ss : list Z := [0; 2; 3]%Z.
(** With radius 1 the states -1 and 4 are not joined; with radius 2 they are, and the path over three samples is drawn. *)
Example ex_no_path :
  narrow_cell5 zdist free (stream ex_ss) sp_enum 9 2 1 3 0 (-1)%Z 4%Z =
    Ok ((mkFigure [(0, 0); (2, 2)]%Z [], None, (2, 2)), (mkFigure [(0, 0); (2, 2); (2, 3); (3, 3)]%Z [], None, (3, 4))).
Proof. vm_compute. reflexivity. Qed.
Example ex_path :
  narrow_cell5 zdist free (stream ex_ss) sp_enum 9 2 2 3 0 (-1)%Z 4%Z =
    Ok ((mkFigure [(0, 0); (0, 2); (2, 2)]%Z [(0, 2)]%Z, Some 5%Q, (2, 3)),
        (mkFigure [(0, 0); (0, 2); (2, 2); (2, 3); (3, 3)]%Z [(0, 2); (2, 3)]%Z, Some 5%Q, (3, 5))).
Proof. vm_compute. reflexivity. Qed.
Example ex_narrow_applies := narrow_passage_figures zdist free (stream ex_ss) zann sp_enum zdist_nonneg zdist_sym sp_enum_correct 9 2 2 3 0 (-1)%Z 4%Z.
Example ex_too_small : narrow_cell5 zdist free (stream ex_ss) sp_enum 9 3 2 2 0 (-1)%Z 4%Z = Err ArithmeticError.
Proof. apply (narrow_passage_figures zdist free (stream ex_ss) zann sp_enum zdist_nonneg zdist_sym sp_enum_correct 9 3 2 2 0 (-1)%Z 4%Z). lia. Qed.
(** three samples, of which 0 and 2 and 2 and 3 are joined: 3 + 2 = 5 edges *)
Example ex_loops : exists f d second, narrow_cell5 zdist free (stream ex_ss) sp_enum 9 3 2 3 0 (-1)%Z 4%Z = Ok ((f, d, (3, 5)), second) /\
  forall p : Z, (zdist p p <= 2)%Q /\ free p p = true.
Proof.
  eexists _, _, _. split; [vm_compute; reflexivity|]. intro p. split; auto. unfold zdist. rewrite Z.sub_diag. cbn. discriminate.
Qed.
Example ex_neighbours :
  narrow_cell6 zdist free (stream ex_ss) zann sp_enum 2 2 1 3 0 (-1)%Z 4%Z =
    Ok ((mkFigure [(0, 2)]%Z [(0, 2)]%Z, Some 5%Q, (2, 1)), (mkFigure [(0, 2); (2, 3)]%Z [(0, 2); (2, 3)]%Z, Some 5%Q)).
Proof. vm_compute. reflexivity. Qed.
Example ex_neighbours_apply := nearest_neighbour_figures zdist free (stream ex_ss) zann sp_enum zdist_nonneg zdist_sym sp_enum_correct
  (exact_shape zdist zann (brute_ann_exact zdist)) 2 2 1 3 0 (-1)%Z 4%Z ltac:(lia) ltac:(lia).
(** 0, 1 and 3 with one neighbour instead of two: one segment is left, a path from -1 to 2 is drawn with its legs, and from -1 to 4 the cell raises. *)
Example ex_line : exists prm, line_cell1 free (stream [0; 1; 3]%Z) zann 2 3 1 0 = Ok ([(0, 1); (0, 3); (1, 3)]%Z, [(0, 1)]%Z, prm) /\
  line_cell3 zdist free sp_enum prm (-1)%Z 2%Z = Ok (mkFigure [(0, 1)]%Z [(0, 1); (-1, 0); (2, 1)]%Z) /\
  line_cell3 zdist free sp_enum prm (-1)%Z 4%Z = Err IndexError.
Proof. eexists. split; [reflexivity|]. split; vm_compute; reflexivity. Qed.
Example ex_line_applies := straight_line_figures zdist free (stream [0; 1; 3]%Z) zann sp_enum zdist_nonneg zdist_sym sp_enum_correct
  (exact_shape zdist zann (brute_ann_exact zdist)) 2 3 1 0 (-1)%Z 2%Z ltac:(lia) ltac:(lia).

(** The printed "N edges" is not a number of connections between different samples: here it is 2 and no two samples are joined. *)
Theorem printed_edges_are_pairs_refuted : exists (ss : list Z) r n s t f d second,
  narrow_cell5 zdist free (stream ss) sp_enum r n r n 0 s t = Ok ((f, d, (n, 2)), second) /\
  let samples := map (stream ss) (seq 1 n) in
  ~ exists i j, i <> j /\ near_links zdist free samples r i j.
Proof.
  exists ex_ss, 1%Q, 2, (-1)%Z, 4%Z. eexists _, _, _. split; [vm_compute; reflexivity|]. cbv zeta. change (map (stream ex_ss) (seq 1 2)) with [0; 2]%Z. intros (i & j & N & H).
  assert (Q : forall i j, i <> j -> ~ near_valid zdist free [0; 2]%Z 1 i j).
  { intros a b Nab (p & q & Hp & Hq & Hr & _). destruct a as [|[|a]], b as [|[|b]]; cbn in Hp, Hq; try congruence;
      try (destruct a; discriminate); try (destruct b; discriminate);
      injection Hp as <-; injection Hq as <-; revert Hr; vm_compute; intro X; apply X; reflexivity. }
  destruct H as [H|H]; [exact (Q i j N H)|exact (Q j i (not_eq_sym N) H)].
Qed.
Print Assumptions printed_edges_are_pairs_refuted.

(** The figure drawn after asking for fewer neighbours does not show every sample joined to its nearest ones: the nearest to 3 is 1, and that segment is
    not drawn. *)
Theorem reduced_figure_shows_nearest_refuted : exists (ss : list Z) k0 n k1 first second prm i j d p q,
  line_cell1 free (stream ss) zann k0 n k1 0 = Ok (first, second, prm) /\
  nn_link free ss (zann ss k1) 0 None i j d /\ nth_error ss i = Some p /\ nth_error ss j = Some q /\
  ~ In (p, q) second /\ ~ In (q, p) second.
Proof.
  exists [0; 1; 3]%Z, 2, 3, 1. eexists _, _, _. exists 2, 1, 2%Q, 3%Z, 1%Z. split; [reflexivity|]. split.
  { split; [lia|]. split; [exists 0; eexists; split; reflexivity|]. split; [discriminate|]. exists 3%Z, 1%Z. auto. }
  split; [reflexivity|]. split; [reflexivity|]. split; vm_compute; intuition discriminate.
Qed.
Print Assumptions reduced_figure_shows_nearest_refuted.
