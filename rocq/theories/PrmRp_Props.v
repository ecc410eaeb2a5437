(** Properties C13, C16-C18, C29-C31, C69, C70: radius roadmap (prm.py SimpleRadiusPRM). *)
From Coq Require Import Arith List QArith ZArith Bool Lia.
From Verif Require Import NkGraph_Model NkGraph_Spec NkGraph_Proofs Prm_Model Prm_Spec Sp_Oracle
  PrmQuery_Proofs PrmFc_Proofs PrmNn_Proofs PrmAnn_Inst PrmRp_Proofs PrmEx.
Import ListNotations.
Close Scope Q_scope.

Section Props.
  Context {P : Type}.
  Variable dist : P -> P -> Q.
  Variable check : P -> P -> bool.
  Variable smp : nat -> P.
  Variable ann : list P -> nat -> rows.
  Variable sp : sp_oracle.
  Hypothesis dist_nonneg : forall p q, (0 <= dist p q)%Q.
  Hypothesis dist_sym : forall p q, (dist p q == dist q p)%Q.
  Hypothesis SP : sp_correct sp.
  Hypothesis ANN : ann_shape dist ann.

  (** C29, termination, and C13.  With more fuel than max_k no history of calls runs out of
      fuel; k stays below 2 max(16, max_k); a grow to n samples succeeds unless n is below
      the current size, appends exactly the missing draws, and otherwise changes nothing;
      all edges are valid, with the right length. *)
  Theorem radius_grow_always_finishes : forall fuel r max_k pos ops, max_k < fuel ->
    exists st, rp_run dist check smp ann sp fuel ops (rp_new r max_k pos) = Some st /\
      rp_k st < 2 * Nat.max 16 max_k /\
      (forall ss, rp_samples st = Some ss -> exists g, rp_graph st = Some g /\ wf g /\
         forall u v w, edge g u v w -> exists p q, nth_error ss u = Some p /\ nth_error ss v = Some q /\
           (w == dist p q)%Q /\ (check p q = true \/ check q p = true)) /\
      forall n, exists out st', rp_grow check smp ann fuel st n = Some (out, st') /\
        let old := match rp_samples st with Some ss => ss | None => [] end in
        (n < length old -> out = Err ArithmeticError /\ st' = st) /\
        (length old <= n -> out = Ok tt /\
           rp_samples st' = Some (old ++ map smp (seq (rp_next st) (n - length old))) /\
           rp_next st' = rp_next st + (n - length old)).
  Proof.
    intros fuel r max_k pos ops F.
    destruct (rp_run_inv dist check smp ann dist_nonneg dist_sym ANN sp SP fuel ops _ (rp_new_inv dist check r max_k pos))
      as (st & E & I & M); [exact F|].
    exists st. split; auto. simpl in M. pose proof I as I0. destruct I as (_ & K & H). rewrite M in K.
    split; auto. split.
    { intros ss Es. rewrite Es in H. destruct H as (g & Eg & W & _ & V). eauto. }
    intro n. destruct (rp_grow_ok dist check smp ann dist_sym ANN fuel st n I0) as (out & st' & Eg & _ & _ & _ & R); [lia|].
    exists out, st'. split; auto. cbv zeta. destruct (rp_samples st) as [old|].
    - destruct (Nat.ltb_spec n (length old)); split; intros; try lia; auto.
    - destruct R as (A & B & C). split; [simpl; lia|]. intros _. simpl. rewrite Nat.sub_0_r. auto.
  Qed.

  (** C17, C18. *)
  Theorem radius_query_optimal : forall fuel r max_k pos ops st ss s t,
    rp_run dist check smp ann sp fuel ops (rp_new r max_k pos) = Some st -> max_k < fuel ->
    rp_samples st = Some ss ->
    exists g d path, rp_graph st = Some g /\ fst (rp_query dist check sp st s t) = Ok (d, path) /\
      right_answer dist check ss (rp_conn_r st) (edge g) s t d path /\ (path = [] <-> d = None).
  Proof.
    intros fuel r max_k pos ops st ss s t E F Es.
    destruct (rp_run_inv dist check smp ann dist_nonneg dist_sym ANN sp SP fuel ops _ (rp_new_inv dist check r max_k pos))
      as (st0 & E0 & I & M); [exact F|].
    assert (st0 = st) by congruence. subst st0. destruct I as (_ & _ & H). rewrite Es in H.
    destruct H as (g & Eg & W & A & V).
    pose proof (valid_edges_roadmap dist check dist_nonneg ss g W A V) as RM.
    destruct (query_best_spec dist check dist_nonneg sp ss g (rp_conn_r st) s t SP RM) as (d & path & g' & Eq & R & _).
    exists g, d, path. split; [auto|]. split; [|split; [auto|eapply right_answer_empty; eauto]].
    unfold rp_query. rewrite Es, Eg, Eq. reflexivity.
  Qed.

  (** C16. *)
  Theorem radius_query_preserves : forall fuel r max_k pos ops st ss s t,
    rp_run dist check smp ann sp fuel ops (rp_new r max_k pos) = Some st -> max_k < fuel ->
    rp_samples st = Some ss ->
    let st' := snd (rp_query dist check sp st s t) in
    rp_samples st' = Some ss /\ rp_conn_r st' = rp_conn_r st /\ rp_k st' = rp_k st /\
    rp_ann_k st' = rp_ann_k st /\ rp_next st' = rp_next st /\
    exists g g', rp_graph st = Some g /\ rp_graph st' = Some g' /\ same_graph g' g.
  Proof.
    intros fuel r max_k pos ops st ss s t E F Es.
    destruct (rp_run_inv dist check smp ann dist_nonneg dist_sym ANN sp SP fuel ops _ (rp_new_inv dist check r max_k pos))
      as (st0 & E0 & I & M); [exact F|].
    assert (st0 = st) by congruence. subst st0. destruct I as (_ & _ & H). rewrite Es in H.
    destruct H as (g & Eg & W & A & V).
    pose proof (valid_edges_roadmap dist check dist_nonneg ss g W A V) as RM.
    destruct (query_best_spec dist check dist_nonneg sp ss g (rp_conn_r st) s t SP RM) as (d & path & g' & Eq & R & Sg & _).
    unfold rp_query. rewrite Es, Eg, Eq. simpl. repeat (split; [auto|]). eauto.
  Qed.

  (** C31, without queries.  After any history of grow and reset calls the vertices are the
      sample indices and the next vertex id is the number of samples. *)
  Definition no_query (op : rp_op (P := P)) : Prop := match op with RQuery _ _ => False | _ => True end.

  Lemma rp_ids fuel ops : Forall no_query ops -> forall st st',
    rp_inv dist check st -> rp_max_k st < fuel ->
    (forall ss g, rp_samples st = Some ss -> rp_graph st = Some g ->
       vertices_are_samples ss g /\ g_upper g = length ss) ->
    rp_run dist check smp ann sp fuel ops st = Some st' ->
    forall ss g, rp_samples st' = Some ss -> rp_graph st' = Some g ->
       vertices_are_samples ss g /\ g_upper g = length ss.
  Proof.
    induction 1 as [|op ops Hop FF IH]; intros st st' I F H E.
    { simpl in E. inversion E; subst; auto. }
    simpl in E. destruct op as [n|s t|]; simpl in Hop, E; [|tauto|].
    - destruct (rp_grow_ok dist check smp ann dist_sym ANN fuel st n I F) as (out & st1 & E1 & I1 & M1 & _).
      rewrite E1 in E. simpl in E. apply (IH st1); auto; [lia|].
      intros ss g Es Eg. revert E1. unfold rp_grow. destruct (rp_samples st) as [old|] eqn:Eo.
      + destruct (n <? length old) eqn:En.
        { intro E1. inversion E1; subst. apply H; congruence. }
        cbv zeta. set (ss1 := old ++ draw smp (rp_next st) (n - length old)).
        assert (Ls : length ss1 = n).
        { unfold ss1, draw. rewrite app_length, map_length, seq_length. apply Nat.ltb_ge in En. lia. }
        destruct (all_last (fun d => Qgtb d (rp_conn_r st)) (ann ss1 (rp_ann_k st)) || (rp_max_k st <=? rp_k st))%bool.
        * destruct (rp_graph st) as [g0|] eqn:E0.
          2: { intro E1. injection E1 as _ E1. rewrite <- E1 in Eg. discriminate. }
          destruct (shape_to_graph dist check ss1 _ (ann ss1 (rp_ann_k st)) (length old) (Some (rp_conn_r st)) (ANN ss1 (rp_ann_k st)))
            as (gn & Egn & Hn & Un). rewrite Egn. intro E1. injection E1 as _ E1. rewrite <- E1 in Es, Eg. cbn [rp_samples rp_graph] in Es, Eg.
          injection Es as Es. injection Eg as Eg. rewrite <- Es, <- Eg.
          destruct (H old g0 eq_refl eq_refl) as [V0 U0].
          destruct I as (_ & _ & I). rewrite Eo in I. destruct I as (g0' & Eg0' & W0 & _).
          assert (g0' = g0) by congruence. subst g0'.
          pose proof Hn as Hn'. destruct Hn' as (Wn & Vn & _).
          destruct (merge_spec (fst (add_nodes g0 (n - length old))) gn) as (Wm & Um & Am & _); auto.
          { now apply wf_add_nodes. }
          apply Nat.ltb_ge in En. split.
          -- intro i. rewrite Am. simpl. specialize (Vn i). specialize (V0 i).
             rewrite orb_true_iff, Vn, orb_true_iff, V0, andb_true_iff, Nat.leb_le, Nat.ltb_lt, U0, Ls. lia.
          -- etransitivity; [exact Um|]. simpl. rewrite U0, Un. lia.
        * destruct (shape_to_graph dist check ss1 _ (ann ss1 (rp_k st * 2)) 0 (Some (rp_conn_r st)) (ANN ss1 (rp_k st * 2)))
            as (gn & Egn & Hn & Un). rewrite Egn. intro E1. injection E1 as _ E1. rewrite <- E1 in Es, Eg. cbn [rp_samples rp_graph] in Es, Eg.
          injection Es as Es. injection Eg as Eg. rewrite <- Es, <- Eg. split; auto. apply Hn.
      + destruct (build_index _ _ _ _ _ _ _) as [[nn k']|] eqn:Eb; [|discriminate]. cbv zeta.
        destruct I as (K1 & _ & _).
        destruct (build_index_ends ann (draw smp (rp_next st) n) n (rp_max_k st) (rp_conn_r st) fuel (rp_k st) K1)
          as (nn' & k2 & Eb' & Hnn & _); [lia|].
        assert (nn = ann (draw smp (rp_next st) n) k2) by congruence. subst nn. clear Eb Eb' Hnn.
        destruct (shape_to_graph dist check (draw smp (rp_next st) n) _ _ 0 None (ANN (draw smp (rp_next st) n) k2))
            as (gn & Egn & Hn & Un). rewrite Egn. intro E1. injection E1 as _ E1. rewrite <- E1 in Es, Eg. cbn [rp_samples rp_graph] in Es, Eg.
          injection Es as Es. injection Eg as Eg. rewrite <- Es, <- Eg. split; auto. apply Hn.
    - apply (IH (rp_reset st)); auto.
      + destruct I as (K1 & K2 & _). unfold rp_inv, rp_reset. cbn [rp_k rp_max_k rp_samples rp_graph snd].
        split; [auto|split; auto].
      + intros ss g Es. unfold rp_reset in Es. simpl in Es. discriminate.
  Qed.

  Theorem radius_growth_ids_without_queries : forall fuel r max_k pos ops st ss,
    Forall no_query ops ->
    rp_run dist check smp ann sp fuel ops (rp_new r max_k pos) = Some st -> max_k < fuel ->
    rp_samples st = Some ss ->
    exists g, rp_graph st = Some g /\ vertices_are_samples ss g /\ g_upper g = length ss.
  Proof.
    intros fuel r max_k pos ops st ss FF E F Es.
    destruct (rp_run_inv dist check smp ann dist_nonneg dist_sym ANN sp SP fuel ops _ (rp_new_inv dist check r max_k pos))
      as (st0 & E0 & I & M); [exact F|].
    assert (st0 = st) by congruence. subst st0. destruct I as (_ & _ & I). rewrite Es in I.
    destruct I as (g & Eg & _). exists g. split; auto.
    apply (rp_ids fuel ops FF (rp_new r max_k pos) st); auto using rp_new_inv.
    simpl. discriminate.
  Qed.

  (** C30, the half that holds.  Growing an existing roadmap by the rebuild branch, or one
      whose edges are all within the radius, leaves all edges within the radius. *)
  Theorem radius_growth_edges_within_radius : forall fuel st n st' g,
    rp_inv dist check st -> rp_max_k st < fuel -> rp_samples st <> None ->
    rp_graph st = Some g ->
    ((forall u v w, edge g u v w -> (w <= rp_conn_r st)%Q) \/ rp_k st' <> rp_k st) ->
    rp_grow check smp ann fuel st n = Some (Ok tt, st') ->
    exists g', rp_graph st' = Some g' /\ forall u v w, edge g' u v w -> (w <= rp_conn_r st)%Q.
  Proof.
    intros fuel st n st' g I F Hs Eg Cond. unfold rp_grow.
    assert (Lk : forall ss nn start gn, nn_roadmap check ss nn start (Some (rp_conn_r st)) gn ->
              forall u v w, edge gn u v w -> (w <= rp_conn_r st)%Q).
    { intros ss nn start gn (_ & _ & _ & L) u v w E. apply L in E.
      destruct E as [(_ & _ & T & _)|(_ & _ & T & _)]; auto. }
    destruct (rp_samples st) as [old|] eqn:Eo; [|congruence].
    destruct (n <? length old) eqn:En; [discriminate|].
    cbv zeta. set (ss1 := old ++ draw smp (rp_next st) (n - length old)).
    destruct (all_last (fun d => Qgtb d (rp_conn_r st)) (ann ss1 (rp_ann_k st)) || (rp_max_k st <=? rp_k st))%bool.
    - rewrite Eg.
      destruct (shape_to_graph dist check ss1 _ (ann ss1 (rp_ann_k st)) (length old) (Some (rp_conn_r st)) (ANN ss1 (rp_ann_k st)))
        as (gn & Egn & Hn & Un). rewrite Egn. intro E1. injection E1 as E1. rewrite <- E1. simpl.
      eexists. split; [reflexivity|]. intros u v w E.
      destruct I as (_ & _ & I). rewrite Eo in I. destruct I as (g0' & Eg0' & W0 & _).
      assert (g0' = g) by congruence. subst g0'.
      destruct (merge_spec (fst (add_nodes g (n - length old))) gn) as (_ & _ & _ & Em & _).
      { now apply wf_add_nodes. } { apply Hn. }
      apply Em in E. destruct E as [E|E]; [|eapply Lk; eauto].
      destruct Cond as [C|C]; [now apply (C u v w)|]. rewrite <- E1 in C. simpl in C. congruence.
    - destruct (shape_to_graph dist check ss1 _ (ann ss1 (rp_k st * 2)) 0 (Some (rp_conn_r st)) (ANN ss1 (rp_k st * 2)))
        as (gn & Egn & Hn & Un). rewrite Egn. intro E1. injection E1 as E1. rewrite <- E1. simpl.
      eexists. split; [reflexivity|]. eapply Lk; eauto.
  Qed.

  (** C29, completeness.  First build: with exact neighbour lists, ending before max_k or
      with every sample in every list, every pair closer than the radius with a valid
      motion is linked. *)
  Theorem radius_first_build_complete : ann_exact dist ann ->
    forall fuel st n out st', rp_samples st = None -> 1 <= rp_k st -> rp_max_k st < fuel ->
    rp_grow check smp ann fuel st n = Some (out, st') ->
    (rp_k st' < rp_max_k st \/ n <= rp_k st') ->
    exists ss g, rp_samples st' = Some ss /\ length ss = n /\ rp_graph st' = Some g /\
      forall i j p q, nth_error ss i = Some p -> nth_error ss j = Some q -> i <> j ->
        (dist p q < rp_conn_r st)%Q -> check p q = true -> exists w, edge g i j w.
  Proof.
    intros ANX fuel st n out st' Es K1 F E Cond. unfold rp_grow in E. rewrite Es in E.
    set (ss := draw smp (rp_next st) n) in *.
    destruct (build_index_ends ann ss n (rp_max_k st) (rp_conn_r st) fuel (rp_k st) K1)
      as (nn & k' & Eb & Hnn & L1 & L2 & L3); [lia|].
    rewrite Eb in E. rewrite Hnn in E. cbv zeta in E.
    destruct (shape_to_graph dist check ss _ _ 0 None (ANN ss k')) as (gn & Egn & Hn & Un).
    rewrite Egn in E. injection E as _ E. rewrite <- E in Cond. simpl in Cond.
    assert (Ls : length ss = n) by (unfold ss, draw; now rewrite map_length, seq_length).
    exists ss, gn. rewrite <- E. simpl. split; auto. split; auto. split; auto.
    intros i j p q Hi Hj Hij D C.
    apply (complete_rows dist check smp ss (Nat.min k' (length ss - 1)) (ann ss k') (rp_conn_r st) gn i j p q); auto.
    destruct L3 as [L3|[L3|L3]]; [|left; lia|right; auto].
    destruct Cond as [Cd|Cd]; [lia|left; lia].
  Qed.

  (** Growth keeps completeness (for motions valid both ways) as long as the neighbour
      lists of the index in use afterwards all reach past the radius. *)
  Lemma reach_rows ss k nn r start g i j p q : exact_nn dist ss k nn -> reaches nn r ->
    nn_roadmap check ss nn start (Some r) g -> start <= i ->
    nth_error ss i = Some p -> nth_error ss j = Some q -> i <> j -> (dist p q < r)%Q -> check p q = true ->
    exists w, edge g i j w.
  Proof.
    intros X Hend Hg Hst Ei Ej Hij D C. destruct X as [S X].
    assert (Hi : i < length nn) by (destruct S as [-> _]; eapply nth_error_lt; eauto).
    destruct (nth_error_ex nn i Hi) as [row Er].
    assert (Hin : In j (map fst row)).
    { destruct (in_dec Nat.eq_dec j (map fst row)) as [|Hn]; auto. exfalso.
      destruct (X i row Er) as (_ & _ & _ & Far).
      destruct (Hend row (nth_error_In _ _ Er)) as (l & x & d & Erow & Ld).
      assert (Hx : In (x, d) row) by (rewrite Erow; apply in_or_app; simpl; auto).
      pose proof (Far j p q Ei Ej Hij Hn x d Hx) as FF.
      apply (Qlt_not_le _ _ D). eapply Qle_trans; eauto. }
    apply in_map_iff in Hin. destruct Hin as [[j' w] [E Hin]]. simpl in E; subst j'.
    apply In_nth_error in Hin. destruct Hin as [a Ha].
    assert (La : lists_at nn i j a w) by (exists row; auto).
    destruct S as (_ & _ & _ & Sd). destruct (Sd _ _ _ _ La) as (p' & q' & Ep' & Eq' & Ew).
    assert (p' = p) by congruence. assert (q' = q) by congruence. subst p' q'.
    destruct Hg as (W & V & Ed & _). apply Ed. exists w. left.
    split; [auto|]. split; [eauto|]. split.
    - intros t T. injection T as <-. rewrite Ew. now apply Qlt_le_weak.
    - exists p, q. auto.
  Qed.

  Theorem radius_growth_keeps_complete : ann_exact dist ann ->
    forall fuel st n st' ss g, rp_inv dist check st -> rp_max_k st < fuel ->
    rp_samples st = Some ss -> rp_graph st = Some g ->
    complete_within dist check ss (rp_conn_r st) g ->
    rp_grow check smp ann fuel st n = Some (Ok tt, st') ->
    forall ss' g', rp_samples st' = Some ss' -> rp_graph st' = Some g' ->
    reaches (ann ss' (rp_ann_k st')) (rp_conn_r st) ->
    complete_within dist check ss' (rp_conn_r st) g'.
  Proof.
    intros ANX fuel st n st' ss g I F Es Eg Cm. unfold rp_grow. rewrite Es.
    destruct (n <? length ss) eqn:En; [discriminate|]. apply Nat.ltb_ge in En.
    cbv zeta. set (ss1 := ss ++ draw smp (rp_next st) (n - length ss)).
    destruct (all_last (fun d => Qgtb d (rp_conn_r st)) (ann ss1 (rp_ann_k st)) || (rp_max_k st <=? rp_k st))%bool.
    - rewrite Eg.
      destruct (shape_to_graph dist check ss1 _ (ann ss1 (rp_ann_k st)) (length ss) (Some (rp_conn_r st)) (ANN ss1 (rp_ann_k st)))
        as (gn & Egn & Hn & Un). rewrite Egn. intro E1. injection E1 as E1. rewrite <- E1. simpl.
      intros ss' g' Es' Eg' Re. injection Es' as Es'. injection Eg' as Eg'. subst ss'. rewrite <- Eg'.
      destruct I as (_ & _ & I). rewrite Es in I. destruct I as (g0' & Eg0' & W0 & _).
      assert (g0' = g) by congruence. subst g0'. assert (Wn : wf gn) by apply Hn.
      destruct (merge_spec (fst (add_nodes g (n - length ss))) gn) as (Wm & _ & _ & _ & Ko & Kn); auto.
      { now apply wf_add_nodes. }
      intros i j p q Hi Hj Hij D C1 C2.
      destruct (Nat.lt_ge_cases i (length ss)) as [Li|Li].
      + destruct (Nat.lt_ge_cases j (length ss)) as [Lj|Lj].
        * unfold ss1 in Hi, Hj. rewrite nth_error_app1 in Hi, Hj by auto.
          destruct (Cm i j p q Hi Hj Hij D C1 C2) as [w E]. exists w. apply Ko. exact E.
        * destruct (reach_rows ss1 _ _ _ _ gn j i q p (ANX ss1 (rp_ann_k st)) Re Hn Lj Hj Hi) as [w E]; auto.
          { rewrite dist_sym. auto. }
          apply (wf_sym gn Wn) in E. now apply Kn in E.
      + destruct (reach_rows ss1 _ _ _ _ gn i j p q (ANX ss1 (rp_ann_k st)) Re Hn Li Hi Hj) as [w E]; auto.
        now apply Kn in E.
    - destruct (shape_to_graph dist check ss1 _ (ann ss1 (rp_k st * 2)) 0 (Some (rp_conn_r st)) (ANN ss1 (rp_k st * 2)))
        as (gn & Egn & Hn & Un). rewrite Egn. intro E1. injection E1 as E1. rewrite <- E1. simpl.
      intros ss' g' Es' Eg' Re. injection Es' as Es'. injection Eg' as Eg'. subst ss'. rewrite <- Eg'.
      intros i j p q Hi Hj Hij D C1 C2.
      apply (reach_rows ss1 _ _ _ _ gn i j p q (ANX ss1 (rp_k st * 2)) Re Hn (Nat.le_0_l i)); auto.
  Qed.
End Props.
Print Assumptions radius_grow_always_finishes.
Print Assumptions radius_query_optimal.
Print Assumptions radius_query_preserves.
Print Assumptions radius_growth_ids_without_queries.
Print Assumptions radius_growth_edges_within_radius.
Print Assumptions radius_first_build_complete.
Print Assumptions radius_growth_keeps_complete.

(** ** Examples and refutations *)

Definition rrun ss r max_k ops := rp_run zdist free (stream ss) zann sp_enum 600 ops (rp_new r max_k 0).
Definition spaced (n step : nat) : list Z := map (fun i => Z.of_nat (i * step)) (seq 0 n).
Definition rgraph (o : option (rp_state (P := Z))) := match o with Some st => rp_graph st | None => None end.
Definition rsamples (o : option (rp_state (P := Z))) := match o with Some st => rp_samples st | None => None end.
Definition rk (o : option (rp_state (P := Z))) := match o with Some st => rp_k st | None => 0 end.

Lemma some_such (A : Type) (o : option A) (f : A -> bool) :
  match o with Some g => f g | None => false end = true -> exists g, o = Some g /\ f g = true.
Proof. destruct o; [eauto|discriminate]. Qed.

(** 20 samples one apart, radius 15: k doubles to 32 and every pair is linked *)
Example radius_first_build_case :
  let st := rrun (spaced 20 1) (inject_Z 15) 512 [RGrow 20] in
  rk st = 32 /\ length (edges_of (rgraph st)) = 190.
Proof. vm_compute. auto. Qed.

(** growing by the merge branch: lists of 16 reach past the radius 2 *)
Example radius_growth_case :
  let st := rrun (spaced 24 1) 2%Q 512 [RGrow 20; RGrow 24] in
  rk st = 16 /\
  (exists g, rgraph st = Some g /\ g_upper g = 24 /\ has_edge g 19 20 = true /\ has_edge g 22 23 = true).
Proof.
  cbv zeta. split; [vm_compute; reflexivity|].
  destruct (some_such _ (rgraph (rrun (spaced 24 1) 2%Q 512 [RGrow 20; RGrow 24]))
    (fun g => (g_upper g =? 24) && has_edge g 19 20 && has_edge g 22 23)%bool) as [g [E H]];
    [vm_compute; reflexivity|].
  apply andb_prop in H. destruct H as [H H3]. apply andb_prop in H. destruct H as [H1 H2].
  exists g. split; [exact E|]. split; [now apply Nat.eqb_eq|auto].
Qed.

Example radius_growth_reaches :
  reaches (zann (spaced 24 1) 16) 2%Q.
Proof.
  assert (H : forallb (fun row => match rev row with (x, d) :: _ => Qle_bool 2 d | [] => false end)
                      (zann (spaced 24 1) 16) = true) by (vm_compute; reflexivity).
  rewrite forallb_forall in H. intros row Hin. apply H in Hin.
  destruct (rev row) as [|[x d] l] eqn:E; [discriminate|].
  exists (rev l), x, d. split; [|now apply Qle_bool_iff].
  rewrite <- (rev_involutive row), E. reflexivity.
Qed.

(** C30 is false: the first build applies no threshold. *)
Theorem radius_edges_within_radius_refuted :
  exists (ss : list Z) r g u v w,
    rgraph (rrun ss r 512 [RGrow 2]) = Some g /\ edge g u v w /\ (r < w)%Q.
Proof.
  exists [0; 10]%Z, 5%Q. eexists. exists 0, 1, 10%Q.
  split; [reflexivity|]. split; [vm_compute; auto|reflexivity].
Qed.
Print Assumptions radius_edges_within_radius_refuted.

(** C31 is false after a query: 4 vertices for 3 samples, one of them number 4. *)
Theorem radius_growth_ids_after_query_refuted :
  exists (ss : list Z) r s t g,
    let st := rrun ss r 512 [RGrow 2; RQuery s t; RGrow 3] in
    option_map (@length Z) (rsamples st) = Some 3 /\ rgraph st = Some g /\
    number_of_nodes g = 4 /\ g_alive g 4 = true.
Proof.
  exists [0; 10; 20]%Z, 5%Q, 1%Z, 9%Z. eexists. cbv zeta.
  split; [vm_compute; reflexivity|]. split; [reflexivity|]. vm_compute. auto.
Qed.
Print Assumptions radius_growth_ids_after_query_refuted.

(** C69: completeness is lost by growing: k is doubled once, whatever the number of new
    samples, and samples 0 and 49 at distance 49 < 100 are not linked, although k is far
    from max_k. *)
Theorem radius_growth_complete_refuted :
  exists (ss : list Z) r g i j p q,
    let st := rrun ss r 512 [RGrow 1; RGrow 50] in
    rk st = 32 /\ rsamples st = Some ss /\ rgraph st = Some g /\
    nth_error ss i = Some p /\ nth_error ss j = Some q /\ i <> j /\ (zdist p q < r)%Q /\
    has_edge g i j = false /\ has_edge g j i = false.
Proof.
  destruct (some_such _ (rgraph (rrun (spaced 50 1) (inject_Z 100) 512 [RGrow 1; RGrow 50]))
    (fun g => negb (has_edge g 0 49) && negb (has_edge g 49 0))%bool) as [g [E H]];
    [vm_compute; reflexivity|].
  apply andb_prop in H. destruct H as [H1 H2]. apply negb_true_iff in H1, H2.
  exists (spaced 50 1), (inject_Z 100), g, 0, 49, 0%Z, 49%Z. cbv zeta.
  split; [vm_compute; reflexivity|]. split; [vm_compute; reflexivity|]. split; [exact E|].
  split; [reflexivity|]. split; [reflexivity|]. split; [discriminate|]. split; [reflexivity|]. auto.
Qed.
Print Assumptions radius_growth_complete_refuted.

(** C70: reset keeps the doubled k, so regrowing is not the same as a new roadmap. *)
Theorem radius_reset_fresh_refuted :
  exists (ss ss' : list Z) r,
    let st := rrun (ss ++ ss') r 512 [RGrow (length ss); RReset; RGrow (length ss')] in
    let fresh := rrun ss' r 512 [RGrow (length ss')] in
    rsamples st = rsamples fresh /\
    length (edges_of (rgraph st)) <> length (edges_of (rgraph fresh)).
Proof.
  exists (spaced 20 1), (spaced 18 1000), (inject_Z 100). cbv zeta.
  split; [vm_compute; reflexivity|vm_compute; discriminate].
Qed.
Print Assumptions radius_reset_fresh_refuted.
