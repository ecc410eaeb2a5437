(** C124-C126: the placement of the objects on the stove (load_world) and the planning problem that is
    built from the world (pddlstream_from_problem). *)
From Coq Require Import Reals Lra Lia List Bool Arith FunctionalExtensionality.
From Verif Require Import Strips Space Pose Kuka_Model Kuka_Props Prim_Model PrimGrasp_Props Prim_Props PrimInsert_Props.
Import ListNotations.
Local Open Scope R_scope.

(** *** C124: placing the objects *)
Notation round := (list draw * (nat -> jconf))%type.
(** sample_placement returns the pose in which it leaves the body *)
Definition valid_draw (d : draw) : Prop := forall p, d_result d = Some p -> d_left d = p.
Section Place.
Variable link_pose : nat -> jconf -> nat -> pose.
Variable touch : nat -> nat -> pose -> jconf -> pose -> jconf -> bool.
Variable ik : nat -> jconf -> nat -> pose -> option jconf * jconf.
Hypothesis IK : ik_exact link_pose ik.
Variable robot : nat.
Variable grasp_of : nat -> body_grasp.

(** nothing but the robot's configuration and the pose of the body has changed *)
Definition only_moved (bodies : list nat) (s s' : sim) : Prop :=
  (forall b, ~ In b bodies -> pose_at s' b = pose_at s b) /\ forall b, b <> robot -> joints_at s' b = joints_at s b.
Lemma only_refl l s : only_moved l s s. Proof. split; auto. Qed.
Lemma only_trans l1 l2 s1 s2 s3 : only_moved l1 s1 s2 -> only_moved l2 s2 s3 -> only_moved (l1 ++ l2) s1 s3.
Proof.
  intros [A1 A2] [B1 B2]. split; intros b H.
  - rewrite B1, A1; auto; intro; apply H; apply in_or_app; auto.
  - rewrite B2, A2; auto.
Qed.
Lemma only_weaken l1 l2 s s' : incl l1 l2 -> only_moved l1 s s' -> only_moved l2 s s'.
Proof. intros I [A B]. split; auto. Qed.
Lemma only_set s b p : only_moved [b] s (set_pose s b p).
Proof. split; intros; auto. simpl. apply put_other. intros ->. apply H. now left. Qed.
Lemma only_ik s s' : only_robot_moved robot s s' -> only_moved [] s s'.
Proof. intros [A B]. split; auto. Qed.
(** the same, one body *)
Lemma only_one b s1 s2 s3 : only_moved [b] s1 s2 -> only_moved [b] s2 s3 -> only_moved [b] s1 s3.
Proof. intros A B. eapply only_weaken; [|exact (only_trans _ _ _ _ _ A B)]. intros x [<-|[<-|[]]]; now left. Qed.

Lemma stable_sound fixed obstacles body draws : Forall valid_draw draws -> forall s p s1 rest,
  stable_next touch fixed obstacles body s draws = Some (p, s1, rest) ->
  only_moved [body] s s1 /\ p_body p = body /\ pose_at s1 body = p_pose p /\ (exists d, In d draws /\ d_result d = Some (p_pose p)) /\
  forall b, In b (fixed ++ obstacles) -> collides touch s1 body b = false.
Proof.
  induction draws as [|d draws IH]; intros V s p s1 rest H; [discriminate|]. inversion V as [|x y V1 V2]; subst. cbn [stable_next] in H.
  assert (G : stable_next touch fixed obstacles body (set_pose s body (d_left d)) draws = Some (p, s1, rest) ->
    only_moved [body] s s1 /\ p_body p = body /\ pose_at s1 body = p_pose p /\ (exists d0, In d0 (d :: draws) /\ d_result d0 = Some (p_pose p)) /\
    forall b, In b (fixed ++ obstacles) -> collides touch s1 body b = false).
  { intro H0. destruct (IH V2 _ _ _ _ H0) as (A & B & C & (d0 & D1 & D2) & E). split; [eapply only_one; [apply only_set|exact A]|]. split; auto. split; auto. split; auto. exists d0. split; auto. now right. }
  destruct (d_result d) as [q|] eqn:R; [|auto].
  destruct (existsb (collides touch (set_pose s body (d_left d)) body) (fixed ++ obstacles)) eqn:X; [auto|].
  injection H as <- <- <-. split; [apply only_set|]. split; auto. split; [simpl; rewrite put_same; now apply V1|]. split; [exists d; split; [now left|auto]|].
  intros b Hb. destruct (collides touch (set_pose s body (d_left d)) body b) eqn:C; auto.
  assert (existsb (collides touch (set_pose s body (d_left d)) body) (fixed ++ obstacles) = true) by (apply existsb_exists; eauto). congruence.
Qed.

(** the radish stands clear of the bodies, at a pose that was drawn, and the robot can grasp it there without touching the fixed bodies *)
Record well_placed (fixed before : list nat) (rounds : list round) (s : sim) (r : nat) : Prop := {
  wp_drawn : exists draws sample d, In (draws, sample) rounds /\ In d draws /\ d_result d = Some (pose_at s r);
  wp_clear : forall b, In b (fixed ++ before) -> collides touch s r b = false;
  wp_reach : exists q, link_pose robot q (g_link (grasp_of r)) = approach_target (pose_at s r) (grasp_of r) /\ robot_free touch robot s q fixed
}.
Definition valid_rounds (rounds : list round) : Prop := Forall (fun x => Forall valid_draw (fst x)) rounds.
Lemma well_placed_later fixed before rounds rounds' l s s' r : incl rounds' rounds -> only_moved l s s' -> ~ In r l -> ~ In robot l -> r <> robot -> ~ In robot fixed -> ~ In robot before ->
  (forall b, In b (fixed ++ before) -> ~ In b l) -> well_placed fixed before rounds' s r -> well_placed fixed before rounds s' r.
Proof.
  intros Ir [M1 M2] R Rl Rr Nf Nb D W. destruct W as [(draws & sample & d & W1 & W2 & W3) WC (q & WQ1 & WQ2)]. constructor.
  - exists draws, sample, d. split; auto. split; auto. now rewrite M1.
  - intros b Hb. unfold collides. rewrite !M1, !M2 by (auto; intros ->; apply in_app_or in Hb; tauto). now apply WC.
  - exists q. rewrite M1 by auto. split; auto. intros b Hb. rewrite !M1, M2 by (solve [auto | apply D; apply in_or_app; auto | intros ->; auto]). now apply WQ2.
Qed.
Lemma place_one_sound fixed placed r rounds : valid_rounds rounds -> ~ In robot fixed -> ~ In robot placed -> r <> robot -> forall s s' rest, ~ In r fixed -> ~ In r placed ->
  place_one touch ik robot grasp_of fixed placed r s rounds = Some (s', rest) ->
  only_moved [r] s s' /\ incl rest rounds /\ well_placed fixed placed rounds s' r.
Proof.
  intros V Nf Np Nr. induction rounds as [|[draws sample] rounds IH]; intros s s' rest Rf Rp H; [discriminate|].
  inversion V as [|x y V1 V2]; subst. cbn [place_one] in H. cbn [fst] in V1.
  destruct (stable_next touch fixed placed r s draws) as [[[p s1] rest0]|] eqn:S; [|discriminate].
  destruct (stable_sound _ _ _ _ V1 _ _ _ _ S) as (A & B & C & D & E).
  assert (S2 : set_pose s1 r (p_pose p) = set_pose s1 r (pose_at s1 r)) by now rewrite C.
  set (s2 := set_pose s1 r (p_pose p)) in *.
  assert (P2 : forall b, pose_at s2 b = pose_at s1 b). { intro b. rewrite S2. simpl. unfold put. destruct (b =? r)%nat eqn:Eb; auto. apply Nat.eqb_eq in Eb. now subst. }
  assert (J2 : forall b, joints_at s2 b = joints_at s1 b) by reflexivity.
  assert (A2 : only_moved [r] s s2) by (eapply only_one; [exact A|apply only_set]).
  destruct (get_ik_fn touch ik s2 robot (p_pose p) (grasp_of r) fixed true sample) as [c s3] eqn:K.
  destruct (ik_sound link_pose touch ik IK _ _ _ _ _ _ _ _ _ Nf K) as [M Q].
  assert (A3 : only_moved [r] s s3).
  { apply only_one with s2; auto. eapply only_weaken; [|apply only_ik; exact M]. intros x []. }
  destruct c as [c|].
  - injection H as <- <-. split; auto. split; [intros x Hx; now right|]. destruct (Q c eq_refl) as (Q1 & Q2 & Q3 & Q4). destruct M as [M1 M2].
    assert (P3 : pose_at s3 r = p_pose p) by (rewrite M1, P2; auto).
    constructor.
    + destruct D as (d & D1 & D2). exists draws, sample, d. split; [now left|]. split; auto. now rewrite P3.
    + intros b Hb. unfold collides. rewrite !M1, !P2, !M2 by (auto; intros ->; apply in_app_or in Hb; tauto). rewrite !J2. now apply E.
    + exists (configuration c). rewrite P3. split; auto. intros b Hb. rewrite !M1, M2 by (intros ->; auto). now apply Q4.
  - destruct (IH V2 _ _ _ Rf Rp H) as (I1 & I2 & I3). split; [now apply only_one with s3|]. split; [intros x Hx; right; auto|].
    destruct I3 as [(dr & sa & d & W1 & W2 & W3) WC WR]. constructor; auto. exists dr, sa, d. split; [now right|]. split; auto.
Qed.
(** When the loop ends: every object stands at a drawn pose, clear of the fixed bodies and of the objects placed
    before it, within the robot's reach; nothing else has moved. *)
Theorem placement_sound : forall fixed radishes rounds s s', valid_rounds rounds -> ~ In robot fixed -> ~ In robot radishes ->
  NoDup radishes -> (forall r, In r radishes -> ~ In r fixed) ->
  place_all touch ik robot grasp_of fixed [] radishes s rounds = Some s' ->
  only_moved radishes s s' /\
  forall before r after, radishes = before ++ r :: after -> well_placed fixed before rounds s' r.
Proof.
  intros fixed radishes rounds s s' V Nf Nr ND D H.
  assert (G : forall radishes placed rounds s s', valid_rounds rounds -> ~ In robot (placed ++ radishes) -> NoDup (placed ++ radishes) -> (forall r, In r (placed ++ radishes) -> ~ In r fixed) ->
    place_all touch ik robot grasp_of fixed placed radishes s rounds = Some s' ->
    only_moved radishes s s' /\ forall before r after, radishes = before ++ r :: after -> well_placed fixed (placed ++ before) rounds s' r).
  { clear V Nr ND D H radishes rounds s s'. induction radishes as [|r0 radishes IH]; intros placed rounds s s' V Nr ND D H.
    - injection H as <-. split; [apply only_refl|]. intros [|x before] r after X; discriminate.
    - cbn [place_all] in H. destruct (place_one touch ik robot grasp_of fixed placed r0 s rounds) as [[s1 rest]|] eqn:P; [|discriminate].
      assert (N0 : ~ In r0 placed /\ ~ In r0 radishes). { apply NoDup_remove_2 in ND. split; intro; apply ND; apply in_or_app; auto. }
      assert (R0 : r0 <> robot) by (intros ->; apply Nr; apply in_or_app; right; now left).
      assert (Rp : ~ In robot placed) by (intro; apply Nr; apply in_or_app; auto).
      assert (F0 : ~ In r0 fixed) by (apply D; apply in_or_app; right; now left).
      destruct (place_one_sound fixed placed r0 rounds V Nf Rp R0 _ _ _ F0 (proj1 N0) P) as (A & B & C).
      assert (V' : valid_rounds rest). { unfold valid_rounds in *. rewrite Forall_forall in *. auto. }
      specialize (IH (placed ++ [r0]) rest s1 s' V'). rewrite <- !app_assoc in IH. simpl in IH. destruct (IH Nr ND D H) as [I1 I2].
      split; [exact (only_trans _ _ _ _ _ A I1)|].
      intros [|x before] r after X; simpl in X; injection X as <- X.
      + rewrite app_nil_r. apply (well_placed_later fixed placed rounds rounds radishes s1 s' r0); auto.
        * apply incl_refl.
        * tauto.
        * intro; apply Nr; apply in_or_app; right; right; auto.
        * intros b Hb Hb2. apply in_app_or in Hb. destruct Hb as [Hb|Hb].
          -- apply (D b); auto. apply in_or_app. right. now right.
          -- revert Hb Hb2. clear - ND. intros Hb Hb2. induction placed as [|y placed IHp]; [destruct Hb|]. simpl in ND. inversion ND; subst. destruct Hb as [->|Hb]; [apply H1; apply in_or_app; right; now right|auto].
      + replace (placed ++ r0 :: before) with ((placed ++ [r0]) ++ before) by now rewrite <- app_assoc.
        specialize (I2 before r after X). rewrite app_assoc_reverse. rewrite <- app_assoc in I2.
        destruct I2 as [(dr & sa & d & W1 & W2 & W3) WC WR]. constructor; auto. exists dr, sa, d. auto. }
  exact (G radishes [] rounds s s' V Nr ND D H).
Qed.
End Place.

(** *** C125: the planning problem *)
Section Problem.
Variable link_pose : nat -> jconf -> nat -> pose.
Variable touch : nat -> nat -> pose -> jconf -> pose -> jconf -> bool.
Variable ik : nat -> jconf -> nat -> pose -> option jconf * jconf.
Hypothesis IK : ik_exact link_pose ik.
Variable robot : nat.
Variable grasp_of : nat -> body_grasp.
Variable is_sink is_stove : nat -> bool.
Variable is_placement : sim -> nat -> nat -> bool.
Variable samples0 samples_pre samples_post : nat -> nat -> jconf.
Variable place_at : nat -> nat -> R -> draw.
Variable fixed : list nat.
Hypothesis NF : ~ In robot fixed.
Notation problem := (pddlstream_from_problem touch ik robot grasp_of is_sink is_stove is_placement samples0 samples_pre samples_post place_at fixed).
Notation describe_ := (describe touch ik robot grasp_of is_sink is_placement samples0 fixed).
Notation insertions_ := (insertions touch ik robot grasp_of samples_pre samples_post place_at fixed).

(** the numbers of the objects of a problem: grasp, pose and configuration of each body, then poses and configurations at its bin *)
Fixpoint entries (n : nat) (movable : list nat) : list (nat * nat) :=
  match movable with [] => [] | b :: l => (b, n) :: entries (n + 3) l end.
Fixpoint desc_facts (n : nat) (movable : list nat) : list fact :=
  match movable with
  | [] => []
  | b :: l => [FGrasp b n; FGraspable b; FPose b (n + 1); FAtPose b (n + 1); FConf (n + 2); FKin b (n + 1) n (n + 2)] ++ map (FStackable b) (filter is_sink fixed) ++ desc_facts (n + 3) l
  end%nat.
Fixpoint ins_facts (m : nat) (pairs : list (nat * nat)) (g_of : nat -> nat) : list fact :=
  match pairs with
  | [] => []
  | (b, k) :: l => [FPose b m; FPose b (m + 1); FSupported b m k; FConf (m + 2); FConf (m + 3); FKin b (m + 1) (g_of b) (m + 2); FKin b m (g_of b) (m + 3); FPreInsert (m + 2); FPostInsert (m + 3)] ++ ins_facts (m + 4) l g_of
  end%nat.
Definition grasp_id (grasps : list (nat * nat)) (b : nat) : nat := match find (fun x => fst x =? b)%nat grasps with Some (_, g) => g | None => 0 end.

(** no object is on a bin *)
Definition off_sinks (s : sim) (movable : list nat) : Prop :=
  forall s' b r, only_robot_moved robot s s' -> In b movable -> In r fixed -> is_sink r = true -> is_placement s' b r = false.
Lemma surfaces_filter (b p : nat) s l : (forall r, In r l -> is_sink r = true -> is_placement s b r = false) ->
  flat_map (fun r => if is_sink r then FStackable b r :: (if is_placement s b r then [FSupported b p r] else []) else []) l = map (FStackable b) (filter is_sink l).
Proof.
  induction l as [|r l IH]; intro H; auto. simpl. rewrite IH by (intros; apply H; auto; now right). destruct (is_sink r) eqn:E; auto. rewrite (H r (or_introl eq_refl) E). reflexivity.
Qed.
Lemma describe_facts movable : forall s h grasps facts s' h' grasps', off_sinks s movable ->
  describe_ movable s h grasps = Problem (facts, s', h', grasps') ->
  facts = desc_facts (st_next h) movable /\ grasps' = grasps ++ entries (st_next h) movable /\ st_next h' = (st_next h + 3 * length movable)%nat /\ only_robot_moved robot s s'.
Proof.
  induction movable as [|b movable IH]; intros s h grasps facts s' h' grasps' O H.
  - injection H as <- <- <- <-. simpl. rewrite app_nil_r. split; auto. split; auto. split; [lia|apply moved_refl].
  - cbn [describe] in H. unfold new_grasp, new_pose, new_conf in H.
    destruct (get_ik_fn touch ik s robot (pose_at s b) (grasp_of b) fixed true (samples0 b)) as [c s1] eqn:K. destruct (ik_sound link_pose touch ik IK _ _ _ _ _ _ _ _ _ NF K) as [M _].
    destruct c as [c|]; [|discriminate]. cbn [st_next st_poses st_confs st_grasps] in H.
    match type of H with context [describe _ _ _ _ _ _ _ _ _ _ ?h ?g] => set (h0 := h) in *; set (g0 := g) in * end.
    destruct (describe_ movable s1 h0 g0) as [[[[f2 s2] h2] gr2]| |] eqn:D; try discriminate.
    injection H as <- <- <- <-.
    assert (O1 : off_sinks s1 movable) by (intros t x r Mt Hx Hr E; apply O; auto; [eapply moved_trans; eauto|now right]).
    destruct (IH _ _ _ _ _ _ _ O1 D) as (I1 & I2 & I3 & I4). subst f2 gr2. cbn [st_next h0 length] in *.
    rewrite surfaces_filter by (intros r Hr E; apply O; auto; now left).
    replace (S (S (S (st_next h)))) with (st_next h + 3)%nat in * by lia.
    split; [|split; [|split]].
    + cbn [desc_facts]. replace (st_next h + 1)%nat with (S (st_next h)) by lia. replace (st_next h + 2)%nat with (S (S (st_next h))) by lia. reflexivity.
    + unfold g0. cbn [entries]. now rewrite <- app_assoc.
    + rewrite I3. lia.
    + eapply moved_trans; eauto.
Qed.
Lemma insertions_facts pairs : forall s h grasps facts s' h', insertions_ pairs s h grasps = Problem (facts, s', h') ->
  facts = ins_facts (st_next h) pairs (grasp_id grasps).
Proof.
  induction pairs as [|[b k] pairs IH]; intros s h grasps facts s' h' H; [now injection H as <- <- <-|].
  cbn [insertions] in H. destruct (find (fun x => (fst x =? b)%nat) grasps) as [[b' g]|] eqn:Fg; [|discriminate].
  destruct (stable_next touch fixed [] b s (map (place_at b k) fixed_thetas)) as [[[post s1] ?]|] eqn:St; [|discriminate].
  unfold new_pose, new_conf in H. cbn [st_next st_poses st_confs st_grasps] in H.
  destruct (get_ik_fn touch ik s1 robot (multiply preinsert_offset (p_pose post)) (grasp_of b) fixed true (samples_pre b)) as [c1 s2].
  destruct (get_ik_fn touch ik s2 robot (p_pose post) (grasp_of b) fixed true (samples_post b)) as [c2 s3].
  destruct c1 as [c1|]; [|discriminate]. destruct c2 as [c2|]; [|discriminate]. cbn [st_next st_poses st_confs st_grasps] in H.
  match type of H with context [insertions _ _ _ _ _ _ _ _ _ _ ?h _] => set (h0 := h) in * end.
  destruct (insertions_ pairs s3 h0 grasps) as [[[f2 t2] h2]| |] eqn:D; try discriminate. injection H as <- <- <-.
  specialize (IH _ _ _ _ _ _ D). subst f2. cbn [ins_facts st_next h0]. assert (G : grasp_id grasps b = g) by (unfold grasp_id; now rewrite Fg). rewrite G.
  replace (st_next h + 1)%nat with (S (st_next h)) by lia. replace (st_next h + 2)%nat with (S (S (st_next h))) by lia. replace (st_next h + 3)%nat with (S (S (S (st_next h)))) by lia. replace (st_next h + 4)%nat with (S (S (S (S (st_next h))))) by lia. reflexivity.
Qed.
Definition surface_facts : list fact := flat_map (fun b => (if is_sink b then [FSink b] else []) ++ (if is_stove b then [FStove b] else [])) fixed.
(** the facts of a problem *)
Lemma problem_facts movable s l h : off_sinks s movable -> problem movable s = Problem (l, h) ->
  l = [FCanMove; FConf 0; FAtConf 0; FHandEmpty] ++ desc_facts 1 movable ++
      ins_facts (1 + 3 * length movable) (combine movable (filter is_sink fixed)) (grasp_id (entries 1 movable)) ++ surface_facts.
Proof.
  intros O H. unfold pddlstream_from_problem in H. cbn [new_conf st_next st_poses st_confs st_grasps] in H.
  set (s0 := set_joint_positions s robot default_arm_pos) in *. set (h0 := Store [] _ [] 1) in H.
  assert (O0 : off_sinks s0 movable) by (intros t x r Mt; apply O; eapply moved_trans; [apply moved_set|exact Mt]).
  destruct (describe_ movable s0 h0 []) as [[[[f1 s1] h1] gr]| |] eqn:D; try discriminate.
  destruct (describe_facts _ _ _ _ _ _ _ _ O0 D) as (-> & -> & N & _).
  destruct (insertions_ (combine movable (filter is_sink fixed)) s1 h1 ([] ++ entries (st_next h0) movable)) as [[[f2 s2] h2]| |] eqn:E; try discriminate.
  apply insertions_facts in E. injection H as <- _. subst f2. rewrite N. reflexivity.
Qed.

(** the item of each object and its bin *)
Fixpoint mk_items (n m : nat) (movable sinks : list nat) : list item :=
  match movable, sinks with
  | b :: bs, k :: ks => Item b n k (n + 1) (m + 1) m (n + 2) (m + 2) (m + 3) :: mk_items (n + 3) (m + 4) bs ks
  | _, _ => []
  end%nat.
Definition own_facts (it : item) : list fact :=
  [FGrasp (obj it) (grasp it); FGraspable (obj it); FPose (obj it) (ipose it); FAtPose (obj it) (ipose it); FConf (iconf it); FKin (obj it) (ipose it) (grasp it) (iconf it)] ++
  map (FStackable (obj it)) (filter is_sink fixed).
Definition bin_facts (it : item) : list fact :=
  [FPose (obj it) (postpose it); FPose (obj it) (prepose it); FSupported (obj it) (postpose it) (sink it); FConf (preconf it); FConf (postconf it);
   FKin (obj it) (prepose it) (grasp it) (preconf it); FKin (obj it) (postpose it) (grasp it) (postconf it); FPreInsert (preconf it); FPostInsert (postconf it)].
Lemma items_obj movable : forall n m sinks, (length movable <= length sinks)%nat -> map obj (mk_items n m movable sinks) = movable.
Proof. induction movable as [|b l IH]; intros n m [|k ks] H; simpl in *; try reflexivity; try (exfalso; lia). f_equal. apply IH. lia. Qed.
Lemma items_sink movable : forall n m sinks, (length movable <= length sinks)%nat -> map sink (mk_items n m movable sinks) = firstn (length movable) sinks.
Proof. induction movable as [|b l IH]; intros n m [|k ks] H; simpl in *; try reflexivity; try (exfalso; lia). f_equal. apply IH. lia. Qed.
Lemma items_desc movable : forall n m sinks, (length movable <= length sinks)%nat -> desc_facts n movable = flat_map own_facts (mk_items n m movable sinks).
Proof.
  induction movable as [|b l IH]; intros n m [|k ks] H; simpl in H; try reflexivity; try (exfalso; lia). cbn [mk_items flat_map desc_facts]. rewrite (IH (n + 3)%nat (m + 4)%nat ks) by lia. unfold own_facts at 2. cbn [obj grasp ipose iconf]. now rewrite <- app_assoc.
Qed.
Lemma items_ins movable : forall n m sinks g_of, (forall it, In it (mk_items n m movable sinks) -> g_of (obj it) = grasp it) ->
  ins_facts m (combine movable sinks) g_of = flat_map bin_facts (mk_items n m movable sinks).
Proof.
  induction movable as [|b l IH]; intros n m [|k ks] g_of H; auto. cbn [combine mk_items flat_map ins_facts].
  rewrite (IH (n + 3)%nat (m + 4)%nat ks) by (intros it Hi; apply H; now right). unfold bin_facts at 2. cbn [obj grasp prepose postpose preconf postconf sink].
  pose proof (H _ (or_introl eq_refl)) as G. cbn [obj grasp] in G. now rewrite G.
Qed.
Lemma items_grasp movable : forall n m sinks, NoDup movable -> forall it, In it (mk_items n m movable sinks) -> grasp_id (entries n movable) (obj it) = grasp it.
Proof.
  induction movable as [|b l IH]; intros n m [|k ks] N it H; try contradiction. inversion N as [|x y N1 N2]; subst. cbn [mk_items] in H. unfold grasp_id. cbn [entries find fst].
  destruct H as [<-|H]; [cbn [obj grasp]; now rewrite Nat.eqb_refl|].
  destruct (b =? obj it)%nat eqn:E; [|exact (IH _ _ _ N2 _ H)]. exfalso. apply Nat.eqb_eq in E. apply N1. rewrite E. clear - H. revert H. generalize (n + 3)%nat (m + 4)%nat ks.
  induction l as [|a l IH]; intros n' m' [|k' ks'] H; try contradiction. cbn [mk_items] in H. destruct H as [<-|H]; [now left|right; eauto].
Qed.
(** the numbers of the i-th item *)
Lemma items_nth movable : forall n m sinks it, In it (mk_items n m movable sinks) -> exists i, (i < length movable)%nat /\ nth_error (mk_items n m movable sinks) i = Some it /\
  it = Item (obj it) (n + 3 * i) (sink it) (n + 3 * i + 1) (m + 4 * i + 1) (m + 4 * i) (n + 3 * i + 2) (m + 4 * i + 2) (m + 4 * i + 3).
Proof.
  induction movable as [|b l IH]; intros n m [|k ks] it H; try contradiction. cbn [mk_items] in H. destruct H as [<-|H].
  - exists 0%nat. split; [simpl; lia|]. split; [reflexivity|]. cbn [obj sink]. f_equal; lia.
  - destruct (IH _ _ _ _ H) as (i & L & Hi & E). exists (S i). split; [simpl; lia|]. split; [exact Hi|]. rewrite E at 1. f_equal; lia.
Qed.
Lemma items_bin movable : forall n m sinks it, In it (mk_items n m movable sinks) -> In (sink it) sinks.
Proof. induction movable as [|b l IH]; intros n m [|k ks] it H; try contradiction. cbn [mk_items] in H. destruct H as [<-|H]; [now left|right; eauto]. Qed.

(** what the facts and the streams give to the planner: the motions exist only for inputs of the domain of stream.pddl *)
Record facts_of (l : list fact) (F : facts) : Prop := {
  fo_poses : forall p, In p (poses F) <-> exists o, In (FPose o p) l;
  fo_stackable : forall o r, Stackable F o r = true <-> In (FStackable o r) l;
  fo_sink : forall r, Sink F r = true <-> In (FSink r) l;
  fo_stove : forall r, Stove F r = true <-> In (FStove r) l;
  fo_kin : forall o p g q, Kin F o p g q = true <-> In (FKin o p g q) l;
  fo_supported : forall o p r, Supported F o p r = true <-> In (FSupported o p r) l;
  fo_free : forall q1 t q2, FreeMotion F q1 t q2 = true -> In (FConf q1) l /\ In (FConf q2) l;
  fo_holding : forall q1 t q2 o g, HoldingMotion F q1 t q2 o g = true -> In (FConf q1) l /\ In (FConf q2) l /\ In (FGrasp o g) l /\ In (FPreInsert q2) l;
  fo_insert : forall q1 t q2 o g, InsertMotion F q1 t q2 o g = true -> In (FConf q1) l /\ In (FConf q2) l /\ In (FGrasp o g) l /\ In (FPreInsert q1) l /\ In (FPostInsert q2) l
}.
(** the state described by the facts *)
Definition initial (l : list fact) : state := fun f => match f with
  | HandEmpty => existsb (fun x => match x with FHandEmpty => true | _ => false end) l
  | CanMove => existsb (fun x => match x with FCanMove => true | _ => false end) l
  | AtConf q => existsb (fun x => match x with FAtConf q' => (q =? q')%nat | _ => false end) l
  | AtPose o p => existsb (fun x => match x with FAtPose o' p' => (o =? o')%nat && (p =? p')%nat | _ => false end) l
  | _ => false
  end.
Lemma NoDup_map_on {A B} (f : A -> B) l : NoDup l -> (forall x y, In x l -> In y l -> f x = f y -> x = y) -> NoDup (map f l).
Proof.
  induction l as [|a l IH]; intros N H; simpl; constructor; inversion N; subst.
  - intro X. apply in_map_iff in X. destruct X as (y & E & Hy). assert (y = a) by (apply H; [now right|now left|exact E]); subst; auto.
  - apply IH; auto. intros; apply H; auto; now right.
Qed.
Lemma NoDup_app_i {A} (l1 l2 : list A) : NoDup l1 -> NoDup l2 -> (forall x, In x l1 -> ~ In x l2) -> NoDup (l1 ++ l2).
Proof.
  induction l1 as [|a l IH]; simpl; intros N1 N2 D; auto. inversion N1; subst. constructor; [|apply IH; auto].
  intro X. apply in_app_or in X. destruct X as [X|X]; [auto|exact (D a (or_introl eq_refl) X)].
Qed.
Definition basic_facts : list fact := [FCanMove; FConf 0; FAtConf 0; FHandEmpty].
Lemma problem_items movable s l h : NoDup movable -> (length movable <= length (filter is_sink fixed))%nat -> off_sinks s movable -> problem movable s = Problem (l, h) ->
  l = basic_facts ++ flat_map own_facts (mk_items 1 (1 + 3 * length movable) movable (filter is_sink fixed)) ++
      flat_map bin_facts (mk_items 1 (1 + 3 * length movable) movable (filter is_sink fixed)) ++ surface_facts.
Proof.
  intros N L O H. rewrite (problem_facts _ _ _ _ O H). unfold basic_facts. f_equal. f_equal; [now apply items_desc|]. f_equal. apply items_ins. intros it Hi. apply (items_grasp _ _ _ _ N _ Hi).
Qed.
Section Items.
Variable items : list item.
Let l := basic_facts ++ flat_map own_facts items ++ flat_map bin_facts items ++ surface_facts.
Lemma in_facts f : In f l <-> In f basic_facts \/ (exists it, In it items /\ (In f (own_facts it) \/ In f (bin_facts it))) \/ In f surface_facts.
Proof.
  unfold l. rewrite !in_app_iff, !in_flat_map. split.
  - intros [H|[(it & A & B)|[(it & A & B)|H]]]; eauto 7.
  - intros [H|[(it & A & [B|B])|H]]; eauto 7.
Qed.
Lemma in_surface f : In f surface_facts <-> (exists r, In r fixed /\ is_sink r = true /\ f = FSink r) \/ (exists r, In r fixed /\ is_stove r = true /\ f = FStove r).
Proof.
  unfold surface_facts. rewrite in_flat_map. split.
  - intros (r & Hr & H). apply in_app_or in H. destruct H as [H|H].
    + destruct (is_sink r) eqn:E; [|destruct H]. destruct H as [<-|[]]. left. eauto.
    + destruct (is_stove r) eqn:E; [|destruct H]. destruct H as [<-|[]]. right. eauto.
  - intros [(r & A & B & ->)|(r & A & B & ->)]; exists r; split; auto; apply in_or_app; rewrite B; [left|right]; now left.
Qed.
Lemma in_own it f : In f (own_facts it) <-> f = FGrasp (obj it) (grasp it) \/ f = FGraspable (obj it) \/ f = FPose (obj it) (ipose it) \/ f = FAtPose (obj it) (ipose it) \/ f = FConf (iconf it) \/
  f = FKin (obj it) (ipose it) (grasp it) (iconf it) \/ exists r, In r fixed /\ is_sink r = true /\ f = FStackable (obj it) r.
Proof.
  unfold own_facts. rewrite in_app_iff, in_map_iff. simpl. split.
  - intros [[H|[H|[H|[H|[H|[H|[]]]]]]]|(r & H & Hr)]; auto 10. apply filter_In in Hr. destruct Hr. repeat right. eauto.
  - intros [H|[H|[H|[H|[H|[H|(r & A & B & H)]]]]]]; auto 10. right. exists r. split; auto. apply filter_In. auto.
Qed.
Lemma in_bin it f : In f (bin_facts it) <-> f = FPose (obj it) (postpose it) \/ f = FPose (obj it) (prepose it) \/ f = FSupported (obj it) (postpose it) (sink it) \/ f = FConf (preconf it) \/ f = FConf (postconf it) \/
  f = FKin (obj it) (prepose it) (grasp it) (preconf it) \/ f = FKin (obj it) (postpose it) (grasp it) (postconf it) \/ f = FPreInsert (preconf it) \/ f = FPostInsert (postconf it).
Proof. unfold bin_facts. simpl. split; intros H; repeat (destruct H as [H|H]; [auto 12|]); [destruct H|auto 12]. Qed.
Ltac facts H := apply in_facts in H; destruct H as [H|[(it & Hit & H)|H]];
  [simpl in H; decompose [or] H; try discriminate; try contradiction
  |rewrite in_own, in_bin in H; decompose [or ex and] H; try discriminate; try contradiction
  |apply in_surface in H; decompose [or ex and] H; try discriminate; try contradiction].
Lemma kin_fact o p g q : In (FKin o p g q) l <-> exists it, In it items /\ o = obj it /\ g = grasp it /\
    ((p = ipose it /\ q = iconf it) \/ (p = prepose it /\ q = preconf it) \/ (p = postpose it /\ q = postconf it)).
Proof.
  split.
  - intro H. facts H; match goal with E : _ = _ |- _ => injection E as -> -> -> -> end; exists it; auto 10.
  - intros (it & Hi & -> & -> & E). apply in_facts. right. left. exists it. split; auto. rewrite in_own, in_bin. destruct E as [[-> ->]|[[-> ->]|[-> ->]]]; auto 12.
Qed.
Lemma supported_fact o p r : In (FSupported o p r) l <-> exists it, In it items /\ o = obj it /\ p = postpose it /\ r = sink it.
Proof.
  split.
  - intro H. facts H. match goal with E : _ = _ |- _ => injection E as -> -> -> end. eauto.
  - intros (it & Hi & -> & -> & ->). apply in_facts. right. left. exists it. rewrite in_bin. auto 10.
Qed.
Lemma sink_fact r : In (FSink r) l <-> In r fixed /\ is_sink r = true.
Proof.
  split.
  - intro H. facts H. match goal with E : FSink _ = _ |- _ => injection E as -> end. auto.
  - intros [A B]. apply in_facts. right. right. apply in_surface. left. eauto.
Qed.
Lemma stackable_fact o r : In (FStackable o r) l <-> In o (map obj items) /\ In r fixed /\ is_sink r = true.
Proof.
  split.
  - intro H. facts H. match goal with E : _ = _ |- _ => injection E as -> -> end. split; auto. now apply in_map.
  - intros (A & B & C). apply in_map_iff in A. destruct A as (it & <- & A). apply in_facts. right. left. exists it. rewrite in_own. split; auto. left. repeat right. eauto.
Qed.
Lemma pose_fact o p : In (FPose o p) l <-> exists it, In it items /\ o = obj it /\ (p = ipose it \/ p = prepose it \/ p = postpose it).
Proof.
  split.
  - intro H. facts H; match goal with E : _ = _ |- _ => injection E as -> -> end; exists it; auto.
  - intros (it & Hi & -> & E). apply in_facts. right. left. exists it. split; auto. rewrite in_own, in_bin. destruct E as [->|[->| ->]]; auto 12.
Qed.
Lemma preinsert_fact q : In (FPreInsert q) l <-> In q (map preconf items).
Proof.
  rewrite in_map_iff. split.
  - intro H. facts H. match goal with E : _ = _ |- _ => injection E as -> end. eauto.
  - intros (it & <- & Hi). apply in_facts. right. left. exists it. split; auto. rewrite in_bin. auto 12.
Qed.
Lemma postinsert_fact q : In (FPostInsert q) l <-> In q (map postconf items).
Proof.
  rewrite in_map_iff. split.
  - intro H. facts H. match goal with E : _ = _ |- _ => injection E as -> end. eauto.
  - intros (it & <- & Hi). apply in_facts. right. left. exists it. split; auto. rewrite in_bin. auto 12.
Qed.
Lemma atpose_fact o p : In (FAtPose o p) l <-> exists it, In it items /\ o = obj it /\ p = ipose it.
Proof.
  split.
  - intro H. facts H. match goal with E : _ = _ |- _ => injection E as -> -> end. eauto.
  - intros (it & Hi & -> & ->). apply in_facts. right. left. exists it. split; auto. rewrite in_own. auto 12.
Qed.
Lemma atconf_fact q : In (FAtConf q) l <-> q = 0%nat.
Proof.
  split.
  - intro H. facts H. match goal with E : _ = _ |- _ => injection E as E; auto end.
  - intros ->. apply in_facts. left. simpl. auto.
Qed.
Lemma initial_state f : initial l f = init_state 0 (movable_of items) f.
Proof.
  destruct f; try reflexivity; apply eq_true_iff_eq; unfold initial, init_state; rewrite existsb_exists; try rewrite existsb_exists.
  - split.
    + intros (x & Hx & E). destruct x; try discriminate. apply Nat.eqb_eq in E. subst. apply atconf_fact in Hx. subst. apply Nat.eqb_refl.
    + intro E. apply Nat.eqb_eq in E. subst. exists (FAtConf 0). split; [now apply atconf_fact|reflexivity].
  - split.
    + intros (x & Hx & E). destruct x; try discriminate. apply andb_true_iff in E. destruct E as [E1 E2]. apply Nat.eqb_eq in E1, E2. subst. apply atpose_fact in Hx. destruct Hx as (it & Hi & -> & ->).
      exists (obj it, ipose it). split; [apply in_map_iff; eauto|]. simpl. now rewrite !Nat.eqb_refl.
    + intros (x & Hx & E). apply in_map_iff in Hx. destruct Hx as (it & <- & Hi). simpl in E. apply andb_true_iff in E. destruct E as [E1 E2]. apply Nat.eqb_eq in E1, E2. subst.
      exists (FAtPose (obj it) (ipose it)). split; [apply atpose_fact; eauto|]. now rewrite !Nat.eqb_refl.
Qed.
End Items.
Section Main.
Variable movable : list nat.
Hypothesis NM : NoDup movable.
Hypothesis ENOUGH : (length movable <= length (filter is_sink fixed))%nat.
Let items := mk_items 1 (1 + 3 * length movable) movable (filter is_sink fixed).
Lemma items_nodup : NoDup items.
Proof. apply (NoDup_map_inv obj). unfold items. now rewrite items_obj. Qed.
Lemma items_same (f : item -> nat) : (forall it it' i i', it = Item (obj it) (1 + 3 * i) (sink it) (1 + 3 * i + 1) (1 + 3 * length movable + 4 * i + 1) (1 + 3 * length movable + 4 * i) (1 + 3 * i + 2) (1 + 3 * length movable + 4 * i + 2) (1 + 3 * length movable + 4 * i + 3) ->
    it' = Item (obj it') (1 + 3 * i') (sink it') (1 + 3 * i' + 1) (1 + 3 * length movable + 4 * i' + 1) (1 + 3 * length movable + 4 * i') (1 + 3 * i' + 2) (1 + 3 * length movable + 4 * i' + 2) (1 + 3 * length movable + 4 * i' + 3) -> f it = f it' -> i = i') ->
  NoDup (map f items).
Proof.
  intro H. apply NoDup_map_on; [apply items_nodup|]. intros x y Hx Hy E. apply items_nth in Hx, Hy. destruct Hx as (i & _ & Ni & Ei), Hy as (j & _ & Nj & Ej).
  assert (i = j) by (eapply H; eauto). subst. congruence.
Qed.
(** the facts of the problem are those of a task of Kuka_Props: each object has its own bin, its own poses and configurations *)
Lemma items_task F : facts_of (basic_facts ++ flat_map own_facts items ++ flat_map bin_facts items ++ surface_facts) F -> task F 0 items.
Proof.
  intro FO. constructor.
  - unfold items. now rewrite items_obj.
  - unfold confs_of. assert (B : forall it, In it items -> (3 <= iconf it <= 3 * length movable)%nat /\ (1 + 3 * length movable < preconf it)%nat /\ (1 + 3 * length movable < postconf it)%nat).
    { intros it Hi. apply items_nth in Hi. destruct Hi as (i & Li & _ & E). rewrite E. cbn [iconf preconf postconf]. lia. }
    constructor; [|apply NoDup_app_i; [| apply NoDup_app_i |]].
    + rewrite !in_app_iff, !in_map_iff. intros [(it & E & Hi)|[(it & E & Hi)|(it & E & Hi)]]; apply B in Hi; lia.
    + apply items_same. intros it it' i i' E E'. rewrite E, E'. cbn [iconf]. lia.
    + apply items_same. intros it it' i i' E E'. rewrite E, E'. cbn [preconf]. lia.
    + apply items_same. intros it it' i i' E E'. rewrite E, E'. cbn [postconf]. lia.
    + intros x Hx Hy. apply in_map_iff in Hx, Hy. destruct Hx as (it & <- & Hx), Hy as (it' & E & Hy). apply items_nth in Hx, Hy. destruct Hx as (i & _ & _ & E1), Hy as (i' & _ & _ & E2). rewrite E1, E2 in E. cbn [preconf postconf] in E. lia.
    + intros x Hx Hy. apply in_map_iff in Hx. destruct Hx as (it & <- & Hx). apply B in Hx. apply in_app_or in Hy. rewrite !in_map_iff in Hy. destruct Hy as [(it' & E & Hy)|(it' & E & Hy)]; apply B in Hy; lia.
  - intros it Hi. apply items_nth in Hi. destruct Hi as (i & Li & _ & E). rewrite E. cbn [ipose prepose postpose]. lia.
  - intros o p g q. rewrite (fo_kin _ _ FO). apply kin_fact.
  - intros it Hi. pose proof (items_bin _ _ _ _ _ Hi) as Hs. apply filter_In in Hs. rewrite (fo_sink _ _ FO), (fo_stackable _ _ FO), (fo_poses _ _ FO), (fo_supported _ _ FO), sink_fact, stackable_fact, supported_fact.
    split; auto. split; [split; [now apply in_map|auto]|]. split; [exists (obj it); apply pose_fact; eauto 6|eauto].
  - intros o p r _ Su. apply (fo_supported _ _ FO) in Su. apply supported_fact in Su. destruct Su as (it & Hi & -> & -> & _). eauto.
  - intros q1 t q2 o g H. apply (fo_holding _ _ FO) in H. destruct H as (_ & _ & _ & H). now apply preinsert_fact in H.
  - intros q1 t q2 o g H. apply (fo_insert _ _ FO) in H. destruct H as (_ & _ & _ & H1 & H2). apply preinsert_fact in H1. apply postinsert_fact in H2. auto.
Qed.
End Main.
(** With a bin for every object and no object on a bin, a problem that is returned is a task: the i-th object has
    the i-th bin, and the facts hold initially of the state of the domain. *)
Theorem problem_is_task : forall movable s l h F, NoDup movable -> (length movable <= length (filter is_sink fixed))%nat -> off_sinks s movable ->
  problem movable s = Problem (l, h) -> facts_of l F ->
  exists items, map obj items = movable /\ map sink items = firstn (length movable) (filter is_sink fixed) /\ task F 0 items /\
    forall f, initial l f = init_state 0 (movable_of items) f.
Proof.
  intros movable s l h F N L O H FO. pose proof (problem_items _ _ _ _ N L O H) as E. subst l. exists (mk_items 1 (1 + 3 * length movable) movable (filter is_sink fixed)).
  split; [now apply items_obj|]. split; [now apply items_sink|]. split; [now apply items_task|]. apply initial_state.
Qed.

(** every motion the plan needs exists *)
Record streams_answer (l : list fact) (F : facts) : Prop := {
  sa_free : forall q1 q2, In (FConf q1) l -> In (FConf q2) l -> exists t, FreeMotion F q1 t q2 = true;
  sa_holding : forall q1 q2 o p g, In (FConf q1) l -> In (FKin o p g q2) l -> In (FPreInsert q2) l -> exists t, HoldingMotion F q1 t q2 o g = true;
  sa_insert : forall q1 q2 o p1 p2 g, In (FKin o p1 g q1) l -> In (FPreInsert q1) l -> In (FKin o p2 g q2) l -> In (FPostInsert q2) l -> exists t, InsertMotion F q1 t q2 o g = true
}.
Lemma conf_fact items q : In q (confs_of 0 items) -> In (FConf q) (basic_facts ++ flat_map own_facts items ++ flat_map bin_facts items ++ surface_facts).
Proof.
  unfold confs_of. intros [<-|H]; [apply in_facts; left; simpl; auto|]. rewrite !in_app_iff, !in_map_iff in H. apply in_facts. right. left.
  destruct H as [(it & <- & H)|[(it & <- & H)|(it & <- & H)]]; exists it; rewrite in_own, in_bin; auto 12.
Qed.
Lemma answered_connected items F : streams_answer (basic_facts ++ flat_map own_facts items ++ flat_map bin_facts items ++ surface_facts) F -> connected F 0 items.
Proof.
  intro A. constructor.
  - intros q1 q2 H1 H2. apply (sa_free _ _ A); now apply conf_fact.
  - intros q1 it H Hi. apply (sa_holding _ _ A) with (p := prepose it); [now apply conf_fact|apply kin_fact; eauto 10|apply preinsert_fact; now apply in_map].
  - intros it Hi. apply (sa_insert _ _ A) with (p1 := prepose it) (p2 := postpose it); [apply kin_fact; eauto 10|apply preinsert_fact; now apply in_map|apply kin_fact; eauto 10|apply postinsert_fact; now apply in_map].
Qed.
(** the goal of the problem, run.py 394-396 *)
Definition goal_holds (movable : list nat) (s : state) : Prop := s (AtConf 0) = true /\ forall o, In o movable -> s (Cleaned o) = true.
(** The problem has a plan, of eight actions for each object and one for the way home, and none that is shorter. *)
Theorem problem_shortest_plan : forall movable s l h F, movable <> [] -> NoDup movable -> (length movable <= length (filter is_sink fixed))%nat -> off_sinks s movable ->
  problem movable s = Problem (l, h) -> facts_of l F -> streams_answer l F ->
  (exists plan t, length plan = (8 * length movable + 1)%nat /\ run F (initial l) plan = Some t /\ goal_holds movable t) /\
  forall plan t, run F (initial l) plan = Some t -> goal_holds movable t -> (8 * length movable + 1 <= length plan)%nat.
Proof.
  intros movable s l h F NE N L O H FO SA. pose proof (problem_items _ _ _ _ N L O H) as E. subst l.
  set (items := mk_items 1 (1 + 3 * length movable) movable (filter is_sink fixed)) in *.
  assert (OB : map obj items = movable) by now apply items_obj.
  assert (LE : length items = length movable) by (rewrite <- OB, map_length; reflexivity).
  assert (TK : task F 0 items) by now apply items_task.
  assert (IN : initial (basic_facts ++ flat_map own_facts items ++ flat_map bin_facts items ++ surface_facts) = init_state 0 (movable_of items)) by (apply functional_extensionality; apply initial_state).
  assert (G : forall t, goal_holds movable t <-> goal_reached 0 (movable_of items) t = true).
  { intro t. unfold goal_holds, goal_reached. rewrite andb_true_iff, forallb_forall. rewrite <- OB. split; intros [A B]; split; auto.
    - intros x Hx. apply in_map_iff in Hx. destruct Hx as (it & <- & Hi). apply (B (obj it)). now apply in_map.
    - intros o Ho. apply in_map_iff in Ho. destruct Ho as (it & <- & Hi). apply (B (obj it, ipose it)). apply in_map_iff. eauto. }
  rewrite IN. split.
  - destruct (kuka_solvable F 0 items TK (answered_connected _ _ SA)) as (plan & t & P1 & P2 & P3). exists plan, t. split; [lia|]. split; auto. now apply G.
  - intros plan t R GT. apply G in GT. rewrite <- LE. apply (kuka_needs F 0 items plan t TK); auto. intro X. rewrite X in LE. destruct movable; [auto|discriminate].
Qed.

(** With fewer bins than objects the problem is built all the same, and it has no plan. *)
Lemma ins_supported m pairs g_of : forall o p r, In (FSupported o p r) (ins_facts m pairs g_of) -> In (o, r) pairs.
Proof.
  revert m. induction pairs as [|[b k] pairs IH]; intros m o p r H; [destruct H|]. cbn [ins_facts] in H. apply in_app_or in H. destruct H as [H|H]; [|right; eauto].
  simpl in H. decompose [or] H; try discriminate; try contradiction. match goal with E : FSupported _ _ _ = _ |- _ => injection E as -> -> -> end. now left.
Qed.
Lemma desc_supported n movable o p r : ~ In (FSupported o p r) (desc_facts n movable).
Proof.
  revert n. induction movable as [|b movable IH]; intros n H; [destruct H|]. cbn [desc_facts] in H. apply in_app_or in H. destruct H as [H|H].
  - simpl in H. decompose [or] H; try discriminate; contradiction.
  - apply in_app_or in H. destruct H as [H|H]; [|exact (IH _ H)]. apply in_map_iff in H. destruct H as (x & E & _). discriminate.
Qed.
Lemma never_cleaned F o plan : (forall p r, Supported F o p r = true -> Sink F r = false) -> forall s s', run F s plan = Some s' -> s (Cleaned o) = false -> s' (Cleaned o) = false.
Proof.
  intro U. induction plan as [|a plan IH]; intros s s' H C; [injection H as <-; auto|]. cbn [run] in H. destruct (step F s a) as [s1|] eqn:S; [|discriminate].
  apply (IH _ _ H). apply step_some in S. destruct S as (SP & _ & UP). destruct (s1 (Cleaned o)) eqn:X; auto. exfalso. apply UP in X. destruct X as [X|[X _]]; [|congruence].
  destruct a; simpl in X; decompose [or] X; try discriminate; try contradiction.
  - match goal with E : Cleaned _ = _ |- _ => injection E as -> end. cbn [static_pre] in SP. apply andb_true_iff in SP. destruct SP as [SP1 SP2]. apply andb_true_iff in SP1. destruct SP1 as [_ SP1].
    unfold On in SP2. apply existsb_exists in SP2. destruct SP2 as (p & _ & SP2). apply andb_true_iff in SP2. destruct SP2 as [SP2 _]. apply U in SP2. congruence.
Qed.
Lemma combine_nth_fst (l1 : list nat) : forall (l2 : list nat) i x y, nth_error (combine l1 l2) i = Some (x, y) -> nth i l1 0%nat = x.
Proof. induction l1 as [|b l IH]; intros [|k ks] [|i] x y E; simpl in *; try discriminate; [now injection E|eauto]. Qed.
Theorem too_few_bins_unsolvable : forall movable s l h F, NoDup movable -> (length (filter is_sink fixed) < length movable)%nat -> off_sinks s movable ->
  problem movable s = Problem (l, h) -> facts_of l F ->
  forall plan t, run F (initial l) plan = Some t -> ~ goal_holds movable t.
Proof.
  intros movable s l h F N L O H FO plan t R [_ G]. rewrite (problem_facts _ _ _ _ O H) in *.
  set (sinks := filter is_sink fixed) in *. set (o := nth (length sinks) movable 0%nat).
  assert (Ho : In o movable) by now apply nth_In.
  assert (U : forall p r, Supported F o p r = true -> Sink F r = false).
  { intros p r X. exfalso. apply (fo_supported _ _ FO) in X. apply in_app_or in X. destruct X as [X|X]; [simpl in X; decompose [or] X; try discriminate; contradiction|].
    apply in_app_or in X. destruct X as [X|X]; [exact (desc_supported _ _ _ _ _ X)|]. apply in_app_or in X. destruct X as [X|X].
    - apply ins_supported in X. apply (In_nth _ _ (0, 0)%nat) in X. destruct X as (i & Li & X). rewrite combine_length in Li.
      assert (E : nth i movable 0%nat = o).
      { assert (E2 : nth_error (combine movable sinks) i = Some (o, r)) by (rewrite <- X; apply nth_error_nth'; rewrite combine_length; lia).
        exact (combine_nth_fst _ _ _ _ _ E2). }
      unfold o in E. apply (proj1 (NoDup_nth movable 0%nat) N) in E; lia.
    - apply in_surface in X. decompose [or ex and] X; discriminate. }
  assert (C : t (Cleaned o) = false) by (apply (never_cleaned F o plan U _ _ R); reflexivity). rewrite G in C by auto. discriminate.
Qed.

(** *** C126: the values of the facts *)
(** the robot's base and the fixed bodies are where they were *)
Definition frame (s s' : sim) : Prop := pose_at s' robot = pose_at s robot /\ forall b, In b fixed -> pose_at s' b = pose_at s b /\ joints_at s' b = joints_at s b.
Lemma frame_refl s : frame s s. Proof. split; auto. Qed.
Lemma frame_trans s1 s2 s3 : frame s1 s2 -> frame s2 s3 -> frame s1 s3.
Proof. intros [A B] [C D]. split; [congruence|]. intros b Hb. destruct (B b Hb), (D b Hb). split; congruence. Qed.
Lemma frame_ik s s' : only_robot_moved robot s s' -> frame s s'.
Proof. intros [A B]. split; auto. intros b Hb. split; auto. apply B. intros ->. auto. Qed.
Lemma frame_free s s' q : frame s s' -> robot_free touch robot s' q fixed -> robot_free touch robot s q fixed.
Proof. intros [A B] H b Hb. specialize (H b Hb). destruct (B b Hb) as [E1 E2]. now rewrite A, E1, E2 in H. Qed.
Definition extends (h h' : store) : Prop := incl (st_poses h) (st_poses h') /\ incl (st_confs h) (st_confs h') /\ incl (st_grasps h) (st_grasps h').
Lemma extends_refl h : extends h h. Proof. split; [|split]; apply incl_refl. Qed.
Lemma extends_trans h1 h2 h3 : extends h1 h2 -> extends h2 h3 -> extends h1 h3.
Proof. intros (A & B & C) (D & E & F). split; [|split]; eapply incl_tran; eauto. Qed.
(** every number stands for one object *)
Definition one_each {A} (n : nat) (l : list (nat * A)) : Prop := NoDup (map fst l) /\ forall x, In x (map fst l) -> (x < n)%nat.
Lemma one_each_cons {A} n (l : list (nat * A)) a : one_each n l -> one_each (S n) ((n, a) :: l).
Proof. intros [N B]. split; [simpl; constructor; auto; intro X; apply B in X; lia|]. intros x [<-|H]; [simpl; lia|apply B in H; lia]. Qed.
Lemma one_each_S {A} n (l : list (nat * A)) : one_each n l -> one_each (S n) l.
Proof. intros [N B]. split; auto. intros x H. apply B in H. lia. Qed.
Definition store_ok (h : store) : Prop := one_each (st_next h) (st_poses h) /\ one_each (st_next h) (st_confs h) /\ one_each (st_next h) (st_grasps h).
Lemma ok_pose h p : store_ok h -> store_ok (snd (new_pose h p)).
Proof. intros (A & B & C). split; [|split]; cbn; auto using @one_each_cons, @one_each_S. Qed.
Lemma ok_conf h p : store_ok h -> store_ok (snd (new_conf h p)).
Proof. intros (A & B & C). split; [|split]; cbn; auto using @one_each_cons, @one_each_S. Qed.
Lemma ok_grasp h p : store_ok h -> store_ok (snd (new_grasp h p)).
Proof. intros (A & B & C). split; [|split]; cbn; auto using @one_each_cons, @one_each_S. Qed.

(** a certified configuration: it holds the object at the pose moved by the approach, and the robot touches no fixed body *)
Definition kin_values (s : sim) (h : store) (o p g q : nat) : Prop :=
  exists pv qv, In (p, pv) (st_poses h) /\ In (q, qv) (st_confs h) /\ In (g, grasp_of o) (st_grasps h) /\
    held_at link_pose (grasp_of o) qv = multiply (approach_pose (grasp_of o)) pv /\ robot_free touch robot s qv fixed.
Lemma kin_values_later s s' h h' o p g q : frame s s' -> extends h h' -> kin_values s' h o p g q -> kin_values s h' o p g q.
Proof.
  intros Fr (E1 & E2 & E3) (pv & qv & A & B & C & D & E). exists pv, qv. split; [auto|]. split; [auto|]. split; [auto|]. split; auto. now apply frame_free with s'.
Qed.
Definition proper_grasp (b : nat) : Prop := g_body (grasp_of b) = b /\ g_robot (grasp_of b) = robot /\ rigid (grasp_pose (grasp_of b)) /\ b <> robot /\ ~ In b fixed.
Lemma describe_values movable : forall s h grasps facts s' h' grasps', Forall proper_grasp movable -> store_ok h ->
  describe_ movable s h grasps = Problem (facts, s', h', grasps') ->
  extends h h' /\ store_ok h' /\ only_robot_moved robot s s' /\
  (forall o p g q, In (FKin o p g q) facts -> kin_values s h' o p g q /\ In o movable) /\ (forall o p, In (FAtPose o p) facts -> In (p, pose_at s o) (st_poses h')) /\
  (forall b g, In (b, g) grasps' -> In (b, g) grasps \/ In (g, grasp_of b) (st_grasps h')).
Proof.
  induction movable as [|b movable IH]; intros s h grasps facts s' h' grasps' PG OK H.
  - injection H as <- <- <- <-. split; [apply extends_refl|]. split; auto. split; [apply moved_refl|]. split; [intros o p g q []|]. split; [intros o p []|auto].
  - inversion PG as [|x y PB PG']; subst. cbn [describe] in H.
    pose proof (ok_grasp h (grasp_of b) OK) as OK1. destruct (new_grasp h (grasp_of b)) as [g h1] eqn:E1.
    pose proof (ok_pose h1 (pose_at s b) OK1) as OK2. destruct (new_pose h1 (pose_at s b)) as [p h2] eqn:E2.
    destruct (get_ik_fn touch ik s robot (pose_at s b) (grasp_of b) fixed true (samples0 b)) as [c s1] eqn:K. destruct (ik_sound link_pose touch ik IK _ _ _ _ _ _ _ _ _ NF K) as [M Q].
    destruct c as [c|]; [|discriminate]. pose proof (ok_conf h2 (configuration c) OK2) as OK3. destruct (new_conf h2 (configuration c)) as [q h3] eqn:E3. cbn [snd] in OK1, OK2, OK3.
    destruct (describe_ movable s1 h3 (grasps ++ [(b, g)])) as [[[[f2 s2] h4] gr2]| |] eqn:D; try discriminate. injection H as <- <- <- <-.
    destruct (IH _ _ _ _ _ _ _ PG' OK3 D) as (I1 & I2 & I3 & I4 & I5 & I6).
    assert (X3 : extends h h3 /\ In (p, pose_at s b) (st_poses h3) /\ In (q, configuration c) (st_confs h3) /\ In (g, grasp_of b) (st_grasps h3)).
    { injection E1 as <- <-. injection E2 as <- <-. injection E3 as <- <-. split; [split; [|split]; cbn; intros x Hx; simpl; auto|]. cbn. auto. }
    destruct X3 as (X3 & Xp & Xq & Xg). destruct I1 as (J1 & J2 & J3).
    split; [eapply extends_trans; [exact X3|split; [|split]]; auto|]. split; auto. split; [eapply moved_trans; eauto|].
    assert (KV : kin_values s h4 b p g q).
    { exists (pose_at s b), (configuration c). split; [auto|]. split; [auto|]. split; [auto|]. destruct PB as (_ & PB2 & PB3 & _). split; [exact (certified_conf_holds link_pose touch ik IK _ _ _ _ _ _ _ _ _ NF PB2 PB3 K)|]. apply (Q c eq_refl). }
    assert (SF : forall f, In f (flat_map (fun r => if is_sink r then FStackable b r :: (if is_placement s1 b r then [FSupported b p r] else []) else []) fixed) -> exists r, f = FStackable b r \/ f = FSupported b p r).
    { intros f Hf. apply in_flat_map in Hf. destruct Hf as (r & _ & Hf). exists r. destruct (is_sink r); [|destruct Hf]. destruct Hf as [<-|Hf]; auto. destruct (is_placement s1 b r); [|destruct Hf]. destruct Hf as [<-|[]]; auto. }
    split; [|split].
    + intros o p' g' q' Hf. do 5 (destruct Hf as [Hf|Hf]; [discriminate|]). destruct Hf as [Hf|Hf].
      * injection Hf as <- <- <- <-. split; auto. now left.
      * apply in_app_or in Hf. destruct Hf as [Hf|Hf]; [apply SF in Hf; destruct Hf as (r & [X|X]); discriminate|]. destruct (I4 _ _ _ _ Hf) as [V1 V2]. split; [|now right].
        apply (kin_values_later s s1 h4 h4); auto; [now apply frame_ik|apply extends_refl].
    + intros o p' Hf. do 3 (destruct Hf as [Hf|Hf]; [discriminate|]). destruct Hf as [Hf|Hf].
      * injection Hf as <- <-. auto.
      * do 2 (destruct Hf as [Hf|Hf]; [discriminate|]). apply in_app_or in Hf. destruct Hf as [Hf|Hf]; [apply SF in Hf; destruct Hf as (r & [X|X]); discriminate|]. specialize (I5 _ _ Hf). now rewrite (proj1 M) in I5.
    + intros b' g' Hg. apply I6 in Hg. destruct Hg as [Hg|Hg]; auto. apply in_app_or in Hg. destruct Hg as [Hg|[Hg|[]]]; auto. injection Hg as <- <-. right. auto.
Qed.
Definition four_angles (theta : R) : Prop := theta = 0 \/ theta = PI / 2 \/ theta = PI \/ theta = - (PI / 2).
Lemma thetas_four theta : In theta fixed_thetas <-> four_angles theta.
Proof. unfold fixed_thetas, four_angles. cbn [In]. intuition. Qed.
(** the pose in front of the bin: the same orientation, two centimetres along x and fourteen above *)
Definition front_of (v : pose) : pose := mkPose (rot v) (px (point v) + 2 / 100, py (point v), pz (point v) + 14 / 100).
Lemma front_eq v : multiply preinsert_offset v = front_of v.
Proof. unfold preinsert_offset, front_of. rewrite multiply_shift. f_equal. destruct (point v) as [[a b] c]. unpose. comps; ring. Qed.
(** the facts of an object and its bin: the pose in the bin is drawn at one of the four angles, clear of the fixed bodies,
    the pose in front is the same pose moved, and both are reached *)
Definition bin_values (s : sim) (l : list fact) (h : store) (o r : nat) : Prop :=
  exists post pre g q1 q2 v theta, In (FSupported o post r) l /\ In (FKin o pre g q1) l /\ In (FPreInsert q1) l /\ In (FKin o post g q2) l /\ In (FPostInsert q2) l /\
    In (post, v) (st_poses h) /\ In (pre, front_of v) (st_poses h) /\
    four_angles theta /\ d_result (place_at o r theta) = Some v /\
    forall b, In b fixed -> touch o b v (joints_at s o) (pose_at s b) (joints_at s b) = false.
Lemma bin_values_later s s' l l' h h' o r : frame s s' -> joints_at s' o = joints_at s o -> incl l l' -> extends h h' -> bin_values s' l h o r -> bin_values s l' h' o r.
Proof.
  intros [Fr1 Fr] J I (E1 & _) (post & pre & g & q1 & q2 & v & theta & A1 & A2 & A3 & A4 & A5 & A6 & A7 & A8 & A9 & A10).
  exists post, pre, g, q1, q2, v, theta. repeat (split; [solve [auto]|]). intros b Hb. destruct (Fr b Hb) as [F1 F2]. rewrite <- F1, <- F2, <- J. auto.
Qed.
Hypothesis DRAWS : forall b k theta, valid_draw (place_at b k theta).
Lemma insertions_values pairs : forall s h grasps facts s' h', (forall b k, In (b, k) pairs -> proper_grasp b) -> store_ok h ->
  (forall b g, In (b, g) grasps -> In (g, grasp_of b) (st_grasps h)) ->
  insertions_ pairs s h grasps = Problem (facts, s', h') ->
  extends h h' /\ store_ok h' /\ (forall o p g q, In (FKin o p g q) facts -> kin_values s h' o p g q /\ In o (map fst pairs)) /\
  (forall o r, In (o, r) pairs -> bin_values s facts h' o r) /\ (forall o p, ~ In (FAtPose o p) facts).
Proof.
  induction pairs as [|[b k] pairs IH]; intros s h grasps facts s' h' PG OK GR H.
  - injection H as <- <- <-. split; [apply extends_refl|]. split; auto. split; [intros o p g q []|]. split; [intros o r []|intros o p []].
  - pose proof (PG b k (or_introl eq_refl)) as PB. cbn [insertions] in H. destruct (find (fun x => (fst x =? b)%nat) grasps) as [[b' g]|] eqn:Fg; [|discriminate].
    apply find_some in Fg. destruct Fg as [Fg Eb]. simpl in Eb. apply Nat.eqb_eq in Eb. subst b'. apply GR in Fg.
    destruct (stable_next touch fixed [] b s (map (place_at b k) fixed_thetas)) as [[[post s1] rest]|] eqn:St; [|discriminate].
    assert (VD : Forall valid_draw (map (place_at b k) fixed_thetas)) by (apply Forall_forall; intros d Hd; apply in_map_iff in Hd; destruct Hd as (t & <- & _); apply DRAWS).
    destruct (stable_sound touch robot fixed [] b _ VD _ _ _ _ St) as ([MA MB] & _ & P1 & (d & Hd & Rd) & CL).
    apply in_map_iff in Hd. destruct Hd as (theta & <- & Ht). apply thetas_four in Ht.
    destruct PB as (PB1 & PB2 & PB3 & PB4 & PB5).
    assert (Fr1 : frame s s1). { split; [apply MA; intros [X|[]]; auto|]. intros x Hx. split; [apply MA; intros [X|[]]; subst; auto|apply MB; intros ->; auto]. }
    pose proof (ok_pose h (p_pose post) OK) as OK1. destruct (new_pose h (p_pose post)) as [post_id h1] eqn:E1.
    pose proof (ok_pose h1 (multiply preinsert_offset (p_pose post)) OK1) as OK2. destruct (new_pose h1 (multiply preinsert_offset (p_pose post))) as [pre_id h2] eqn:E2.
    destruct (get_ik_fn touch ik s1 robot (multiply preinsert_offset (p_pose post)) (grasp_of b) fixed true (samples_pre b)) as [c1 s2] eqn:K1.
    destruct (get_ik_fn touch ik s2 robot (p_pose post) (grasp_of b) fixed true (samples_post b)) as [c2 s3] eqn:K2.
    destruct c1 as [c1|]; [|discriminate]. destruct c2 as [c2|]; [|discriminate].
    pose proof (ok_conf h2 (configuration c1) OK2) as OK3. destruct (new_conf h2 (configuration c1)) as [q1 h3] eqn:E3.
    pose proof (ok_conf h3 (configuration c2) OK3) as OK4. destruct (new_conf h3 (configuration c2)) as [q2 h4] eqn:E4. cbn [snd] in *.
    destruct (insertions_ pairs s3 h4 grasps) as [[[f2 t2] h5]| |] eqn:D; try discriminate. injection H as <- <- <-.
    destruct (ik_sound link_pose touch ik IK _ _ _ _ _ _ _ _ _ NF K1) as [M1 Q1]. destruct (ik_sound link_pose touch ik IK _ _ _ _ _ _ _ _ _ NF K2) as [M2 Q2].
    assert (Fr2 : frame s s2) by (eapply frame_trans; [exact Fr1|now apply frame_ik]).
    assert (Fr3 : frame s s3) by (eapply frame_trans; [exact Fr2|now apply frame_ik]).
    assert (X4 : extends h h4 /\ In (post_id, p_pose post) (st_poses h4) /\ In (pre_id, multiply preinsert_offset (p_pose post)) (st_poses h4) /\ In (q1, configuration c1) (st_confs h4) /\ In (q2, configuration c2) (st_confs h4)).
    { injection E1 as <- <-. injection E2 as <- <-. injection E3 as <- <-. injection E4 as <- <-. split; [split; [|split]; cbn; intros x Hx; simpl; auto|]. cbn. auto 12. }
    destruct X4 as (X4 & Xpo & Xpr & Xq1 & Xq2).
    assert (GR' : forall b g, In (b, g) grasps -> In (g, grasp_of b) (st_grasps h4)) by (intros x y Hx; apply X4; auto).
    destruct (IH _ _ _ _ _ _ (fun x y Hx => PG x y (or_intror Hx)) OK4 GR' D) as (I1 & I2 & I3 & I4 & I5). pose proof I1 as (J1 & J2 & J3).
    split; [eapply extends_trans; eauto|]. split; auto.
    assert (KV1 : kin_values s h5 b pre_id g q1).
    { exists (multiply preinsert_offset (p_pose post)), (configuration c1). split; [auto|]. split; [auto|]. split; [apply J3; now apply X4|]. split; [exact (certified_conf_holds link_pose touch ik IK _ _ _ _ _ _ _ _ _ NF PB2 PB3 K1)|].
      apply frame_free with s1; auto. apply (Q1 c1 eq_refl). }
    assert (KV2 : kin_values s h5 b post_id g q2).
    { exists (p_pose post), (configuration c2). split; [auto|]. split; [auto|]. split; [apply J3; now apply X4|]. split; [exact (certified_conf_holds link_pose touch ik IK _ _ _ _ _ _ _ _ _ NF PB2 PB3 K2)|].
      apply frame_free with s2; auto. apply (Q2 c2 eq_refl). }
    split; [|split].
    + intros o p g' q Hf. do 5 (destruct Hf as [Hf|Hf]; [discriminate|]). destruct Hf as [Hf|[Hf|Hf]].
      * injection Hf as <- <- <- <-. split; [assumption|now left].
      * injection Hf as <- <- <- <-. split; [assumption|now left].
      * do 2 (destruct Hf as [Hf|Hf]; [discriminate|]). destruct (I3 _ _ _ _ Hf) as [V1 V2]. split; [|now right]. apply (kin_values_later s s3 h5 h5); auto. apply extends_refl.
    + intros o r [X|X].
      * injection X as <- <-. exists post_id, pre_id, g, q1, q2, (p_pose post), theta. rewrite <- front_eq. repeat (split; [solve [auto | simpl; auto 12]|]).
        intros x Hx. destruct Fr1 as [_ Fr1]. destruct (Fr1 x Hx) as [F1 F2]. rewrite <- F1, <- F2, <- (MB b PB4), <- P1. apply CL. rewrite app_nil_r. auto.
      * destruct (PG o r (or_intror X)) as (_ & _ & _ & PO & _). apply (bin_values_later s s3 f2 _ h5 h5); auto; [|intros x Hx; do 9 right; auto|apply extends_refl].
        destruct M1 as [_ M1], M2 as [_ M2]. rewrite M2, M1, MB by auto. reflexivity.
    + intros o p Hf. do 9 (destruct Hf as [Hf|Hf]; [discriminate|]). exact (I5 _ _ Hf).
Qed.
(** Every number stands for one object of its type; every Kin fact is certified in the world that was given, every
    AtPose fact is the pose of that world, and every object that has a bin has its bin facts. *)
Theorem problem_values : forall movable s l h, Forall proper_grasp movable -> problem movable s = Problem (l, h) ->
  store_ok h /\ (forall o p g q, In (FKin o p g q) l -> kin_values s h o p g q /\ In o movable) /\ (forall o p, In (FAtPose o p) l -> In (p, pose_at s o) (st_poses h)) /\
  forall o r, In (o, r) (combine movable (filter is_sink fixed)) -> bin_values s l h o r.
Proof.
  intros movable s l h PG H. unfold pddlstream_from_problem in H. cbn [new_conf st_next st_poses st_confs st_grasps] in H.
  set (s0 := set_joint_positions s robot default_arm_pos) in *. set (h0 := Store [] _ [] 1) in H.
  assert (OK0 : store_ok h0). { split; [|split]; (split; [repeat constructor; intros []|]); simpl; try contradiction. intros x [<-|[]]. lia. }
  assert (M0 : only_robot_moved robot s s0) by apply moved_set.
  destruct (describe_ movable s0 h0 []) as [[[[f1 s1] h1] gr]| |] eqn:D; try discriminate.
  destruct (describe_values _ _ _ _ _ _ _ _ PG OK0 D) as (A1 & A2 & A3 & A4 & A5 & A6).
  destruct (insertions_ (combine movable (filter is_sink fixed)) s1 h1 gr) as [[[f2 s2] h2]| |] eqn:E; try discriminate.
  assert (PG2 : forall b k, In (b, k) (combine movable (filter is_sink fixed)) -> proper_grasp b) by (intros b k Hb; rewrite Forall_forall in PG; apply PG; eapply in_combine_l; eauto).
  destruct (insertions_values _ _ _ _ _ _ _ PG2 A2 (fun b g Hg => match A6 b g Hg with or_introl F => match F with end | or_intror X => X end) E) as (B1 & B2 & B3 & B4 & B5).
  injection H as <- <-. pose proof (moved_trans robot _ _ _ M0 A3) as M1.
  split; auto. split; [|split].
  - intros o p g q Hf. repeat (destruct Hf as [Hf|Hf]; [discriminate|]). apply in_app_or in Hf. destruct Hf as [Hf|Hf].
    + destruct (A4 _ _ _ _ Hf) as [V1 V2]. split; auto. apply (kin_values_later s s0 h1 h2); auto. now apply frame_ik.
    + apply in_app_or in Hf. destruct Hf as [Hf|Hf]; [|apply in_surface in Hf; decompose [or ex and] Hf; discriminate].
      destruct (B3 _ _ _ _ Hf) as [V1 V2]. apply in_map_iff in V2. destruct V2 as ([x y] & Ex & V2). simpl in Ex. subst x. split; [|eapply in_combine_l; eauto].
      apply (kin_values_later s s1 h2 h2); auto; [now apply frame_ik|apply extends_refl].
  - intros o p Hf. repeat (destruct Hf as [Hf|Hf]; [discriminate|]). apply in_app_or in Hf. destruct Hf as [Hf|Hf].
    + apply A5 in Hf. rewrite (proj1 M0) in Hf. now apply B1.
    + apply in_app_or in Hf. destruct Hf as [Hf|Hf]; [destruct (B5 _ _ Hf)|apply in_surface in Hf; decompose [or ex and] Hf; discriminate].
  - intros o r Hp. apply (bin_values_later s s1 f2 _ h2 h2); auto; [now apply frame_ik| |intros x Hx; do 4 right; apply in_or_app; right; apply in_or_app; auto|apply extends_refl].
    apply M1. apply (PG2 _ _ Hp).
Qed.
(** No placement: the object has no pose in its bin at any of the four angles that is clear of the fixed bodies *)
Definition no_pose_in_bin (s : sim) (o r : nat) : Prop := forall theta v, four_angles theta -> d_result (place_at o r theta) = Some v ->
  exists b, In b fixed /\ touch o b v (joints_at s o) (pose_at s b) (joints_at s b) = true.
Lemma stable_none b draws : Forall valid_draw draws -> ~ In b fixed -> forall s, stable_next touch fixed [] b s draws = None ->
  forall d v, In d draws -> d_result d = Some v -> exists x, In x fixed /\ touch b x v (joints_at s b) (pose_at s x) (joints_at s x) = true.
Proof.
  intros V Nb. induction draws as [|d0 draws IH]; intros s H d v I R; [destruct I|]. inversion V as [|y z V1 V2]; subst. cbn [stable_next] in H. rewrite app_nil_r in H.
  assert (Later : stable_next touch fixed [] b (set_pose s b (d_left d0)) draws = None -> In d draws -> exists x, In x fixed /\ touch b x v (joints_at s b) (pose_at s x) (joints_at s x) = true).
  { intros H0 I0. destruct (IH V2 _ H0 d v I0 R) as (x & Hx & E). exists x. split; auto. cbn [set_pose joints_at pose_at] in E. rewrite put_other in E; auto. intros ->. auto. }
  destruct (d_result d0) as [q|] eqn:R0.
  - destruct (existsb (collides touch (set_pose s b (d_left d0)) b) fixed) eqn:X; [|discriminate]. destruct I as [<-|I]; [|auto].
    rewrite R in R0. injection R0 as <-. apply existsb_exists in X. destruct X as (x & Hx & E). exists x. split; auto. unfold collides in E. cbn [set_pose joints_at pose_at] in E.
    rewrite put_same, put_other in E by (intros ->; auto). now rewrite (V1 v R) in E.
  - destruct I as [<-|I]; [congruence|auto].
Qed.
Lemma describe_grasps movable : forall s h grasps facts s' h' grasps', describe_ movable s h grasps = Problem (facts, s', h', grasps') ->
  incl grasps grasps' /\ forall b, In b movable -> exists g, In (b, g) grasps'.
Proof.
  induction movable as [|b movable IH]; intros s h grasps facts s' h' grasps' H; cbn [describe] in H.
  - injection H as <- <- <- <-. split; [apply incl_refl|intros b []].
  - destruct (new_grasp h (grasp_of b)) as [g h1]. destruct (new_pose h1 (pose_at s b)) as [p h2].
    destruct (get_ik_fn touch ik s robot (pose_at s b) (grasp_of b) fixed true (samples0 b)) as [[c|] s1]; [|discriminate].
    destruct (new_conf h2 (configuration c)) as [q h3].
    destruct (describe_ movable s1 h3 (grasps ++ [(b, g)])) as [[[[f2 s2] h4] gr2]| |] eqn:D; try discriminate. injection H as <- <- <- <-.
    destruct (IH _ _ _ _ _ _ _ D) as [I1 I2]. split; [intros x Hx; apply I1, in_or_app; auto|]. intros x [<-|Hx]; [|auto]. exists g. apply I1, in_or_app. right. now left.
Qed.
Lemma describe_no_assertion movable : forall s h grasps, describe_ movable s h grasps <> AssertionError.
Proof.
  induction movable as [|b movable IH]; intros s h grasps H; cbn [describe] in H; [discriminate|].
  destruct (new_grasp h (grasp_of b)) as [g h1]. destruct (new_pose h1 (pose_at s b)) as [p h2].
  destruct (get_ik_fn touch ik s robot (pose_at s b) (grasp_of b) fixed true (samples0 b)) as [[c|] s1]; [|discriminate].
  destruct (new_conf h2 (configuration c)) as [q h3].
  destruct (describe_ movable s1 h3 (grasps ++ [(b, g)])) as [[[[f2 s2] h4] gr2]| |] eqn:D; try discriminate. exact (IH _ _ _ D).
Qed.
Lemma insertions_fail pairs : forall s h grasps, (forall b k, In (b, k) pairs -> proper_grasp b /\ exists g, In (b, g) grasps) ->
  insertions_ pairs s h grasps = AssertionError -> exists o r, In (o, r) pairs /\ no_pose_in_bin s o r.
Proof.
  induction pairs as [|[b k] pairs IH]; intros s h grasps PG H; cbn [insertions] in H; [discriminate|].
  destruct (PG b k (or_introl eq_refl)) as ((_ & _ & _ & PB4 & PB5) & g & Hg).
  destruct (find (fun x => (fst x =? b)%nat) grasps) as [[b' g']|] eqn:Fg.
  2: { apply (find_none _ _ Fg) in Hg. simpl in Hg. now rewrite Nat.eqb_refl in Hg. }
  assert (VD : Forall valid_draw (map (place_at b k) fixed_thetas)) by (apply Forall_forall; intros d Hd; apply in_map_iff in Hd; destruct Hd as (t & <- & _); apply DRAWS).
  destruct (stable_next touch fixed [] b s (map (place_at b k) fixed_thetas)) as [[[post s1] rest]|] eqn:St.
  2: { exists b, k. split; [now left|]. intros theta v Ht R. apply (stable_none b _ VD PB5 s St (place_at b k theta)); auto. apply in_map, thetas_four, Ht. }
  destruct (stable_sound touch robot fixed [] b _ VD _ _ _ _ St) as ([MA MB] & _).
  assert (Fr1 : frame s s1). { split; [apply MA; intros [X|[]]; auto|]. intros x Hx. split; [apply MA; intros [X|[]]; subst; auto|apply MB; intros ->; auto]. }
  destruct (new_pose h (p_pose post)) as [post_id h1]. destruct (new_pose h1 (multiply preinsert_offset (p_pose post))) as [pre_id h2].
  destruct (get_ik_fn touch ik s1 robot (multiply preinsert_offset (p_pose post)) (grasp_of b) fixed true (samples_pre b)) as [c1 s2] eqn:K1.
  destruct (get_ik_fn touch ik s2 robot (p_pose post) (grasp_of b) fixed true (samples_post b)) as [c2 s3] eqn:K2.
  destruct (ik_sound link_pose touch ik IK _ _ _ _ _ _ _ _ _ NF K1) as [M1 _]. destruct (ik_sound link_pose touch ik IK _ _ _ _ _ _ _ _ _ NF K2) as [M2 _].
  destruct c1 as [c1|]; [|discriminate]. destruct c2 as [c2|]; [|discriminate].
  destruct (new_conf h2 (configuration c1)) as [q1 h3]. destruct (new_conf h3 (configuration c2)) as [q2 h4].
  destruct (insertions_ pairs s3 h4 grasps) as [[[f2 t2] h5]| |] eqn:D; try discriminate.
  destruct (IH _ _ _ (fun x y Hx => PG x y (or_intror Hx)) D) as (o & r & I & N). exists o, r. split; [now right|].
  intros theta v Ht R. destruct (N theta v Ht R) as (x & Hx & E). exists x. split; auto.
  assert (Fr : frame s s3) by (eapply frame_trans; [exact Fr1|eapply frame_trans; apply frame_ik; eauto]). destruct Fr as [_ Fr]. destruct (Fr x Hx) as [F1 F2]. rewrite <- F1, <- F2.
  destruct (PG o r (or_intror I)) as ((_ & _ & _ & PO & _) & _). destruct M1 as [_ M1], M2 as [_ M2]. rewrite M2, M1, MB in E by auto. exact E.
Qed.
(** The assertion of pddlstream_from_problem fails only when some object has no pose in its bin. *)
Theorem problem_assertion : forall movable s, Forall proper_grasp movable -> problem movable s = AssertionError ->
  exists o r, In (o, r) (combine movable (filter is_sink fixed)) /\ no_pose_in_bin s o r.
Proof.
  intros movable s PG H. unfold pddlstream_from_problem in H. cbn [new_conf st_next st_poses st_confs st_grasps] in H.
  set (s0 := set_joint_positions s robot default_arm_pos) in *. set (h0 := Store [] _ [] 1) in H.
  assert (OK0 : store_ok h0). { split; [|split]; (split; [repeat constructor; intros []|]); simpl; try contradiction. intros x [<-|[]]. lia. }
  assert (M0 : only_robot_moved robot s s0) by apply moved_set.
  destruct (describe_ movable s0 h0 []) as [[[[f1 s1] h1] gr]| |] eqn:D; [|discriminate|exfalso; exact (describe_no_assertion _ _ _ _ D)].
  destruct (describe_values _ _ _ _ _ _ _ _ PG OK0 D) as (_ & _ & A3 & _). destruct (describe_grasps _ _ _ _ _ _ _ _ D) as [_ G].
  destruct (insertions_ (combine movable (filter is_sink fixed)) s1 h1 gr) as [[[f2 s2] h2]| |] eqn:E; try discriminate.
  pose proof (moved_trans robot _ _ _ M0 A3) as M1.
  destruct (insertions_fail _ _ _ _ (fun b k Hb => conj (proj1 (Forall_forall _ _) PG b (in_combine_l _ _ _ _ Hb)) (G b (in_combine_l _ _ _ _ Hb))) E) as (o & r & I & N).
  exists o, r. split; auto. intros theta v Ht R. destruct (N theta v Ht R) as (x & Hx & T). exists x. split; auto.
  destruct (frame_ik s s1 M1) as [_ Fr]. destruct (Fr x Hx) as [F1 F2]. rewrite <- F1, <- F2. destruct M1 as [_ M1]. rewrite <- (M1 o); auto.
  rewrite Forall_forall in PG. apply (PG o (in_combine_l _ _ _ _ I)).
Qed.
(** the values of the numbers *)
Definition value_of {A} (d : A) (l : list (nat * A)) (n : nat) : A := match find (fun x => fst x =? n)%nat l with Some (_, a) => a | None => d end.
Lemma value_of_in {A} (d : A) n l k a : one_each n l -> In (k, a) l -> value_of d l k = a.
Proof.
  intros [N _] H. unfold value_of. destruct (find (fun x => (fst x =? k)%nat) l) as [[k' a']|] eqn:Fd.
  - apply find_some in Fd. destruct Fd as [I E]. simpl in E. apply Nat.eqb_eq in E. subst k'. clear - N H I. induction l as [|[x y] l IH]; [destruct H|]. simpl in N. inversion N; subst.
    destruct H as [H|H], I as [I|I]; [congruence| | |auto]; exfalso; apply H2; [injection H as -> ->|injection I as -> ->]; apply in_map_iff; eexists (_, _); split; eauto; reflexivity.
  - exfalso. apply (find_none _ _ Fd) in H. simpl in H. rewrite Nat.eqb_refl in H. discriminate.
Qed.
(** the hypothesis of C123 on Kin facts holds of the problem *)
Theorem problem_provides_kin : forall movable s l h F, Forall proper_grasp movable -> (forall b, In b movable -> approach_pose (grasp_of b) = approach_top) ->
  problem movable s = Problem (l, h) -> facts_of l F ->
  let grasp_at := value_of (grasp_of 0) (st_grasps h) in
  forall o p g q, Kin F o p g q = true -> g_body (grasp_at g) = o /\ g_robot (grasp_at g) = robot /\ o <> robot /\
    held_at link_pose (grasp_at g) (value_of [] (st_confs h) q) = above 1 (value_of unit_pose (st_poses h) p).
Proof.
  intros movable s l h F PG AP H FO grasp_at o p g q K. apply (fo_kin _ _ FO) in K. destruct (problem_values _ _ _ _ PG H) as ((O1 & O2 & O3) & V & _). destruct (V _ _ _ _ K) as [(pv & qv & A & B & C & D & _) Mo].
  rewrite Forall_forall in PG. destruct (PG o Mo) as (P1 & P2 & P3 & P4 & _). unfold grasp_at. rewrite (value_of_in _ _ _ _ _ O3 C), (value_of_in _ _ _ _ _ O1 A), (value_of_in _ _ _ _ _ O2 B).
  split; auto. split; auto. split; auto. rewrite D, AP by auto. apply above_approach.
Qed.
End Problem.
