(** A concrete world for C124-C126: the gantry of PrimEx_Props (body 0), a stove (1), bins (2, 3) and two objects (5, 6)
    that touch when they are closer than ten centimetres.  It gives the examples and the witness of C124. *)
From Coq Require Import Reals Lra Lia List Bool Arith.
From Verif Require Import Strips Space Pose Kuka_Model Kuka_Props Prim_Model PrimGrasp_Props Prim_Props PrimInsert_Props PrimEx_Props PrimTask_Props.
Import ListNotations.
Local Open Scope R_scope.

Definition crowd (a b : nat) (p : pose) (c : jconf) (p' : pose) (c' : jconf) : bool :=
  if Rlt_dec (Rabs (px (point p) - px (point p'))) (1/10) then (3 <? a)%nat && (3 <? b)%nat else false.
Lemma crowd_low a b p c p' c' : (a <= 3 \/ b <= 3)%nat -> crowd a b p c p' c' = false.
Proof.
  intro H. unfold crowd. destruct (Rlt_dec _ _); auto. destruct (3 <? a)%nat eqn:A; auto. destruct (3 <? b)%nat eqn:B; auto. apply Nat.ltb_lt in A, B. lia.
Qed.
Lemma crowd_fixed s b l : (forall x, In x l -> (x <= 3)%nat) -> existsb (collides crowd s b) l = false.
Proof. induction l as [|x l IH]; intro H; auto. simpl. unfold collides at 1. rewrite crowd_low by (right; apply H; now left). apply IH. intros; apply H; now right. Qed.
Lemma crowd_robot s l : existsb (collides crowd s 0) l = false.
Proof. induction l as [|x l IH]; auto. simpl. unfold collides at 1. rewrite crowd_low by (left; lia). exact IH. Qed.
Opaque box_grasp approach_target.
Lemma crowd_ik s p o fixed rnd sample : rot p = eye -> ~ In 0%nat fixed ->
  exists s', get_ik_fn crowd gantry_ik s 0 p (the_grasp o) fixed rnd sample = (Some (ik_result p o), s') /\ only_robot_moved 0 s s'.
Proof.
  intros E N. destruct (get_ik_fn crowd gantry_ik s 0 p (the_grasp o) fixed rnd sample) as [c s'] eqn:K. exists s'.
  pose proof (ik_sound gantry crowd gantry_ik gantry_exact _ _ _ _ _ _ _ _ _ N K) as [M _]. split; auto. f_equal.
  enough (fst (get_ik_fn crowd gantry_ik s 0 p (the_grasp o) fixed rnd sample) = Some (ik_result p o)) as X by (rewrite K in X; exact X). clear K M c s'.
  unfold get_ik_fn, num_attempts. change (approach_from_grasp (approach_pose (the_grasp o)) (end_effector_from_body p (grasp_pose (the_grasp o)))) with (approach_target p (the_grasp o)).
  change (seq 0 10) with (0%nat :: seq 1 9). generalize (seq 1 9). intro rest. cbn [ik_attempts the_grasp g_link].
  set (q0 := joints_at _ 0%nat). clearbody q0. set (s0 := if rnd then _ else _). clearbody s0.
  assert (K : gantry_ik 0 q0 7 (approach_target p (the_grasp o)) = (Some (coords (point (approach_target p (the_grasp o)))), coords (point (approach_target p (the_grasp o))))).
  { unfold gantry_ik. destruct (mat_eq_dec (rot (approach_target p (the_grasp o))) tool_rot) as [X|X]; [reflexivity|]. exfalso. apply X. exact (target_rot p o E). }
  rewrite K, crowd_robot. reflexivity.
Qed.

(** *** C124 *)
Definition at_x (x : R) : pose := shift (x, 0, 1/10).
Definition drawn (x : R) : draw := Draw (Some (at_x x)) (at_x x).
Notation samples_any := (fun _ : nat => [] : jconf).
(** the second object is drawn onto the first one, then beside it *)
Definition rounds_ex : list round := [([drawn (1/2)], samples_any); ([Draw None unit_pose; drawn (11/20); drawn (1/4)], samples_any)].
Lemma crowd_near x y a b c c' : Rabs (x - y) < 1/10 -> crowd a b (at_x x) c (at_x y) c' = ((3 <? a)%nat && (3 <? b)%nat)%bool.
Proof. intro H. unfold crowd, at_x, shift, px. cbn [point fst]. destruct (Rlt_dec _ _); [reflexivity|contradiction]. Qed.
Lemma crowd_far x y a b c c' : 1/10 <= Rabs (x - y) -> crowd a b (at_x x) c (at_x y) c' = false.
Proof. intro H. unfold crowd, at_x, shift, px. cbn [point fst]. destruct (Rlt_dec _ _); [lra|reflexivity]. Qed.
Example placement_ex : valid_rounds rounds_ex /\ exists s', place_all crowd gantry_ik 0 the_grasp [1; 2; 3]%nat [] [5; 6]%nat sim0 rounds_ex = Some s' /\ pose_at s' 5 = at_x (1/2) /\ pose_at s' 6 = at_x (1/4).
Proof.
  assert (F3 : forall x, In x [1; 2; 3]%nat -> (x <= 3)%nat) by (intros x [<-|[<-|[<-|[]]]]; lia). assert (N0 : ~ In 0%nat [1; 2; 3]%nat) by (intros [X|[X|[X|[]]]]; discriminate).
  split.
  - repeat constructor; intros p X; try discriminate; injection X as <-; reflexivity.
  - unfold rounds_ex. cbn [place_all place_one]. unfold drawn at 1. cbn [stable_next d_result d_left]. rewrite crowd_fixed by (rewrite app_nil_r; auto). cbn [p_pose].
    set (s1 := set_pose (set_pose sim0 5 (at_x (1/2))) 5 (at_x (1/2))).
    destruct (crowd_ik s1 (at_x (1/2)) 5 [1; 2; 3]%nat true samples_any eq_refl N0) as (s2 & K & M). rewrite K. cbn [place_all place_one app stable_next d_result d_left drawn].
    assert (P5 : pose_at s2 5 = at_x (1/2)) by (rewrite (proj1 M); reflexivity).
    set (s3 := set_pose (set_pose s2 6 unit_pose) 6 (at_x (11/20))).
    assert (X1 : existsb (collides crowd s3 6) [1; 2; 3; 5]%nat = true).
    { apply existsb_exists. exists 5%nat. split; [simpl; auto 6|]. unfold collides. replace (pose_at s3 6) with (at_x (11/20)) by reflexivity. replace (pose_at s3 5) with (at_x (1/2)) by (symmetry; exact P5).
      rewrite crowd_near; [reflexivity|]. rewrite Rabs_right; lra. }
    rewrite X1. set (s4 := set_pose s3 6 (at_x (1/4))).
    assert (X2 : existsb (collides crowd s4 6) [1; 2; 3; 5]%nat = false).
    { change [1; 2; 3; 5]%nat with ([1; 2; 3] ++ [5])%nat. rewrite existsb_app, crowd_fixed by auto. cbn [existsb]. unfold collides. replace (pose_at s4 6) with (at_x (1/4)) by reflexivity. replace (pose_at s4 5) with (at_x (1/2)) by (symmetry; exact P5).
      rewrite crowd_far; [reflexivity|]. rewrite Rabs_left; lra. }
    rewrite X2. cbn [p_pose].
    destruct (crowd_ik (set_pose s4 6 (at_x (1/4))) (at_x (1/4)) 6 [1; 2; 3]%nat true samples_any eq_refl N0) as (s5 & K5 & M5). rewrite K5.
    exists s5. split; [reflexivity|]. destruct M5 as [M5 _]. rewrite !M5. split; [exact P5|reflexivity].
Qed.
(** The loop need not end: on a surface with room for one object it draws for the second one for ever. *)
Theorem placement_ends_refuted : exists touch ik robot grasp_of fixed radishes s (on_surface : pose -> Prop),
  (exists link_pose, ik_exact link_pose ik) /\
  (exists p, on_surface p) /\
  (forall r p, In r radishes -> on_surface p -> exists rounds s', Forall (fun x => Forall (fun d => valid_draw d /\ forall p, d_result d = Some p -> on_surface p) (fst x)) rounds /\
     place_all touch ik robot grasp_of fixed [] [r] s rounds = Some s') /\
  forall rounds, Forall (fun x => Forall (fun d => valid_draw d /\ forall p, d_result d = Some p -> on_surface p) (fst x)) rounds ->
    place_all touch ik robot grasp_of fixed [] radishes s rounds = None.
Proof.
  set (surface := fun p => exists x, 0 <= x <= 5/100 /\ p = at_x x).
  assert (F3 : forall x, In x [1; 2; 3]%nat -> (x <= 3)%nat) by (intros x [<-|[<-|[<-|[]]]]; lia). assert (N0 : ~ In 0%nat [1; 2; 3]%nat) by (intros [X|[X|[X|[]]]]; discriminate).
  exists crowd, gantry_ik, 0%nat, the_grasp, [1; 2; 3]%nat, [5; 6]%nat, sim0, surface. split; [exists gantry; exact gantry_exact|]. split; [exists (at_x 0), 0; split; [lra|reflexivity]|]. split.
  - intros r p Hr (x & Hx & ->). exists [([drawn x], samples_any)].
    destruct (crowd_ik (set_pose (set_pose sim0 r (at_x x)) r (at_x x)) (at_x x) r [1; 2; 3]%nat true samples_any eq_refl N0) as (s2 & K & _). exists s2.
    split; [repeat constructor; intros p X; injection X as <-; [reflexivity|exists x; auto]|].
    cbn [place_all place_one drawn stable_next d_result d_left]. rewrite crowd_fixed by (rewrite app_nil_r; auto). cbn [p_pose]. rewrite K. reflexivity.
  - intros rounds V.
    assert (V' : valid_rounds rounds). { unfold valid_rounds. eapply Forall_impl; [|exact V]. intros x Hx. eapply Forall_impl; [|exact Hx]. simpl. tauto. }
    destruct (place_all crowd gantry_ik 0 the_grasp [1; 2; 3]%nat [] [5; 6]%nat sim0 rounds) as [s'|] eqn:H; auto. exfalso.
    destruct (placement_sound gantry crowd gantry_ik gantry_exact 0 the_grasp [1; 2; 3]%nat [5; 6]%nat rounds sim0 s') as [_ W]; auto.
    + intros [X|[X|[]]]; discriminate.
    + repeat constructor; simpl; intuition discriminate.
    + intros r [<-|[<-|[]]] [X|[X|[X|[]]]]; discriminate.
    + assert (S : forall r before after, [5; 6]%nat = before ++ r :: after -> surface (pose_at s' r)).
      { intros r before after E. destruct (wp_drawn _ _ _ _ _ _ _ _ _ (W _ _ _ E)) as (draws & sample & d & H1 & H2 & H3). rewrite Forall_forall in V. specialize (V _ H1). simpl in V. rewrite Forall_forall in V. now apply (V d H2). }
      destruct (S 5%nat [] [6%nat] eq_refl) as (x & Hx & Ex). destruct (S 6%nat [5%nat] [] eq_refl) as (y & Hy & Ey).
      pose proof (wp_clear _ _ _ _ _ _ _ _ _ (W [5%nat] 6%nat [] eq_refl) 5%nat) as C. unfold collides in C. rewrite Ex, Ey, crowd_near in C by (apply Rabs_def1; lra). simpl in C. discriminate C. auto 6.
Qed.
Print Assumptions placement_sound.
Print Assumptions placement_ends_refuted.

(** *** C125, C126 *)
(** what the facts and streams that always answer give to the planner *)
Definition mem_fact (f : fact) (l : list fact) : bool := existsb (fun x => match f, x with
  | FConf q, FConf q' => (q =? q')%nat
  | FGrasp o g, FGrasp o' g' => (o =? o') && (g =? g')
  | FKin o p g q, FKin o' p' g' q' => (o =? o') && (p =? p') && (g =? g') && (q =? q')
  | FStackable o r, FStackable o' r' => (o =? o') && (r =? r')
  | FSupported o p r, FSupported o' p' r' => (o =? o') && (p =? p') && (r =? r')
  | FPreInsert q, FPreInsert q' => (q =? q')
  | FPostInsert q, FPostInsert q' => (q =? q')
  | FSink r, FSink r' => (r =? r')
  | FStove r, FStove r' => (r =? r')
  | _, _ => false end)%nat l.
Definition facts_from (l : list fact) : facts := {|
  poses := flat_map (fun f => match f with FPose o p => [p] | _ => [] end) l;
  Stackable := fun o r => mem_fact (FStackable o r) l;
  Sink := fun r => mem_fact (FSink r) l;
  Stove := fun r => mem_fact (FStove r) l;
  Kin := fun o p g q => mem_fact (FKin o p g q) l;
  FreeMotion := fun q1 t q2 => mem_fact (FConf q1) l && mem_fact (FConf q2) l;
  HoldingMotion := fun q1 t q2 o g => mem_fact (FConf q1) l && mem_fact (FConf q2) l && mem_fact (FGrasp o g) l && mem_fact (FPreInsert q2) l;
  InsertMotion := fun q1 t q2 o g => mem_fact (FConf q1) l && mem_fact (FConf q2) l && mem_fact (FGrasp o g) l && mem_fact (FPreInsert q1) l && mem_fact (FPostInsert q2) l;
  Supported := fun o p r => mem_fact (FSupported o p r) l |}.
Lemma mem_fact_in f l : match f with FConf _ | FGrasp _ _ | FKin _ _ _ _ | FStackable _ _ | FSupported _ _ _ | FPreInsert _ | FPostInsert _ | FSink _ | FStove _ => True | _ => False end ->
  mem_fact f l = true <-> In f l.
Proof.
  intro T. unfold mem_fact. rewrite existsb_exists. split.
  - intros (x & Hx & E). destruct f, x; try discriminate; try contradiction;
      repeat match goal with H : (_ && _)%bool = true |- _ => apply andb_true_iff in H; destruct H | H : (_ =? _)%nat = true |- _ => apply Nat.eqb_eq in H end; subst; auto.
  - intro H. exists f. split; auto. destruct f; try contradiction; now rewrite ?Nat.eqb_refl.
Qed.
Lemma facts_from_of l : facts_of l (facts_from l).
Proof.
  constructor; intros; cbn [facts_from poses Stackable Sink Stove Kin FreeMotion HoldingMotion InsertMotion Supported] in *;
    try (now apply mem_fact_in); repeat match goal with H : (_ && _)%bool = true |- _ => apply andb_true_iff in H; destruct H | H : mem_fact _ _ = true |- _ => apply mem_fact_in in H; [|exact I] end; auto.
  rewrite in_flat_map. split.
  - intros (f & Hf & X). destruct f; try contradiction. destruct X as [<-|[]]. eauto.
  - intros (o & Ho). exists (FPose o p). split; auto. now left.
Qed.
Definition sim_two : sim := Sim (fun _ => []) (fun b => if (b =? 5)%nat then at_x (1/2) else if (b =? 6)%nat then at_x (1/4) else unit_pose).
Definition bin_draw (b k : nat) (theta : R) : draw := Draw (Some (at_x (- INR k))) (at_x (- INR k)).
Definition problem_of (sinks : list nat) : list nat -> sim -> outcome (list fact * store) :=
  pddlstream_from_problem crowd gantry_ik 0 the_grasp (fun r => mem r sinks) (fun r => (r =? 1)%nat) (fun _ _ _ => false) (fun _ => samples_any) (fun _ => samples_any) (fun _ => samples_any) bin_draw [1; 2; 3]%nat.
Lemma describe_total l : forall s h grasps, (forall b, In b l -> rot (pose_at s b) = eye) -> forall sinks,
  exists facts s' h', describe crowd gantry_ik 0 the_grasp (fun r => mem r sinks) (fun _ _ _ => false) (fun _ => samples_any) [1; 2; 3]%nat l s h grasps = Problem (facts, s', h', grasps ++ entries (st_next h) l).
Proof.
  assert (F3 : forall x, In x [1; 2; 3]%nat -> (x <= 3)%nat) by (intros x [<-|[<-|[<-|[]]]]; lia). assert (N0 : ~ In 0%nat [1; 2; 3]%nat) by (intros [X|[X|[X|[]]]]; discriminate).
  induction l as [|b l IH]; intros s h grasps H sinks; [eexists _, _, _; simpl; rewrite app_nil_r; reflexivity|].
  cbn [describe]. unfold new_grasp, new_pose, new_conf. cbn [st_next].
  destruct (crowd_ik s (pose_at s b) b [1; 2; 3]%nat true samples_any (H b (or_introl eq_refl)) N0) as (s1 & K & M). rewrite K.
  match goal with |- context [describe _ _ _ _ _ _ _ _ l s1 ?h ?g] => destruct (IH s1 h g (fun x Hx => eq_trans (f_equal rot (proj1 M x)) (H x (or_intror Hx))) sinks) as (f & s' & h' & E) end.
  rewrite E. eexists _, _, _. cbn [st_next entries]. rewrite <- app_assoc. replace (st_next h + 3)%nat with (S (S (S (st_next h)))) by lia. reflexivity.
Qed.
Lemma insertions_total l : forall s h grasps, (forall b k, In (b, k) l -> exists g, find (fun x => (fst x =? b)%nat) grasps = Some (b, g)) ->
  exists facts s' h', insertions crowd gantry_ik 0 the_grasp (fun _ => samples_any) (fun _ => samples_any) bin_draw [1; 2; 3]%nat l s h grasps = Problem (facts, s', h').
Proof.
  assert (F3 : forall x, In x [1; 2; 3]%nat -> (x <= 3)%nat) by (intros x [<-|[<-|[<-|[]]]]; lia). assert (N0 : ~ In 0%nat [1; 2; 3]%nat) by (intros [X|[X|[X|[]]]]; discriminate).
  induction l as [|[b k] l IH]; intros s h grasps H; [eexists _, _, _; reflexivity|].
  cbn [insertions]. destruct (H b k (or_introl eq_refl)) as (g & ->). unfold fixed_thetas. cbn [map stable_next bin_draw d_result d_left]. rewrite crowd_fixed by (rewrite app_nil_r; auto).
  unfold new_pose, new_conf. cbn [st_next p_pose].
  match goal with |- context [get_ik_fn crowd gantry_ik ?s 0 (multiply preinsert_offset ?p)] => destruct (crowd_ik s (multiply preinsert_offset p) b [1; 2; 3]%nat true samples_any (eq_trans (f_equal rot (multiply_shift _ _)) eq_refl) N0) as (s1 & K1 & _) end. rewrite K1.
  destruct (crowd_ik s1 (at_x (- INR k)) b [1; 2; 3]%nat true samples_any eq_refl N0) as (s2 & K2 & _). rewrite K2.
  match goal with |- context [insertions _ _ _ _ _ _ _ _ l s2 ?h grasps] => destruct (IH s2 h grasps (fun x y Hx => H x y (or_intror Hx))) as (f & s' & h' & E) end. rewrite E. eexists _, _, _. reflexivity.
Qed.
Lemma problem_total sinks : exists l h, problem_of sinks [5; 6]%nat sim_two = Problem (l, h).
Proof.
  unfold problem_of, pddlstream_from_problem. cbn [new_conf st_next st_poses st_confs st_grasps].
  match goal with |- context [describe _ _ _ _ _ _ _ _ _ ?s ?h ?g] => destruct (describe_total [5; 6]%nat s h g) with (sinks := sinks) as (f & s' & h' & E) end.
  { intros b [<-|[<-|[]]]; reflexivity. }
  rewrite E. match goal with |- context [insertions _ _ _ _ _ _ _ _ ?l ?s ?h ?g] => destruct (insertions_total l s h g) as (f2 & s2 & h2 & E2) end.
  { intros b k Hb. apply in_combine_l in Hb. destruct Hb as [<-|[<-|[]]]; eexists; reflexivity. }
  rewrite E2. eexists _, _. reflexivity.
Qed.
Lemma off_ex sinks : off_sinks 0 (fun r => mem r sinks) (fun _ _ _ => false) [1; 2; 3]%nat sim_two [5; 6]%nat.
Proof. intros s' b r _ _ _ _. reflexivity. Qed.
(** two objects and two bins: a shortest plan has 17 actions *)
Example problem_ex : exists l h, problem_of [2; 3]%nat [5; 6]%nat sim_two = Problem (l, h) /\ facts_of l (facts_from l) /\ streams_answer l (facts_from l) /\
  exists plan t, length plan = 17%nat /\ run (facts_from l) (initial l) plan = Some t /\ goal_holds [5; 6]%nat t.
Proof.
  assert (ND : NoDup [5; 6]%nat) by (repeat constructor; simpl; intuition discriminate).
  assert (N0 : ~ In 0%nat [1; 2; 3]%nat) by (intros [X|[X|[X|[]]]]; discriminate).
  destruct (problem_total [2; 3]%nat) as (l & h & E). exists l, h. split; auto. split; [apply facts_from_of|].
  assert (PE : l = basic_facts ++ flat_map (own_facts (fun r => mem r [2; 3]%nat) [1; 2; 3]%nat) (mk_items 1 7 [5; 6]%nat [2; 3]%nat) ++
      flat_map bin_facts (mk_items 1 7 [5; 6]%nat [2; 3]%nat) ++ surface_facts (fun r => mem r [2; 3]%nat) (fun r => (r =? 1)%nat) [1; 2; 3]%nat).
  { apply (problem_items gantry crowd gantry_ik gantry_exact 0 the_grasp (fun r => mem r [2; 3]%nat) (fun r => (r =? 1)%nat) (fun _ _ _ => false) (fun _ => samples_any) (fun _ => samples_any) (fun _ => samples_any) bin_draw [1; 2; 3]%nat N0 [5; 6]%nat sim_two l h ND (le_n 2) (off_ex _) E). }
  assert (SA : streams_answer l (facts_from l)).
  { assert (CF : forall o p g q, In (FKin o p g q) l -> In (FConf q) l /\ In (FGrasp o g) l).
    { intros o p g q H. rewrite PE in H. apply kin_fact in H. destruct H as (it & Hi & -> & -> & H). rewrite PE. split; apply in_facts; right; left; exists it; rewrite in_own, in_bin; split; auto; destruct H as [[-> ->]|[[-> ->]|[-> ->]]]; auto 14. }
    constructor; intros; exists 0%nat; cbn [facts_from FreeMotion HoldingMotion InsertMotion]; rewrite !andb_true_iff.
    - split; apply mem_fact_in; auto; exact I.
    - destruct (CF _ _ _ _ H0). repeat split; apply mem_fact_in; auto; exact I.
    - destruct (CF _ _ _ _ H), (CF _ _ _ _ H1). repeat split; apply mem_fact_in; auto; exact I. }
  split; auto.
  destruct (problem_shortest_plan gantry crowd gantry_ik gantry_exact 0 the_grasp (fun r => mem r [2; 3]%nat) (fun r => (r =? 1)%nat) (fun _ _ _ => false) (fun _ => samples_any) (fun _ => samples_any) (fun _ => samples_any) bin_draw [1; 2; 3]%nat N0 [5; 6]%nat sim_two l h (facts_from l) ltac:(discriminate) ND (le_n 2) (off_ex _) E (facts_from_of l) SA) as [(plan & t & P1 & P2 & P3) _].
  exists plan, t. auto.
Qed.
(** two objects and one bin: the problem is built without complaint, and has no plan *)
Theorem problem_solvable_refuted : exists touch ik robot grasp_of is_sink is_stove is_placement samples0 samples_pre samples_post place_at fixed movable s l h F link_pose,
  ik_exact link_pose ik /\ ~ In robot fixed /\ NoDup movable /\ off_sinks robot is_sink is_placement fixed s movable /\
  pddlstream_from_problem touch ik robot grasp_of is_sink is_stove is_placement samples0 samples_pre samples_post place_at fixed movable s = Problem (l, h) /\
  facts_of l F /\ (forall q1 q2, In (FConf q1) l -> In (FConf q2) l -> exists t, FreeMotion F q1 t q2 = true) /\
  forall plan t, run F (initial l) plan = Some t -> ~ goal_holds movable t.
Proof.
  assert (ND : NoDup [5; 6]%nat) by (repeat constructor; simpl; intuition discriminate).
  assert (N0 : ~ In 0%nat [1; 2; 3]%nat) by (intros [X|[X|[X|[]]]]; discriminate).
  destruct (problem_total [2]%nat) as (l & h & E).
  exists crowd, gantry_ik, 0%nat, the_grasp, (fun r => mem r [2%nat]), (fun r => (r =? 1)%nat), (fun _ _ _ => false), (fun _ => samples_any), (fun _ => samples_any), (fun _ => samples_any), bin_draw, [1; 2; 3]%nat, [5; 6]%nat, sim_two, l, h, (facts_from l), gantry.
  split; [exact gantry_exact|]. split; auto. split; auto. split; [apply off_ex|]. split; [exact E|]. split; [apply facts_from_of|].
  split; [intros q1 q2 H1 H2; exists 0%nat; cbn [facts_from FreeMotion]; rewrite andb_true_iff; split; apply mem_fact_in; auto; exact I|].
  intros plan t R.
  exact (too_few_bins_unsolvable gantry crowd gantry_ik gantry_exact 0 the_grasp (fun r => mem r [2%nat]) (fun r => (r =? 1)%nat) (fun _ _ _ => false) (fun _ => samples_any) (fun _ => samples_any) (fun _ => samples_any) bin_draw [1; 2; 3]%nat N0
    [5; 6]%nat sim_two l h (facts_from l) ND (le_n 2) (off_ex _) E (facts_from_of l) plan t R).
Qed.
Example proper_ex : Forall (proper_grasp 0 the_grasp [1; 2; 3]%nat) [5; 6]%nat /\ (forall b k theta, valid_draw (bin_draw b k theta)).
Proof.
  split; [|intros b k theta p X; injection X as <-; reflexivity].
  repeat constructor; try discriminate; try apply box_grasp_rigid; try (intros [X|[X|[X|[]]]]; discriminate).
Qed.
(** a body that stands in the only bin: no angle gives the object a place, and the assertion fails *)
Definition sim_full : sim := Sim (fun _ => []) (fun b => if (b =? 4)%nat then at_x (- 2 + 1/100) else if (b =? 5)%nat then at_x (1/2) else unit_pose).
Example assertion_ex : Forall (proper_grasp 0 the_grasp [1; 2; 4]%nat) [5]%nat /\
  pddlstream_from_problem crowd gantry_ik 0 the_grasp (fun r => mem r [2%nat]) (fun r => (r =? 1)%nat) (fun _ _ _ => false) (fun _ => samples_any) (fun _ => samples_any) (fun _ => samples_any) bin_draw [1; 2; 4]%nat [5]%nat sim_full = AssertionError.
Proof.
  split; [repeat constructor; try discriminate; try apply box_grasp_rigid; try (intros [X|[X|[X|[]]]]; discriminate)|].
  unfold pddlstream_from_problem. cbn [new_conf st_next st_poses st_confs st_grasps describe new_grasp new_pose].
  set (s0 := set_joint_positions sim_full 0 default_arm_pos).
  destruct (crowd_ik s0 (pose_at s0 5) 5 [1; 2; 4]%nat true samples_any eq_refl ltac:(intros [X|[X|[X|[]]]]; discriminate)) as (s1 & K & M). rewrite K.
  change (filter (fun r => mem r [2%nat]) [1; 2; 4]%nat) with [2%nat]. cbn [new_conf st_next st_poses st_confs st_grasps combine insertions app find fst Nat.eqb].
  assert (P4 : pose_at s1 4 = at_x (- 2 + 1/100)) by (rewrite (proj1 M); reflexivity).
  assert (X : forall s, pose_at s 4 = at_x (- 2 + 1/100) -> existsb (collides crowd (set_pose s 5 (at_x (- INR 2))) 5) ([1; 2; 4] ++ [])%nat = true).
  { intros s Hs. apply existsb_exists. exists 4%nat. split; [simpl; auto|]. unfold collides. cbn [set_pose pose_at joints_at]. rewrite put_same, put_other, Hs by discriminate.
    rewrite crowd_near; [reflexivity|]. cbn [INR]. apply Rabs_def1; lra. }
  unfold fixed_thetas. cbn [map bin_draw stable_next d_result d_left]. rewrite !X by exact P4. reflexivity.
Qed.
Print Assumptions problem_assertion.
Print Assumptions problem_is_task.
Print Assumptions problem_shortest_plan.
Print Assumptions too_few_bins_unsolvable.
Print Assumptions problem_solvable_refuted.
Print Assumptions problem_values.
Print Assumptions problem_provides_kin.
