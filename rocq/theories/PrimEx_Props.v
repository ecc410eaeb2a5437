(** A concrete arm for the theorems on kuka_primitives: a gantry whose three joints are the coordinates of the
    tool, whose orientation is the one of a top grasp of a box of 6 cm x 6 cm x 20 cm.  It meets the assumptions
    of Prim_Props and PrimInsert_Props, and gives the witnesses of what is refuted. *)
From Coq Require Import Reals Lra Lia List Bool Arith.
From Verif Require Import Strips Space Pose Kuka_Model Kuka_Props Prim_Model PrimGrasp_Props Prim_Props PrimInsert_Props.
Import ListNotations.
Local Open Scope R_scope.

Definition r3_eq_dec (a b : r3) : {a = b} + {a <> b}.
Proof. decide equality; [apply Req_EM_T|]. decide equality; apply Req_EM_T. Defined.
Definition mat_eq_dec (a b : mat) : {a = b} + {a <> b}.
Proof. decide equality; [apply r3_eq_dec|]. decide equality; apply r3_eq_dec. Defined.
Definition coords (p : r3) : jconf := [px p; py p; pz p].
Definition box_grasp : pose := grasp_at (0, 0, 0) (20/100) 0 (PI / 2 + INR 0 * PI).
Definition tool_rot : mat := transpose (rot box_grasp).
Definition gantry (r : nat) (q : jconf) (k : nat) : pose := mkPose tool_rot (nth 0 q 0, nth 1 q 0, nth 2 q 0).
Definition gantry_ik (r : nat) (c : jconf) (k : nat) (p : pose) : option jconf * jconf :=
  if mat_eq_dec (rot p) tool_rot then (Some (coords (point p)), coords (point p)) else (None, c).
Lemma gantry_coords r k p : rot p = tool_rot -> gantry r (coords (point p)) k = p.
Proof. intro E. destruct p as [m [[x y] z]]. cbn [rot] in E. subst m. reflexivity. Qed.
Lemma gantry_exact : ik_exact gantry gantry_ik.
Proof.
  intros r c k p q left_at H. unfold gantry_ik in H. destruct (mat_eq_dec (rot p) tool_rot) as [E|E]; [|discriminate].
  injection H as <- <-. split; auto. now apply gantry_coords.
Qed.
(** the robot is body 0, its tool is link 7 *)
Definition the_grasp (o : nat) : body_grasp := BodyGrasp o box_grasp approach_top 0 7.
Lemma box_grasp_rigid : rigid box_grasp.
Proof. apply grasp_at_rigid. Qed.
Lemma box_grasp_is_first : hd_error (top_grasps (0, 0, 0) (6/100) (6/100) (20/100)) = Some box_grasp.
Proof. reflexivity. Qed.
Lemma target_rot p o : rot p = eye -> rot (approach_target p (the_grasp o)) = tool_rot.
Proof.
  intro E. unfold approach_target, the_grasp. cbn [approach_pose grasp_pose]. unfold approach_top. rewrite multiply_shift. cbn [rot]. unfold multiply. cbn [rot].
  rewrite E, mulm_eye_l. reflexivity.
Qed.
Lemma gantry_solvable p o : rot p = eye -> solvable gantry_ik 0 (the_grasp o) p.
Proof.
  intros E c. cbn [the_grasp g_link]. unfold gantry_ik. rewrite (target_rot p o E). destruct (mat_eq_dec tool_rot tool_rot) as [X|X]; [discriminate|congruence].
Qed.
(** nothing touches *)
Definition no_touch (a b : nat) (p : pose) (c : jconf) (p' : pose) (c' : jconf) : bool := false.
Definition sim0 : sim := Sim (fun _ => [0; 0; 0]) (fun _ => unit_pose).
Definition ik_result (p : pose) (o : nat) : body_conf := BodyConf 0 (coords (point (approach_target p (the_grasp o)))).
Lemma no_touch_any s b l : existsb (collides no_touch s b) l = false.
Proof. induction l; auto. Qed.
Opaque box_grasp approach_target.
Lemma gantry_ik_fn s p o fixed rnd sample : rot p = eye ->
  fst (get_ik_fn no_touch gantry_ik s 0 p (the_grasp o) fixed rnd sample) = Some (ik_result p o).
Proof.
  intro E. unfold get_ik_fn, num_attempts. change (approach_from_grasp (approach_pose (the_grasp o)) (end_effector_from_body p (grasp_pose (the_grasp o)))) with (approach_target p (the_grasp o)).
  change (seq 0 10) with (0%nat :: seq 1 9). generalize (seq 1 9). intro rest. cbn [ik_attempts the_grasp g_link].
  set (q0 := joints_at _ 0%nat). clearbody q0. set (s0 := if rnd then _ else _). clearbody s0.
  assert (K : gantry_ik 0 q0 7 (approach_target p (the_grasp o)) = (Some (coords (point (approach_target p (the_grasp o)))), coords (point (approach_target p (the_grasp o))))).
  { unfold gantry_ik. destruct (mat_eq_dec (rot (approach_target p (the_grasp o))) tool_rot) as [X|X]; [reflexivity|]. exfalso. apply X. exact (target_rot p o E). }
  rewrite K, no_touch_any. reflexivity.
Qed.
Lemma result_held p o : rot p = eye -> held_at gantry (the_grasp o) (configuration (ik_result p o)) = above 1 p.
Proof.
  intro E. rewrite <- above_approach.
  destruct (get_ik_fn no_touch gantry_ik sim0 0 p (the_grasp o) [] true (fun _ => [])) as [c s'] eqn:K.
  pose proof (gantry_ik_fn sim0 p o [] true (fun _ => []) E) as R. rewrite K in R. cbn [fst] in R. subst c.
  exact (certified_conf_holds gantry no_touch gantry_ik gantry_exact sim0 0 p (the_grasp o) [] true _ _ s' (fun X => X) eq_refl box_grasp_rigid K).
Qed.

(** *** C119 *)
(** A configuration for which the problem asserts Kin(o, p, g, q) does not hold o at p. *)
Theorem kin_conf_holds_pose_refuted : exists link_pose touch ik s robot p g fixed rnd sample c s', ik_exact link_pose ik /\ ~ In robot fixed /\
  g_robot g = robot /\ In (grasp_pose g) (top_grasps (0, 0, 0) (6/100) (6/100) (20/100)) /\ approach_pose g = approach_top /\
  get_ik_fn touch ik s robot p g fixed rnd sample = (Some c, s') /\ held_at link_pose g (configuration c) <> p.
Proof.
  destruct (get_ik_fn no_touch gantry_ik sim0 0 unit_pose (the_grasp 5) [1; 2]%nat true (fun _ => [])) as [c s'] eqn:K.
  pose proof (gantry_ik_fn sim0 unit_pose 5 [1; 2]%nat true (fun _ => []) eq_refl) as R. rewrite K in R. cbn [fst] in R. subst c.
  exists gantry, no_touch, gantry_ik, sim0, 0%nat, unit_pose, (the_grasp 5), [1; 2]%nat, true, (fun _ => []), (ik_result unit_pose 5), s'.
  split; [exact gantry_exact|]. split; [intros [X|[X|[]]]; discriminate|]. split; [reflexivity|]. split; [left; reflexivity|]. split; [reflexivity|]. split; [exact K|].
  rewrite result_held by reflexivity. apply above_neq. lia.
Qed.

(** *** C122 *)
Definition bin_pose : pose := shift (-(68/100), 0, 11/100).
Definition pre_pose : pose := multiply preinsert_offset bin_pose.
Lemma pre_rot : rot pre_pose = eye.
Proof. unfold pre_pose, preinsert_offset, bin_pose. rewrite multiply_shift. reflexivity. Qed.
Definition straight (a b : pose) : option (list pose) := Some [].
Lemma insert_ex_planned : exists command s', insert_fn gantry no_touch gantry_ik 0 straight sim0 (ik_result pre_pose 5) (ik_result bin_pose 5) 5 (the_grasp 5) = Planned command s' /\
  exists cs, command = [body_path_of 0 cs [the_grasp 5]] /\ length cs = 2%nat.
Proof.
  assert (E : forall s p, rot p = eye -> pose_at (assign_grasp gantry (assign_conf s (ik_result p 5)) (the_grasp 5)) 5 = above 1 p).
  { intros s p Rp. rewrite <- (result_held p 5 Rp). unfold assign_grasp. cbn [the_grasp g_body g_robot]. cbn [set_pose pose_at]. rewrite put_same.
    unfold assign_conf. cbn [ik_result c_body configuration set_joint_positions joints_at]. now rewrite put_same. }
  unfold insert_fn, straight. rewrite (E sim0 pre_pose pre_rot), (E _ bin_pose eq_refl). cbn [app].
  set (s2 := assign_grasp _ _ _).
  set (a := above 1 pre_pose). set (b := above 1 bin_pose).
  assert (Ra : rot a = eye). { exact pre_rot. }
  assert (Rb : rot b = eye) by reflexivity.
  cbn [insert_confs].
  destruct (get_ik_fn no_touch gantry_ik (set_pose s2 5 a) 0 a (the_grasp 5) [] false (fun _ => [])) as [c1 s3] eqn:K1.
  pose proof (gantry_ik_fn (set_pose s2 5 a) a 5 [] false (fun _ => []) Ra) as R1. rewrite K1 in R1. cbn [fst] in R1. subst c1.
  destruct (get_ik_fn no_touch gantry_ik (set_pose (assign_grasp gantry s3 (the_grasp 5)) 5 b) 0 b (the_grasp 5) [] false (fun _ => [])) as [c2 s4] eqn:K2.
  pose proof (gantry_ik_fn (set_pose (assign_grasp gantry s3 (the_grasp 5)) 5 b) b 5 [] false (fun _ => []) Rb) as R2. rewrite K2 in R2. cbn [fst] in R2. subst c2.
  eexists _, _. split; [reflexivity|]. eexists. split; reflexivity.
Qed.
(** The trajectory does not lead from its first to its second configuration, and it leaves the object elsewhere. *)
Theorem insert_leads_between_confs_refuted : exists link_pose touch ik robot query s c1 c2 g command s', ik_exact link_pose ik /\
  g_robot g = robot /\ In (grasp_pose g) (top_grasps (0, 0, 0) (6/100) (6/100) (20/100)) /\ approach_pose g = approach_top /\
  (exists p fixed rnd sample t, fst (get_ik_fn touch ik t robot (multiply preinsert_offset p) g fixed rnd sample) = Some c1 /\ fst (get_ik_fn touch ik t robot p g fixed rnd sample) = Some c2 /\
     pose_at (run_command link_pose s command) (g_body g) <> p) /\
  insert_fn link_pose touch ik robot query s c1 c2 (g_body g) g = Planned command s' /\
  ~ follows _ _ _ (configuration c1) command (configuration c2).
Proof.
  destruct insert_ex_planned as (command & s' & P & cs & Ec & _).
  exists gantry, no_touch, gantry_ik, 0%nat, straight, sim0, (ik_result pre_pose 5), (ik_result bin_pose 5), (the_grasp 5), command, s'.
  split; [exact gantry_exact|]. split; [reflexivity|]. split; [left; reflexivity|]. split; [reflexivity|].
  pose proof pre_rot as Rp.
  assert (S1 : solvable gantry_ik 0 (the_grasp 5) (held_at gantry (the_grasp 5) (configuration (ik_result pre_pose 5)))) by (rewrite result_held by auto; apply gantry_solvable; auto).
  assert (S2 : solvable gantry_ik 0 (the_grasp 5) (held_at gantry (the_grasp 5) (configuration (ik_result bin_pose 5)))) by (rewrite result_held by reflexivity; apply gantry_solvable; reflexivity).
  split; [|split; [exact P|]].
  - exists bin_pose, [1; 2]%nat, true, (fun _ => []), sim0. split; [apply gantry_ik_fn; auto|]. split; [apply gantry_ik_fn; reflexivity|].
    destruct (get_ik_fn no_touch gantry_ik sim0 0 bin_pose (the_grasp 5) [1; 2]%nat true (fun _ => [])) as [c t'] eqn:K.
    pose proof (gantry_ik_fn sim0 bin_pose 5 [1; 2]%nat true (fun _ => []) eq_refl) as R. rewrite K in R. cbn [fst] in R. subst c.
    rewrite (inserted_two_cm_above gantry no_touch gantry_ik gantry_exact 0 straight sim0 (ik_result pre_pose 5) (ik_result bin_pose 5) (the_grasp 5) command s' sim0 sim0 bin_pose [1; 2]%nat true (fun _ => []) t');
      auto; try reflexivity; try (simpl; discriminate); [apply above_neq; lia|apply box_grasp_rigid|simpl; lia].
  - intro Fo. destruct (insert_misses_both_ends gantry no_touch gantry_ik gantry_exact 0 straight sim0 (ik_result pre_pose 5) (ik_result bin_pose 5) (the_grasp 5) command s' eq_refl box_grasp_rigid eq_refl eq_refl eq_refl S1 S2 P) as (cs' & E & H & _).
    subst command. rewrite E in Fo. inversion Fo; subst. congruence.
Qed.

(** *** C123 *)
Definition table_pose : pose := shift (1/2, 0, 1/10).
Definition pose_ex (p : nat) : pose := match p with 10%nat => table_pose | 11%nat => pre_pose | _ => bin_pose end.
Definition conf_ex (q : nat) : jconf := match q with 0%nat => [0; 0; 1] | S p => configuration (ik_result (pose_ex (10 + p)) 5) end.
Definition grasp_ex (g : nat) : body_grasp := the_grasp 5.
(** trajectories 0-15: free motions, 16-31: holding motions, 43: the insertion *)
Definition traj_ex (t : nat) : list path :=
  if (t <? 16)%nat then [body_path_of 0 [conf_ex (t / 4); conf_ex (t mod 4)] []] else
  if (t <? 32)%nat then [body_path_of 0 [conf_ex ((t - 16) / 4); conf_ex (t mod 4)] [the_grasp 5]] else
  [body_path_of 0 [configuration (ik_result (above 1 pre_pose) 5); configuration (ik_result (above 1 bin_pose) 5)] [the_grasp 5]].
Definition facts_ex : facts := {|
  poses := [10; 11; 12]%nat;
  Stackable := fun o r => ((o =? 5) && (r =? 50))%nat;
  Sink := fun r => (r =? 50)%nat;
  Stove := fun r => false;
  Kin := fun o p g q => ((o =? 5) && (g =? 6) && ((q =? 1) && (p =? 10) || (q =? 2) && (p =? 11) || (q =? 3) && (p =? 12)))%nat;
  FreeMotion := fun q1 t q2 => ((q1 <? 4) && (q2 <? 4) && (t =? q1 * 4 + q2))%nat;
  HoldingMotion := fun q1 t q2 o g => ((q1 <? 4) && (q2 =? 2) && (t =? 16 + q1 * 4 + q2) && (o =? 5) && (g =? 6))%nat;
  InsertMotion := fun q1 t q2 o g => ((q1 =? 2) && (q2 =? 3) && (t =? 43) && (o =? 5) && (g =? 6))%nat;
  Supported := fun o p r => ((o =? 5) && (p =? 12) && (r =? 50))%nat |}.
Lemma pose_ex_rot p : rot (pose_ex p) = eye.
Proof. do 12 (destruct p; [exact eq_refl || exact pre_rot|]); reflexivity. Qed.
Ltac nats := repeat match goal with
  | H : (_ && _)%bool = true |- _ => apply andb_true_iff in H; destruct H
  | H : (_ || _)%bool = true |- _ => apply orb_true_iff in H; destruct H
  | H : (_ =? _)%nat = true |- _ => apply Nat.eqb_eq in H
  | H : (_ <? _)%nat = true |- _ => apply Nat.ltb_lt in H
  end.
Example provided_ex : provided gantry 0 facts_ex pose_ex conf_ex grasp_ex traj_ex.
Proof.
  constructor.
  - intros o p g q H. cbn [Kin facts_ex] in H. split; [nats; subst; reflexivity|]. split; [reflexivity|]. split; [nats; subst; discriminate|].
    nats; subst; exact (result_held _ 5 (pose_ex_rot _)).
  - intros q1 t q2 H. cbn [FreeMotion facts_ex] in H. nats. unfold traj_ex. assert (L : (t <? 16)%nat = true) by (apply Nat.ltb_lt; lia). rewrite L.
    eexists. split; [reflexivity|]. split; [discriminate|]. cbn [last]. f_equal. subst t. rewrite Nat.add_comm, Nat.mod_add by lia. now apply Nat.mod_small.
  - intros q1 t q2 o g H _. cbn [HoldingMotion facts_ex] in H. nats. unfold traj_ex. assert (L : (t <? 16)%nat = false) by (apply Nat.ltb_ge; lia). rewrite L.
    assert (L2 : (t <? 32)%nat = true) by (apply Nat.ltb_lt; lia). rewrite L2.
    eexists. split; [reflexivity|]. split; [discriminate|]. cbn [last]. f_equal. subst t q2. replace (16 + q1 * 4 + 2)%nat with (2 + (q1 + 4) * 4)%nat by lia. rewrite Nat.mod_add by lia. reflexivity.
  - intros q1 t q2 o g H _. cbn [InsertMotion facts_ex] in H. nats. subst. eexists. split; [reflexivity|]. split; [discriminate|]. cbn [last].
    change (grasp_ex 6) with (the_grasp 5). rewrite result_held by reflexivity. f_equal. symmetry. exact (result_held bin_pose 5 eq_refl).
Qed.
Definition plan_carry : list action := [MoveFree 0 1 1; Pick 5 10 6 1; MoveHolding 1 2 5 6 22; Place 5 11 6 2; Pick 5 11 6 2; MoveInsert 2 3 5 6 43; Place 5 12 6 3; Clean 5 50].
Definition sim_carry : sim := Sim (fun _ => [0; 0; 1]) (fun b => if (b =? 5)%nat then table_pose else unit_pose).
Lemma plan_carry_runs : exists s, run facts_ex (init_state 0 [(5, 10)]%nat) plan_carry = Some s /\ s (AtPose 5 12) = true /\ s (Cleaned 5) = true.
Proof. eexists. split; [vm_compute; reflexivity|]. split; reflexivity. Qed.
Lemma plan_carry_final : pose_at (run_command gantry sim_carry (postprocess_plan _ _ _ traj_ex plan_carry)) 5 = above 2 bin_pose.
Proof.
  change (postprocess_plan _ _ _ traj_ex plan_carry) with ((traj_ex 1 ++ traj_ex 22) ++ traj_ex 43). rewrite run_command_app.
  set (s := run_command gantry sim_carry (traj_ex 1 ++ traj_ex 22)).
  assert (P : proper 0 [the_grasp 5]) by (apply proper_one; [reflexivity|discriminate]).
  pose proof (run_one gantry 0 s [configuration (ik_result (above 1 pre_pose) 5); configuration (ik_result (above 1 bin_pose) 5)] [the_grasp 5] P ltac:(discriminate)) as C.
  change (traj_ex 43) with [body_path_of 0 [configuration (ik_result (above 1 pre_pose) 5); configuration (ik_result (above 1 bin_pose) 5)] [the_grasp 5]].
  transitivity (held_at gantry (the_grasp 5) (configuration (ik_result (above 1 bin_pose) 5))); [exact (ca_held _ _ _ _ _ _ C (the_grasp 5) (or_introl eq_refl))|].
  rewrite result_held by reflexivity. apply above_above.
Qed.
(** A plan that puts an object into its bin: executed, the object stays two centimetres above the pose that the
    planner reports and the goal is derived from. *)
Theorem executed_pose_refuted : exists link_pose robot F pose_of conf_of grasp_of traj start movable plan s s0 o p,
  provided link_pose robot F pose_of conf_of grasp_of traj /\ NoDup (map fst movable) /\ (forall o p, In (o, p) movable -> pose_at s0 o = pose_of p) /\
  run F (init_state start movable) plan = Some s /\ s (Cleaned o) = true /\ s (AtPose o p) = true /\
  pose_at (run_command link_pose s0 (postprocess_plan _ _ _ traj plan)) o <> pose_of p /\
  pose_at (run_command link_pose s0 (postprocess_plan _ _ _ traj plan)) o = above 2 (pose_of p).
Proof.
  destruct plan_carry_runs as (s & R & A & C).
  exists gantry, 0%nat, facts_ex, pose_ex, conf_ex, grasp_ex, traj_ex, 0%nat, [(5, 10)]%nat, plan_carry, s, sim_carry, 5%nat, 12%nat.
  split; [exact provided_ex|]. split; [constructor; [intros []|constructor]|]. split; [intros o p [X|[]]; injection X as <- <-; reflexivity|].
  split; [exact R|]. split; [exact C|]. split; [exact A|]. rewrite plan_carry_final. split; [apply above_neq; lia|reflexivity].
Qed.

(** *** Further examples *)
(** C118: the robot, body 0, is stopped by body 1 unless its tool is high enough; the first two attempts fail *)
Definition low_touch (a b : nat) (p : pose) (c : jconf) (p' : pose) (c' : jconf) : bool := if Rlt_dec (nth 2 c 0) 1 then true else false.
Example ik_sound_ex : exists c s', get_ik_fn no_touch gantry_ik sim0 0 table_pose (the_grasp 5) [1; 2]%nat true (fun i => [INR i; 0; 0]) = (Some c, s') /\ ~ In 0%nat [1; 2]%nat.
Proof.
  destruct (get_ik_fn no_touch gantry_ik sim0 0 table_pose (the_grasp 5) [1; 2]%nat true (fun i => [INR i; 0; 0])) as [c s'] eqn:K.
  pose proof (gantry_ik_fn sim0 table_pose 5 [1; 2]%nat true (fun i => [INR i; 0; 0]) eq_refl) as R. rewrite K in R. cbn [fst] in R. subst c.
  eexists _, _. split; [reflexivity|]. intros [X|[X|[]]]; discriminate.
Qed.
Definition flat_pose : pose := mkPose (rot_x PI) (0, 0, 0).
Example ik_fails_ex : attempt_fails low_touch gantry_ik 0 sim0 (shift (0, 0, 0)) (the_grasp 5) [1%nat] [0; 0; 0].
Proof.
  unfold attempt_fails. cbn [the_grasp g_link]. unfold gantry_ik. pose proof (target_rot (shift (0, 0, 0)) 5 eq_refl) as T.
  destruct (mat_eq_dec (rot (approach_target (shift (0, 0, 0)) (the_grasp 5))) tool_rot) as [X|X]; [|congruence].
  intro H. specialize (H 1%nat (or_introl eq_refl)). unfold low_touch in H.
  assert (Z : pz (point (approach_target (shift (0, 0, 0)) (the_grasp 5))) < 1).
  { pose proof (result_held (shift (0, 0, 0)) 5 eq_refl) as E. unfold held_at, ik_result in E. cbn [configuration the_grasp g_robot g_link grasp_pose] in E.
    rewrite gantry_coords in E by exact T.
    assert (Ap : apply (approach_target (shift (0, 0, 0)) (the_grasp 5)) (apply box_grasp (0, 0, 1/10)) = apply (above 1 (shift (0, 0, 0))) (0, 0, 1/10)) by (rewrite <- E; symmetry; apply apply_multiply).
    assert (B : apply box_grasp (0, 0, 1/10) = (0, 0, 0)).
    { Transparent box_grasp. unfold box_grasp. Opaque box_grasp. rewrite grasp_at_apply. unfold px, py, pz. cbn [fst snd]. comps; lra. }
    rewrite B in Ap. unfold apply in Ap. assert (M0 : forall m, mulv m (0, 0, 0) = (0, 0, 0)) by (intro m; unpose; comps; ring). rewrite M0, addp_0_l in Ap. rewrite Ap.
    unfold above, shift. cbn [rot point]. rewrite mulv_eye. simpl INR. unpose. lra. }
  unfold coords in H. cbn [nth] in H. destruct (Rlt_dec _ 1) as [L|L]; [discriminate|]. contradiction.
Qed.
(** C120: carrying body 5 past body 8 *)
Definition near_x (a b : nat) (p : pose) (c : jconf) (p' : pose) (c' : jconf) : bool := if Rlt_dec (Rabs (px (point p) - px (point p'))) (1/10) then (a =? 5)%nat else false.
Example movable_ex : well_formed 0 [body_path_of 0 [conf_ex 1; conf_ex 2] [the_grasp 5]] /\
  movable_collision_test gantry near_x sim0 [body_path_of 0 [conf_ex 1; conf_ex 2] [the_grasp 5]] 8 (BodyPose 8 (shift (1/2, 0, 0))) = true /\
  movable_collision_test gantry near_x sim0 [body_path_of 0 [conf_ex 1; conf_ex 2] [the_grasp 5]] 8 (BodyPose 8 (shift (3, 0, 0))) = false.
Proof.
  assert (P : proper 0 [the_grasp 5]) by (apply proper_one; [reflexivity|discriminate]).
  assert (W : well_formed 0 [body_path_of 0 [conf_ex 1; conf_ex 2] [the_grasp 5]]) by (intros b [<-|[]]; split; auto).
  assert (H1 : held_at gantry (the_grasp 5) (conf_ex 1) = above 1 table_pose) by exact (result_held table_pose 5 eq_refl).
  assert (H2 : held_at gantry (the_grasp 5) (conf_ex 2) = above 1 pre_pose) by exact (result_held pre_pose 5 pre_rot).
  assert (X2 : px (point (above 1 pre_pose)) = 2/100 + - (68/100)) by (unfold above, pre_pose, preinsert_offset, bin_pose; rewrite multiply_shift; reflexivity).
  split; [exact W|]. split.
  - apply (movable_test_exact gantry near_x 0 _ _ _ _ W). split; [simpl; intros [X|[X|[]]]; discriminate|].
    exists [conf_ex 1; conf_ex 2], [the_grasp 5], (conf_ex 1). split; [left; reflexivity|]. split; [left; reflexivity|]. right. exists (the_grasp 5). split; [left; reflexivity|].
    rewrite H1. unfold near_x. destruct (Rlt_dec _ _) as [L|L]; [reflexivity|]. exfalso. apply L. unfold above, table_pose, shift, px. cbn [point fst]. rewrite Rminus_diag_eq by lra. rewrite Rabs_R0. lra.
  - destruct (movable_collision_test _ _ _ _ _ _) eqn:T; auto. exfalso. apply (movable_test_exact gantry near_x 0 _ _ _ _ W) in T. destruct T as [_ (l & atts & q & [E|[]] & Hq & T)]. injection E as <- <-.
    destruct T as [T|(g & [<-|[]] & T)].
    + unfold near_x in T. cbn [Nat.eqb] in T. destruct (Rlt_dec _ _) in T; discriminate.
    + unfold near_x in T. destruct (Rlt_dec _ _) as [L|L] in T; [|discriminate]. assert (Hq' : q = conf_ex 1 \/ q = conf_ex 2) by (destruct Hq as [X|[X|[]]]; auto). destruct Hq' as [->| ->]; [rewrite H1 in L|rewrite H2 in L; rewrite X2 in L].
      * unfold above, table_pose, shift, px in L. cbn [point fst] in L. rewrite Rabs_left in L; lra.
      * unfold shift, px in L. cbn [point fst] in L. rewrite Rabs_left in L; lra.
Qed.
(** C121: a holding motion past an object *)
Definition plan_two (s : sim) (r : nat) (q : jconf) (obstacles : list nat) (atts : list body_grasp) : option (list jconf) := Some [joints_at s r; q].
Example motion_ex : plan_exact gantry no_touch 0 plan_two /\ exists command s',
  motion_fn 0 plan_two [1; 2]%nat false sim0 (BodyConf 0 (conf_ex 1)) (BodyConf 0 (conf_ex 2)) [the_grasp 5] (at_poses [(6%nat, bin_pose); (7%nat, table_pose)]) = Planned command s'.
Proof.
  split; [|eexists _, _; reflexivity]. intros s q obstacles atts l H. injection H as <-. split; [reflexivity|]. split; [reflexivity|]. intros. split; [reflexivity|]. intros. reflexivity.
Qed.
Print Assumptions kin_conf_holds_pose_refuted.
Print Assumptions insert_leads_between_confs_refuted.
Print Assumptions executed_pose_refuted.
