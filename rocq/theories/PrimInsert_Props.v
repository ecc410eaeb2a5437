(** C122-C123: what happens to an object when an insertion trajectory, and the command of a whole plan,
    are executed. *)
From Coq Require Import Reals Lra Lia List Bool Arith.
From Verif Require Import Strips Space Pose Kuka_Model Kuka_Props Prim_Model PrimGrasp_Props Prim_Props.
Import ListNotations.
Local Open Scope R_scope.

(** *** Specification *)
(** the pose k centimetres above p *)
Definition above (k : nat) (p : pose) : pose := mkPose (rot p) (px (point p), py (point p), pz (point p) + INR k / 100).

Lemma above_approach p : multiply approach_top p = above 1 p.
Proof.
  unfold approach_top, above. rewrite multiply_shift. f_equal. destruct (point p) as [[x y] z]. simpl INR. unpose. comps; lra.
Qed.
Lemma above_above j k p : above j (above k p) = above (j + k) p.
Proof. unfold above. cbn [rot point]. f_equal. rewrite plus_INR. unpose. comps; lra. Qed.
Lemma above_0 p : above 0 p = p.
Proof. destruct p as [m [[x y] z]]. unfold above. simpl INR. unpose. comps; try reflexivity. lra. Qed.
Lemma above_inj k p p' : above k p = above k p' -> p = p'.
Proof.
  destruct p as [m [[x y] z]], p' as [m' [[x' y'] z']]. unfold above. unpose. intro H. injection H as -> -> -> E. comps; auto. lra.
Qed.
Lemma above_neq k p : (0 < k)%nat -> above k p <> p.
Proof.
  destruct p as [m [[x y] z]]. unfold above. unpose. intros K H. injection H as E. apply lt_0_INR in K. lra.
Qed.

(** *** C122: the insertion stream *)
Section Insertion.
Variable link_pose : nat -> jconf -> nat -> pose.
Variable touch : nat -> nat -> pose -> jconf -> pose -> jconf -> bool.
Variable ik : nat -> jconf -> nat -> pose -> option jconf * jconf.
Hypothesis IK : ik_exact link_pose ik.
Variable robot : nat.
Variable query : pose -> pose -> option (list pose).

(** inverse kinematics finds the waypoint p, from wherever the robot is *)
Definition solvable (g : body_grasp) (p : pose) : Prop := forall c, fst (ik robot c (g_link g) (approach_target p g)) <> None.
(** the configurations hold the body one centimetre above the waypoints, in order, except for waypoints without solution *)
Inductive realises (g : body_grasp) : list pose -> list jconf -> Prop :=
| RNil : realises g [] []
| RSkip p l cs : ~ solvable g p -> realises g l cs -> realises g (p :: l) cs
| RTake p l c cs : held_at link_pose g c = above 1 p -> realises g l cs -> realises g (p :: l) (c :: cs).

Lemma insert_confs_realise g body whole : g_robot g = robot -> rigid (grasp_pose g) -> approach_pose g = approach_top -> forall s,
  realises g whole (fst (insert_confs link_pose touch ik robot g body s whole)).
Proof.
  intros R G A. induction whole as [|p whole IH]; intro s; [constructor|]. cbn [insert_confs].
  destruct (get_ik_fn touch ik (set_pose s body p) robot p g [] false (fun _ => [])) as [[c|] s2] eqn:E.
  - specialize (IH (assign_grasp link_pose s2 g)). destruct (insert_confs link_pose touch ik robot g body (assign_grasp link_pose s2 g) whole) as [l s3]. cbn [fst] in *. apply RTake; auto.
    rewrite <- above_approach, <- A. exact (certified_conf_holds link_pose touch ik IK _ robot p g [] _ _ c s2 (fun X => X) R G E).
  - apply RSkip; auto. intro S. unfold get_ik_fn, num_attempts in E. cbn [seq ik_attempts] in E.
    set (s1 := set_pose s body p) in E. change (approach_from_grasp (approach_pose g) (end_effector_from_body p (grasp_pose g))) with (approach_target p g) in E.
    specialize (S (joints_at s1 robot)). destruct (ik robot (joints_at s1 robot) (g_link g) (approach_target p g)) as [[q|] left_at]; [|now apply S].
    cbn [existsb] in E. discriminate.
Qed.
Lemma realises_nonempty_first g p l cs : solvable g p -> realises g (p :: l) cs -> exists c cs', cs = c :: cs' /\ held_at link_pose g c = above 1 p.
Proof. intros S H. inversion H; subst; [contradiction|]. eauto. Qed.
Lemma realises_last g l p cs : solvable g p -> realises g (l ++ [p]) cs -> cs <> [] /\ held_at link_pose g (last cs []) = above 1 p.
Proof.
  intro S. revert cs. induction l as [|p0 l IH]; intros cs H; simpl in H.
  - inversion H; subst; [contradiction|]. match goal with H : realises _ [] _ |- _ => inversion H; subst end. split; [discriminate|auto].
  - inversion H; subst; [auto|]. destruct (IH _ H4) as [N E]. split; [discriminate|]. rewrite last_cons. destruct cs0 as [|c' cs0]; [congruence|].
    rewrite last_cons in *. exact E.
Qed.
Lemma realises_in g l cs c : realises g l cs -> In c cs -> exists p, In p l /\ held_at link_pose g c = above 1 p.
Proof.
  intro H. induction H; intro I; [inversion I| |].
  - destruct (IHrealises I) as (p' & I' & E). exists p'. split; auto. right. auto.
  - destruct I as [<-|I]; [exists p; split; auto; left; auto|]. destruct (IHrealises I) as (p' & I' & E). exists p'. split; auto. right. auto.
Qed.

(** What the stream returns for a body that is held with a top grasp. *)
Lemma insert_fn_planned s c1 c2 g command s' : g_robot g = robot -> rigid (grasp_pose g) -> approach_pose g = approach_top ->
  c_body c1 = robot -> c_body c2 = robot ->
  insert_fn link_pose touch ik robot query s c1 c2 (g_body g) g = Planned command s' ->
  exists l cs, query (held_at link_pose g (configuration c1)) (held_at link_pose g (configuration c2)) = Some l /\
    command = [body_path_of robot cs [g]] /\ cs <> [] /\
    realises g (held_at link_pose g (configuration c1) :: l ++ [held_at link_pose g (configuration c2)]) cs.
Proof.
  intros R G A B1 B2 H. unfold insert_fn in H.
  assert (E1 : pose_at (assign_grasp link_pose (assign_conf s c1) g) (g_body g) = held_at link_pose g (configuration c1)).
  { unfold assign_grasp. simpl. rewrite put_same, R, B1. now rewrite put_same. }
  assert (E2 : forall t, pose_at (assign_grasp link_pose (assign_conf t c2) g) (g_body g) = held_at link_pose g (configuration c2)).
  { intro t. unfold assign_grasp. simpl. rewrite put_same, R, B2. now rewrite put_same. }
  rewrite E1, E2 in H. destruct (query _ _) as [l|]; [|discriminate].
  pose proof (insert_confs_realise g (g_body g) (held_at link_pose g (configuration c1) :: l ++ [held_at link_pose g (configuration c2)]) R G A
    (assign_grasp link_pose (assign_conf (assign_grasp link_pose (assign_conf s c1) g) c2) g)) as F.
  destruct (insert_confs _ _ _ _ _ _ _ _) as [[|c cs] s3]; [discriminate|]. cbn [fst] in F. injection H as <- <-.
  exists l, (c :: cs). repeat split; auto. discriminate.
Qed.

(** While the trajectory is executed, the body is one centimetre above waypoints of the roadmap path: not where the
    roadmap checked it. *)
Theorem insert_execution : forall s c1 c2 g command s' s0, g_robot g = robot -> g_body g <> robot -> rigid (grasp_pose g) -> approach_pose g = approach_top ->
  c_body c1 = robot -> c_body c2 = robot ->
  insert_fn link_pose touch ik robot query s c1 c2 (g_body g) g = Planned command s' ->
  exists l, query (held_at link_pose g (configuration c1)) (held_at link_pose g (configuration c2)) = Some l /\
    forall t, In t (execute link_pose s0 command) ->
      exists p, In p (held_at link_pose g (configuration c1) :: l ++ [held_at link_pose g (configuration c2)]) /\ pose_at t (g_body g) = above 1 p.
Proof.
  intros s c1 c2 g command s' s0 R NB G A B1 B2 H. destruct (insert_fn_planned _ _ _ _ _ _ R G A B1 B2 H) as (l & cs & Q & -> & N & F). exists l. split; auto.
  intros t Ht. cbn [execute] in Ht. rewrite app_nil_r in Ht.
  assert (P : proper robot [g]). { split; [constructor; [intros []|constructor]|]. split; [intros [X|[]]; congruence|]. intros g' [<-|[]]. auto. }
  destruct (Forall2_in_r _ _ _ _ (iterator_exact link_pose robot cs [g] s0 P) Ht) as (q & Hq & C).
  destruct (realises_in _ _ _ _ F Hq) as (p & Hp & E). exists p. split; auto. rewrite <- E. apply (ca_held _ _ _ _ _ _ C). left. auto.
Qed.
(** If the ends can be reached, the trajectory starts and ends in other configurations than the two it was asked to connect. *)
Theorem insert_misses_both_ends : forall s c1 c2 g command s', g_robot g = robot -> rigid (grasp_pose g) -> approach_pose g = approach_top ->
  c_body c1 = robot -> c_body c2 = robot ->
  solvable g (held_at link_pose g (configuration c1)) -> solvable g (held_at link_pose g (configuration c2)) ->
  insert_fn link_pose touch ik robot query s c1 c2 (g_body g) g = Planned command s' ->
  exists cs, command = [body_path_of robot cs [g]] /\ hd_error cs <> Some (configuration c1) /\ last cs [] <> configuration c2 /\
    held_at link_pose g (hd [] cs) = above 1 (held_at link_pose g (configuration c1)) /\
    held_at link_pose g (last cs []) = above 1 (held_at link_pose g (configuration c2)).
Proof.
  intros s c1 c2 g command s' R G A B1 B2 S1 S2 H. destruct (insert_fn_planned _ _ _ _ _ _ R G A B1 B2 H) as (l & cs & Q & -> & N & F). exists cs. split; auto.
  destruct (realises_nonempty_first _ _ _ _ S1 F) as (c & cs' & -> & E1).
  assert (F' : realises g ((held_at link_pose g (configuration c1) :: l) ++ [held_at link_pose g (configuration c2)]) (c :: cs')) by exact F.
  destruct (realises_last _ _ _ _ S2 F') as [_ E2]. split; [|split; [|split; auto]].
  - simpl. intro X. injection X as ->. symmetry in E1. now apply above_neq in E1; auto.
  - intro X. rewrite X in E2. symmetry in E2. now apply above_neq in E2; auto.
Qed.
(** If the second configuration was certified for the pose p (postinsert), the executed insertion leaves the body two
    centimetres above p. *)
Theorem inserted_two_cm_above : forall s c1 c2 g command s' s0 t p fixed rnd sample t', g_robot g = robot -> g_body g <> robot -> rigid (grasp_pose g) -> approach_pose g = approach_top ->
  c_body c1 = robot -> ~ In robot fixed -> get_ik_fn touch ik t robot p g fixed rnd sample = (Some c2, t') ->
  solvable g (held_at link_pose g (configuration c2)) ->
  insert_fn link_pose touch ik robot query s c1 c2 (g_body g) g = Planned command s' ->
  pose_at (run_command link_pose s0 command) (g_body g) = above 2 p.
Proof.
  intros s c1 c2 g command s' s0 t p fixed rnd sample t' R NB G A B1 NF K S2 H.
  assert (B2 : c_body c2 = robot) by (apply (ik_sound link_pose touch ik IK) in K; auto; destruct K as [_ K]; apply (K c2 eq_refl)).
  assert (E : held_at link_pose g (configuration c2) = above 1 p) by (rewrite <- above_approach, <- A; eapply certified_conf_holds; eauto).
  destruct (insert_fn_planned _ _ _ _ _ _ R G A B1 B2 H) as (l & cs & Q & -> & N & F).
  assert (F' : realises g ((held_at link_pose g (configuration c1) :: l) ++ [held_at link_pose g (configuration c2)]) cs) by exact F.
  destruct (realises_last _ _ _ _ S2 F') as [_ L]. unfold run_command. cbn [execute]. rewrite app_nil_r. cbn [iterator].
  assert (P : proper robot [g]). { split; [constructor; [intros []|constructor]|]. split; [intros [X|[]]; congruence|]. intros g' [<-|[]]. auto. }
  pose proof (last_trace link_pose robot [g] cs P N s0) as C. rewrite (ca_held _ _ _ _ _ _ C g (or_introl eq_refl)), L, E. now rewrite above_above.
Qed.
End Insertion.

(** *** C123: the command of a plan *)
(** what the problem and the streams provide for the numbered objects *)
Record provided (link_pose : nat -> jconf -> nat -> pose) (robot : nat) (F : facts) (pose_of : nat -> pose) (conf_of : nat -> jconf) (grasp_of : nat -> body_grasp) (traj : nat -> list path) : Prop := {
  pr_kin : forall o p g q, Kin F o p g q = true -> g_body (grasp_of g) = o /\ g_robot (grasp_of g) = robot /\ o <> robot /\
    held_at link_pose (grasp_of g) (conf_of q) = above 1 (pose_of p);
  pr_free : forall q1 t q2, FreeMotion F q1 t q2 = true -> exists l, traj t = [body_path_of robot l []] /\ l <> [] /\ last l [] = conf_of q2;
  pr_holding : forall q1 t q2 o g, HoldingMotion F q1 t q2 o g = true -> g_body (grasp_of g) = o ->
    exists l, traj t = [body_path_of robot l [grasp_of g]] /\ l <> [] /\ last l [] = conf_of q2;
  pr_insert : forall q1 t q2 o g, InsertMotion F q1 t q2 o g = true -> g_body (grasp_of g) = o ->
    exists l, traj t = [body_path_of robot l [grasp_of g]] /\ l <> [] /\
      held_at link_pose (grasp_of g) (last l []) = above 1 (held_at link_pose (grasp_of g) (conf_of q2))
}.
Section Plan.
Variable link_pose : nat -> jconf -> nat -> pose.
Variable robot : nat.
Variable F : facts.
Variable pose_of : nat -> pose.
Variable conf_of : nat -> jconf.
Variable grasp_of : nat -> body_grasp.
Variable traj : nat -> list path.
Hypothesis PR : provided link_pose robot F pose_of conf_of grasp_of traj.

Definition near (s : sim) (o p : nat) : Prop := exists k, (k <= 2)%nat /\ pose_at s o = above k (pose_of p).
Record tracks (w : world) (s : sim) : Prop := {
  tr_free : forall o p, free w o -> place w o = Some p -> near s o p;
  tr_grasp : forall o g, held w = Some (o, g) -> g_body (grasp_of g) = o /\ g_robot (grasp_of g) = robot /\ o <> robot;
  tr_held : forall o g, held w = Some (o, g) ->
    (exists p, Kin F o p g (conf w) = true /\ near s o p) \/
    (exists j, (j <= 1)%nat /\ pose_at s o = above j (held_at link_pose (grasp_of g) (conf_of (conf w))))
}.
Lemma run_one s l atts : proper robot atts -> l <> [] -> carried link_pose robot atts s (last l []) (run_command link_pose s [body_path_of robot l atts]).
Proof. intros P N. unfold run_command. cbn [execute iterator]. rewrite app_nil_r. now apply last_trace. Qed.
Lemma proper_one g : g_robot g = robot -> g_body g <> robot -> proper robot [g].
Proof. intros R B. split; [constructor; [intros []|constructor]|]. split; [intros [X|[]]; congruence|]. intros g' [<-|[]]. auto. Qed.
Lemma proper_nil : proper robot [].
Proof. split; [constructor|]. split; [intros []|intros g []]. Qed.
Lemma run_command_app a b s : run_command link_pose s (a ++ b) = run_command link_pose (run_command link_pose s a) b.
Proof.
  revert s. induction a as [|x a IH]; intro s; [reflexivity|]. unfold run_command in *. cbn [app execute].
  set (t := iterator link_pose s x) in *.
  assert (L : forall (u v : list sim) (d : sim), last (u ++ v) d = last v (last u d)).
  { clear. intros u v d. revert d. induction u as [|y u IH]; intro d; [reflexivity|]. cbn [app]. now rewrite !last_cons, IH. }
  rewrite !L. now rewrite IH.
Qed.
Lemma step_tracks w a w' s : wstep F w a w' -> tracks w s -> tracks w' (run_command link_pose s (motion_paths _ _ _ traj a)).
Proof.
  intros W T. destruct W; simpl motion_paths.
  - (* free *) destruct (pr_free _ _ _ _ _ _ _ PR _ _ _ H) as (l & -> & N & L). pose proof (run_one s l [] proper_nil N) as C.
    constructor; [|intros o g X; discriminate|intros o g X; discriminate].
    intros o p Fr Pl. destruct (tr_free _ _ T o p Fr Pl) as (k & K & E). exists k. split; auto. rewrite (ca_rest _ _ _ _ _ _ C) by (intros []). auto.
  - (* holding *) destruct (tr_grasp _ _ T o g eq_refl) as (G1 & G2 & G3).
    destruct (pr_holding _ _ _ _ _ _ _ PR _ _ _ _ _ H G1) as (l & -> & N & L). pose proof (run_one s l [grasp_of g] (proper_one _ G2 ltac:(congruence)) N) as C.
    constructor.
    + intros o' p Fr Pl. destruct (tr_free _ _ T o' p Fr Pl) as (k & K & E). exists k. split; auto. rewrite (ca_rest _ _ _ _ _ _ C); auto.
      intros [X|[]]. rewrite G1 in X. subst o'. apply (Fr g). reflexivity.
    + intros o' g' X. injection X as <- <-. auto.
    + intros o' g' X. injection X as <- <-. right. exists 0%nat. split; [lia|]. rewrite above_0. cbn [conf]. rewrite <- L, <- G1 at 1. apply (ca_held _ _ _ _ _ _ C). left. auto.
  - (* insert *) destruct (tr_grasp _ _ T o g eq_refl) as (G1 & G2 & G3).
    destruct (pr_insert _ _ _ _ _ _ _ PR _ _ _ _ _ H G1) as (l & -> & N & L). pose proof (run_one s l [grasp_of g] (proper_one _ G2 ltac:(congruence)) N) as C.
    constructor.
    + intros o' p Fr Pl. destruct (tr_free _ _ T o' p Fr Pl) as (k & K & E). exists k. split; auto. rewrite (ca_rest _ _ _ _ _ _ C); auto.
      intros [X|[]]. rewrite G1 in X. subst o'. apply (Fr g). reflexivity.
    + intros o' g' X. injection X as <- <-. auto.
    + intros o' g' X. injection X as <- <-. right. exists 1%nat. split; [lia|]. cbn [conf]. rewrite <- L, <- G1 at 1. apply (ca_held _ _ _ _ _ _ C). left. auto.
  - (* pick *) destruct (pr_kin _ _ _ _ _ _ _ PR _ _ _ _ H) as (G1 & G2 & G3 & G4). constructor.
    + intros o' p' Fr Pl. apply (tr_free _ _ T); auto. intros g' X. discriminate.
    + intros o' g' X. injection X as <- <-. auto.
    + intros o' g' X. injection X as <- <-. left. exists p. split; auto. apply (tr_free _ _ T); auto. intros g' X. discriminate.
  - (* place *) destruct (pr_kin _ _ _ _ _ _ _ PR _ _ _ _ H) as (G1 & G2 & G3 & G4). constructor; [|intros o' g' X; discriminate|intros o' g' X; discriminate].
    intros o' p' Fr Pl. cbn [place] in Pl. unfold Kuka_Props.upd in Pl. destruct (o' =? o)%nat eqn:Eo.
    + apply Nat.eqb_eq in Eo. injection Pl as <-. subst o'. destruct (tr_held _ _ T o g eq_refl) as [(p0 & K0 & k & Kk & E)|(j & Kj & E)]; cbn [conf] in *.
      * destruct (pr_kin _ _ _ _ _ _ _ PR _ _ _ _ K0) as (_ & _ & _ & G5). rewrite G5 in G4. apply above_inj in G4. exists k. split; auto. change (pose_at s o = above k (pose_of p)). now rewrite <- G4.
      * exists (j + 1)%nat. split; [lia|]. change (pose_at s o = above (j + 1) (pose_of p)). rewrite E, G4. apply above_above.
    + apply Nat.eqb_neq in Eo. apply (tr_free _ _ T); auto. intros g' X. injection X as <- <-. congruence.
  - (* clean *) constructor; [|apply (tr_grasp _ _ T)|apply (tr_held _ _ T)]. intros o' p' Fr Pl. now apply (tr_free _ _ T).
  - (* cook *) constructor; [|apply (tr_grasp _ _ T)|apply (tr_held _ _ T)]. intros o' p' Fr Pl. now apply (tr_free _ _ T).
Qed.
(** After the command of any plan has been executed, every object that the planner believes at a pose is at most two
    centimetres above it (by whole centimetres), in the right orientation. *)
Theorem executed_pose_offset : forall start movable plan s s0, NoDup (map fst movable) ->
  (forall o p, In (o, p) movable -> pose_at s0 o = pose_of p) ->
  run F (init_state start movable) plan = Some s ->
  forall o p, s (AtPose o p) = true -> exists k, (k <= 2)%nat /\ pose_at (run_command link_pose s0 (postprocess_plan _ _ _ traj plan)) o = above k (pose_of p).
Proof.
  intros start movable plan s s0 N I H o p A.
  destruct (proj1 (kuka_is_machine F _ _ _ (init_agrees start movable N)) s H) as (w & W & Ag).
  assert (T0 : tracks (init_world start movable) s0).
  { constructor; [|intros o' g X; discriminate|intros o' g X; discriminate].
    intros o' p' _ Pl. exists 0%nat. split; [lia|]. rewrite above_0. apply I. now apply look_in. }
  assert (T : tracks w (run_command link_pose s0 (postprocess_plan _ _ _ traj plan))).
  { rewrite postprocess_eq. clear -W T0 PR. revert s0 T0. induction W; intros s0 T0; [exact T0|]. cbn [flat_map]. rewrite run_command_app. apply IHW. eapply step_tracks; eauto. }
  apply (ag_pose _ _ Ag) in A. destruct A as [A1 A2]. exact (tr_free _ _ T o p A1 A2).
Qed.
End Plan.
Print Assumptions insert_execution.
Print Assumptions insert_misses_both_ends.
Print Assumptions inserted_two_cm_above.
Print Assumptions executed_pose_offset.
