(** C118-C121: inverse kinematics with retries, the pose a certified configuration gives to the held
    body, execution of trajectories, the movable collision test and the motion streams of
    kuka_primitives.py. *)
From Coq Require Import Reals Lra Lia List Bool Arith.
From Verif Require Import Space Pose Kuka_Model Kuka_Props Prim_Model.
Import ListNotations.
Local Open Scope R_scope.

(** *** Library assumptions (DESIGN.md section 3) *)
(** inverse_kinematics returns a configuration whose link has the target pose, and leaves the robot in it *)
Definition ik_exact (link_pose : nat -> jconf -> nat -> pose) (ik : nat -> jconf -> nat -> pose -> option jconf * jconf) : Prop :=
  forall r c k p q left_at, ik r c k p = (Some q, left_at) -> left_at = q /\ link_pose r q k = p.

Lemma put_same {A} (f : nat -> A) k v : put f k v k = v.
Proof. unfold put. now rewrite Nat.eqb_refl. Qed.
Lemma put_other {A} (f : nat -> A) k v k' : k' <> k -> put f k v k' = f k'.
Proof. intro H. unfold put. apply Nat.eqb_neq in H. now rewrite H. Qed.

(** *** C118: get_ik_fn *)
Section Ik.
Variable link_pose : nat -> jconf -> nat -> pose.
Variable touch : nat -> nat -> pose -> jconf -> pose -> jconf -> bool.
Variable ik : nat -> jconf -> nat -> pose -> option jconf * jconf.
(** only the robot has moved *)
Definition only_robot_moved (robot : nat) (s s' : sim) : Prop :=
  (forall b, pose_at s' b = pose_at s b) /\ forall b, b <> robot -> joints_at s' b = joints_at s b.
(** the pose of the gripper in front of the grasp *)
Definition approach_target (p : pose) (g : body_grasp) : pose := multiply (approach_pose g) (multiply p (invert (grasp_pose g))).
(** the robot in configuration q touches none of the bodies, which are where they are in s *)
Definition robot_free (robot : nat) (s : sim) (q : jconf) (fixed : list nat) : Prop :=
  forall b, In b fixed -> touch robot b (pose_at s robot) q (pose_at s b) (joints_at s b) = false.

Lemma moved_refl robot s : only_robot_moved robot s s.
Proof. split; auto. Qed.
Lemma moved_trans robot s1 s2 s3 : only_robot_moved robot s1 s2 -> only_robot_moved robot s2 s3 -> only_robot_moved robot s1 s3.
Proof. intros [A1 A2] [B1 B2]. split; intros; [rewrite B1; auto|rewrite B2; auto]. Qed.
Lemma moved_set robot s q : only_robot_moved robot s (set_joint_positions s robot q).
Proof. split; intros; simpl; auto. now apply put_other. Qed.

Lemma ik_attempts_sound robot k target fixed rnd sample (E : ik_exact link_pose ik) (N : ~ In robot fixed) l : forall s c s',
  ik_attempts touch ik robot k target fixed rnd sample l s = (c, s') ->
  only_robot_moved robot s s' /\
  match c with Some c => c_body c = robot /\ link_pose robot (configuration c) k = target /\ joints_at s' robot = configuration c /\ robot_free robot s (configuration c) fixed | None => True end.
Proof.
  induction l as [|i l IH]; intros s c s' H; simpl in H.
  - injection H as <- <-. split; [apply moved_refl|exact I].
  - set (s1 := if rnd then set_joint_positions s robot (sample i) else s) in *.
    assert (M1 : only_robot_moved robot s s1) by (unfold s1; destruct rnd; [apply moved_set|apply moved_refl]).
    destruct (ik robot (joints_at s1 robot) k target) as [q left_at] eqn:Ei.
    set (s2 := set_joint_positions s1 robot left_at) in *.
    assert (M2 : only_robot_moved robot s s2) by (apply moved_trans with s1; auto; apply moved_set).
    assert (G : forall c s', ik_attempts touch ik robot k target fixed rnd sample l s2 = (c, s') -> only_robot_moved robot s s' /\
      match c with Some c => c_body c = robot /\ link_pose robot (configuration c) k = target /\ joints_at s' robot = configuration c /\ robot_free robot s (configuration c) fixed | None => True end).
    { intros c0 s0 H0. destruct (IH _ _ _ H0) as [A B]. split; [now apply moved_trans with s2|]. destruct c0 as [c0|]; auto. destruct B as (B1 & B2 & B3 & B4). split; auto. split; auto. split; auto.
      intros b Hb. specialize (B4 b Hb). destruct M2 as [M2 M3]. rewrite !M2, (M3 b) in B4 by (intros ->; auto). auto. }
    destruct q as [q|]; [|now apply G].
    destruct (existsb (collides touch s2 robot) fixed) eqn:Ec; [now apply G|].
    injection H as <- <-. split; auto. destruct (E _ _ _ _ _ _ Ei) as [-> L]. cbn [c_body configuration]. split; auto. split; auto. split; [apply put_same|].
    intros b Hb. destruct (collides touch s2 robot b) eqn:C.
    + assert (existsb (collides touch s2 robot) fixed = true) by (apply existsb_exists; eauto). congruence.
    + unfold collides in C. destruct M2 as [M2 M3]. rewrite !M2, (M3 b) in C by (intros ->; auto). unfold s2 in C. simpl in C. rewrite put_same in C. exact C.
Qed.

(** A returned configuration has the gripper at the approach pose, is free of the fixed bodies, is where
    the robot is left, and nothing but the robot has moved; this also holds of a failed call. *)
Theorem ik_sound : ik_exact link_pose ik -> forall s robot p g fixed rnd sample c s', ~ In robot fixed ->
  get_ik_fn touch ik s robot p g fixed rnd sample = (c, s') -> only_robot_moved robot s s' /\
  forall q, c = Some q -> c_body q = robot /\ link_pose robot (configuration q) (g_link g) = approach_target p g /\
    joints_at s' robot = configuration q /\ robot_free robot s (configuration q) fixed.
Proof.
  intros E s robot p g fixed rnd sample c s' N H. unfold get_ik_fn in H. apply ik_attempts_sound in H; auto. destruct H as [A B]. split; auto.
  intros q ->. exact B.
Qed.

(** what one attempt from the configuration q0 gives *)
Definition attempt_fails (robot : nat) (s : sim) (p : pose) (g : body_grasp) (fixed : list nat) (q0 : jconf) : Prop :=
  match ik robot q0 (g_link g) (approach_target p g) with
  | (None, _) => True
  | (Some _, q) => ~ robot_free robot s q fixed
  end.
Lemma attempts_fail robot p g fixed sample (N : ~ In robot fixed) l : forall s,
  fst (ik_attempts touch ik robot (g_link g) (approach_target p g) fixed true sample l s) = None <-> (forall i, In i l -> attempt_fails robot s p g fixed (sample i)).
Proof.
  induction l as [|i l IH]; intro s; [simpl; split; auto; intros _ i []|].
  cbn [ik_attempts]. set (s1 := set_joint_positions s robot (sample i)). replace (joints_at s1 robot) with (sample i) by (symmetry; apply put_same).
  destruct (ik robot (sample i) (g_link g) (approach_target p g)) as [q left_at] eqn:Ei.
  set (s2 := set_joint_positions s1 robot left_at).
  assert (M2 : only_robot_moved robot s s2) by (apply moved_trans with s1; apply moved_set).
  assert (Fr : forall t, (forall b, pose_at t b = pose_at s b) -> (forall b, b <> robot -> joints_at t b = joints_at s b) -> forall q, robot_free robot t q fixed <-> robot_free robot s q fixed).
  { intros t T1 T2 q0. unfold robot_free. split; intros H b Hb; specialize (H b Hb); rewrite !T1, (T2 b) in * by (intros ->; auto); auto. }
  assert (At : forall i, attempt_fails robot s2 p g fixed (sample i) <-> attempt_fails robot s p g fixed (sample i)).
  { intro j. unfold attempt_fails. destruct (ik robot (sample j) (g_link g) (approach_target p g)) as [[?|] ?]; [|tauto]. now rewrite (Fr s2 (proj1 M2) (proj2 M2)). }
  assert (Ex : existsb (collides touch s2 robot) fixed = true <-> ~ robot_free robot s left_at fixed).
  { split.
    - intros H F. apply existsb_exists in H. destruct H as (b & Hb & C). specialize (F b Hb). unfold collides in C. destruct M2 as [M2 M3]. rewrite !M2, (M3 b) in C by (intros ->; auto).
      unfold s2 in C. simpl in C. rewrite put_same in C. congruence.
    - intro F. destruct (existsb (collides touch s2 robot) fixed) eqn:X; auto. exfalso. apply F. intros b Hb.
      destruct (collides touch s2 robot b) eqn:C; [assert (existsb (collides touch s2 robot) fixed = true) by (apply existsb_exists; eauto); congruence|].
      unfold collides in C. destruct M2 as [M2 M3]. rewrite !M2, (M3 b) in C by (intros ->; auto). unfold s2 in C. simpl in C. rewrite put_same in C. exact C. }
  assert (Go : fst (ik_attempts touch ik robot (g_link g) (approach_target p g) fixed true sample l s2) = None <-> forall i, In i l -> attempt_fails robot s p g fixed (sample i)).
  { rewrite IH. split; intros H j Hj; apply At; auto. }
  assert (Hi : attempt_fails robot s p g fixed (sample i) <-> (q = None \/ ~ robot_free robot s left_at fixed)).
  { unfold attempt_fails. rewrite Ei. destruct q; split; intro H; auto; [destruct H as [H|H]; auto; discriminate]. }
  destruct q as [q|].
  - destruct (existsb (collides touch s2 robot) fixed) eqn:X.
    + rewrite Go. split; [|intros H j Hj; apply H; right; auto]. intros H j [<-|Hj]; auto. apply Hi. right. now apply Ex.
    + simpl. split; [discriminate|]. intro H. specialize (H i (or_introl eq_refl)). apply Hi in H. destruct H as [H|H]; [discriminate|]. apply Ex in H. congruence.
  - rewrite Go. split; [|intros H j Hj; apply H; right; auto]. intros H j [<-|Hj]; auto. apply Hi. auto.
Qed.
(** With random restarts the call fails only after ten failed attempts: they are independent of each other. *)
Theorem ik_fails_exactly : forall s robot p g fixed sample, ~ In robot fixed ->
  fst (get_ik_fn touch ik s robot p g fixed true sample) = None <->
  (forall i, (i < 10)%nat -> attempt_fails robot s p g fixed (sample i)).
Proof.
  intros s robot p g fixed sample N. unfold get_ik_fn. change (approach_from_grasp (approach_pose g) (end_effector_from_body p (grasp_pose g))) with (approach_target p g).
  rewrite attempts_fail by auto. unfold num_attempts. split; intros H i Hi; apply H; [apply in_seq; lia|apply in_seq in Hi; lia].
Qed.
End Ik.

(** *** C119: the pose of the body that is held in a certified configuration *)
(** A configuration that get_ik_fn certifies for a pose and a grasp holds the body at the pose moved by the approach. *)
Theorem certified_conf_holds : forall link_pose touch ik, ik_exact link_pose ik -> forall s robot p g fixed rnd sample c s', ~ In robot fixed ->
  g_robot g = robot -> rigid (grasp_pose g) ->
  get_ik_fn touch ik s robot p g fixed rnd sample = (Some c, s') ->
  held_at link_pose g (configuration c) = multiply (approach_pose g) p.
Proof.
  intros link_pose touch ik E s robot p g fixed rnd sample c s' N R G H. apply (ik_sound link_pose) in H; auto. destruct H as [_ H].
  destruct (H c eq_refl) as (_ & L & _). unfold held_at. rewrite R, L. unfold approach_target. rewrite <- !multiply_assoc, invert_l by auto. now rewrite multiply_unit_r.
Qed.
(** For the grasps of "top": one centimetre above the pose, in the same orientation. *)
Theorem top_conf_one_cm_above : forall link_pose touch ik, ik_exact link_pose ik -> forall s robot p g fixed rnd sample c s', ~ In robot fixed ->
  g_robot g = robot -> rigid (grasp_pose g) -> approach_pose g = approach_top ->
  get_ik_fn touch ik s robot p g fixed rnd sample = (Some c, s') ->
  let h := held_at link_pose g (configuration c) in
  rot h = rot p /\ px (point h) = px (point p) /\ py (point h) = py (point p) /\ pz (point h) = pz (point p) + 1 / 100.
Proof.
  intros link_pose touch ik E s robot p g fixed rnd sample c s' N R G A H h.
  assert (X : h = multiply approach_top p) by (unfold h; rewrite <- A; eapply certified_conf_holds; eauto).
  rewrite X. unfold approach_top. rewrite multiply_shift. cbn [rot point]. destruct (point p) as [[x y] z]. unpose. repeat split; lra.
Qed.

(** *** Execution of trajectories *)
Section Execution.
Variable link_pose : nat -> jconf -> nat -> pose.
(** the world when the robot is in configuration q and carries the attachments *)
Record carried (robot : nat) (attachments : list body_grasp) (s : sim) (q : jconf) (s' : sim) : Prop := {
  ca_robot : joints_at s' robot = q;
  ca_joints : forall b, b <> robot -> joints_at s' b = joints_at s b;
  ca_held : forall g, In g attachments -> pose_at s' (g_body g) = held_at link_pose g q;
  ca_rest : forall b, ~ In b (map g_body attachments) -> pose_at s' b = pose_at s b
}.
(** the attachments are of this robot, different bodies and not the robot *)
Definition proper (robot : nat) (attachments : list body_grasp) : Prop :=
  NoDup (map g_body attachments) /\ ~ In robot (map g_body attachments) /\ forall g, In g attachments -> g_robot g = robot.

Lemma assign_joints s l : joints_at (fold_left (assign_grasp link_pose) l s) = joints_at s.
Proof. revert s. induction l as [|g l IH]; intro s; simpl; auto. rewrite IH. reflexivity. Qed.
Lemma assign_rest l : forall s b, ~ In b (map g_body l) -> pose_at (fold_left (assign_grasp link_pose) l s) b = pose_at s b.
Proof.
  induction l as [|g l IH]; intros s b H; simpl; auto. simpl in H. rewrite IH by tauto. simpl. apply put_other. intros ->. tauto.
Qed.
Lemma assign_held l : NoDup (map g_body l) -> forall s g, In g l -> pose_at (fold_left (assign_grasp link_pose) l s) (g_body g) = held_at link_pose g (joints_at s (g_robot g)).
Proof.
  induction l as [|g0 l IH]; intros N s g H; [inversion H|]. simpl in *. inversion N; subst. destruct H as [<-|H].
  - rewrite assign_rest by auto. simpl. apply put_same.
  - now rewrite IH.
Qed.
Lemma visit_carried robot atts s q : proper robot atts -> carried robot atts s q (visit link_pose robot atts s q).
Proof.
  intros (N & R & G). unfold visit. constructor.
  - rewrite assign_joints. apply put_same.
  - intros b Hb. rewrite assign_joints. simpl. now apply put_other.
  - intros g Hg. rewrite assign_held by auto. rewrite (G g Hg). simpl. now rewrite put_same.
  - intros b Hb. now rewrite assign_rest.
Qed.
Lemma carried_chain robot atts s q s' q' s'' : carried robot atts s q s' -> carried robot atts s' q' s'' -> carried robot atts s q' s''.
Proof.
  intros A B. constructor; [apply B| |apply B|]; intros b Hb.
  - rewrite (ca_joints _ _ _ _ _ B) by auto. now apply (ca_joints _ _ _ _ _ A).
  - rewrite (ca_rest _ _ _ _ _ B) by auto. now apply (ca_rest _ _ _ _ _ A).
Qed.
Lemma Forall2_weaken {A B} (P Q : A -> B -> Prop) l m : (forall a b, P a b -> Q a b) -> Forall2 P l m -> Forall2 Q l m.
Proof. intros H F. induction F; constructor; auto. Qed.
(** The iterator visits the configurations in order; at each the attached bodies are carried along and
    nothing else moves. *)
Theorem iterator_exact : forall robot l atts s, proper robot atts ->
  Forall2 (carried robot atts s) l (iterator link_pose s (body_path_of robot l atts)).
Proof.
  intros robot l atts s P. cbn [iterator]. revert s. induction l as [|q l IH]; intro s; [constructor|]. cbn [trace].
  assert (V := visit_carried robot atts s q P). constructor; auto.
  eapply Forall2_weaken; [|apply IH]. intros c t H. eapply carried_chain; eauto.
Qed.
Lemma last_cons {A} t : forall (x d : A), last (x :: t) d = last t x.
Proof. induction t as [|y t IH]; intros x d; auto. transitivity (last (y :: t) d); [reflexivity|]. now rewrite (IH y d), (IH y x). Qed.
Lemma last_trace robot atts l : proper robot atts -> l <> [] -> forall s, carried robot atts s (last l []) (last (trace link_pose robot atts s l) s).
Proof.
  intros P. induction l as [|q l IH]; intros N s; [congruence|]. cbn [trace]. rewrite !last_cons.
  assert (V := visit_carried robot atts s q P). destruct l as [|q' l]; [exact V|].
  eapply carried_chain; [exact V|]. rewrite (last_cons l q' q), <- (last_cons l q' []). apply IH. discriminate.
Qed.
End Execution.

(** *** C120: the movable collision test *)
Section MovableTest.
Variable link_pose : nat -> jconf -> nat -> pose.
Variable touch : nat -> nat -> pose -> jconf -> pose -> jconf -> bool.
(** all paths are of the robot *)
Definition well_formed (robot : nat) (command : list path) : Prop :=
  forall b, In b command -> match b with BodyPath _ _ _ body _ _ atts => body = robot /\ proper robot atts | _ => True end.
(** at some configuration of some path the robot or a carried body touches the body at its pose *)
Definition command_touches (robot : nat) (command : list path) (s : sim) (body : nat) (p : pose) : Prop :=
  exists l atts q, In (body_path_of robot l atts) command /\ In q l /\
    (touch robot body (pose_at s robot) q p (joints_at s body) = true \/
     exists g, In g atts /\ touch (g_body g) body (held_at link_pose g q) (joints_at s (g_body g)) p (joints_at s body) = true).

Definition kept (robot body : nat) (s0 s : sim) (p : pose) : Prop :=
  pose_at s robot = pose_at s0 robot /\ pose_at s body = p /\ forall b, b <> robot -> joints_at s b = joints_at s0 b.
Lemma mem_in b l : mem b l = true <-> In b l.
Proof. unfold mem. rewrite existsb_exists. split; [intros (x & Hx & E); apply Nat.eqb_eq in E; now subst|]. intro H. exists b. split; auto. apply Nat.eqb_refl. Qed.
Lemma last_in {A} (l : list A) d : l <> [] -> In (last l d) l.
Proof. induction l as [|a l IH]; [congruence|]. intros _. destruct l as [|b l]; [left; auto|]. right. change (last (a :: b :: l) d) with (last (b :: l) d). apply IH. discriminate. Qed.
Lemma Forall2_in_r {A B} (P : A -> B -> Prop) l m y : Forall2 P l m -> In y m -> exists x, In x l /\ P x y.
Proof. intro F. induction F; intros []; [subst; exists x; split; auto; left; auto|]. destruct (IHF H0) as (x' & I & Q). exists x'. split; auto. right. auto. Qed.
Lemma Forall2_in_l {A B} (P : A -> B -> Prop) l m x : Forall2 P l m -> In x l -> exists y, In y m /\ P x y.
Proof. intro F. induction F; intros []; [subst; exists y; split; auto; left; auto|]. destruct (IHF H0) as (x' & I & Q). exists x'. split; auto. right. auto. Qed.

Lemma kept_carried robot body s0 s p atts q s' : proper robot atts -> ~ In body (map g_body atts) -> kept robot body s0 s p -> carried link_pose robot atts s q s' -> kept robot body s0 s' p.
Proof.
  intros (_ & R & _) B (K1 & K2 & K3) C. split; [|split].
  - now rewrite (ca_rest _ _ _ _ _ _ C).
  - now rewrite (ca_rest _ _ _ _ _ _ C).
  - intros b Hb. rewrite (ca_joints _ _ _ _ _ _ C); auto.
Qed.
Lemma touch_state robot body s0 s p atts q s' : proper robot atts -> ~ In body (map g_body atts) -> body <> robot -> kept robot body s0 s p -> carried link_pose robot atts s q s' ->
  existsb (fun mov => collides touch s' mov body) (robot :: map g_body atts) = true <->
  (touch robot body (pose_at s0 robot) q p (joints_at s0 body) = true \/
   exists g, In g atts /\ touch (g_body g) body (held_at link_pose g q) (joints_at s0 (g_body g)) p (joints_at s0 body) = true).
Proof.
  intros P B N K C. destruct (kept_carried _ _ _ _ _ _ _ _ P B K C) as (K1 & K2 & K3).
  assert (E1 : collides touch s' robot body = touch robot body (pose_at s0 robot) q p (joints_at s0 body)).
  { unfold collides. now rewrite K1, K2, (K3 body N), (ca_robot _ _ _ _ _ _ C). }
  assert (E2 : forall g, In g atts -> collides touch s' (g_body g) body = touch (g_body g) body (held_at link_pose g q) (joints_at s0 (g_body g)) p (joints_at s0 body)).
  { intros g Hg. assert (g_body g <> robot) by (intro X; apply (proj1 (proj2 P)); rewrite <- X; now apply in_map).
    unfold collides. rewrite K2, (K3 body N), (K3 (g_body g)) by auto. now rewrite (ca_held _ _ _ _ _ _ C g Hg). }
  cbn [existsb]. rewrite orb_true_iff, E1, existsb_exists. split; (intros [H|H]; [left; auto|right]).
  - destruct H as (x & Hx & T). apply in_map_iff in Hx. destruct Hx as (g & <- & Hg). exists g. split; auto. now rewrite <- E2.
  - destruct H as (g & Hg & T). exists (g_body g). split; [now apply in_map|]. now rewrite E2.
Qed.
Lemma test_paths_exact robot body s0 p command : well_formed robot command -> ~ In body (command_bodies _ _ _ g_body command) -> forall s, kept robot body s0 s p ->
  test_paths link_pose touch body s command = true <-> command_touches robot command s0 body p.
Proof.
  induction command as [|b command IH]; intros W NB s K.
  - simpl. split; [discriminate|]. intros (l & atts & q & [] & _).
  - cbn [test_paths].
    assert (W' : well_formed robot command) by (intros x Hx; apply W; right; auto).
    assert (NB' : ~ In body (command_bodies _ _ _ g_body command)) by (intro X; apply NB; simpl; apply in_or_app; auto).
    assert (NM : ~ In body (path_bodies _ _ _ g_body b)) by (intro X; apply NB; simpl; apply in_or_app; auto).
    destruct (mem body (path_bodies _ _ _ g_body b)) eqn:M; [apply mem_in in M; contradiction|]. clear M.
    pose proof (W b (or_introl eq_refl)) as Wb.
    assert (Other : (forall l atts, b <> body_path_of robot l atts) -> (command_touches robot command s0 body p <-> command_touches robot (b :: command) s0 body p)).
    { intro D. split; intros (l & atts & q & H1 & H2); exists l, atts, q; split; auto; [right; auto|]. destruct H1 as [->|H1]; auto. exfalso. eapply D. reflexivity. }
    destruct b as [r l [] atts|b' r k|b' r k].
    + destruct Wb as [-> P]. cbn [path_bodies] in NM |- *. assert (N : body <> robot) by (intros ->; apply NM; left; auto).
      assert (B : ~ In body (map g_body atts)) by (intro; apply NM; right; auto).
      pose proof (iterator_exact link_pose robot l atts s P) as F. set (t := iterator link_pose s (body_path_of robot l atts)) in *.
      assert (Here : existsb (fun s' => existsb (fun mov => collides touch s' mov body) (robot :: map g_body atts)) t = true <->
        exists q, In q l /\ (touch robot body (pose_at s0 robot) q p (joints_at s0 body) = true \/ exists g, In g atts /\ touch (g_body g) body (held_at link_pose g q) (joints_at s0 (g_body g)) p (joints_at s0 body) = true)).
      { rewrite existsb_exists. split.
        - intros (s' & Hs & T). destruct (Forall2_in_r _ _ _ _ F Hs) as (q & Hq & C). exists q. split; auto. now apply (touch_state robot body s0 s p atts q s').
        - intros (q & Hq & T). destruct (Forall2_in_l _ _ _ _ F Hq) as (s' & Hs & C). exists s'. split; auto. now apply (touch_state robot body s0 s p atts q s'). }
      assert (K' : kept robot body s0 (last t s) p).
      { destruct t as [|x t'] eqn:Et; auto. assert (I : In (last (x :: t') s) (x :: t')) by (apply last_in; discriminate).
        destruct (Forall2_in_r _ _ _ _ F I) as (q & _ & C). eapply kept_carried; eauto. }
      destruct (existsb _ t) eqn:X.
      * split; auto. intros _. destruct (proj1 Here eq_refl) as (q & Hq & T). exists l, atts, q. split; [left; auto|auto].
      * rewrite (IH W' NB' _ K'). split.
        -- intros (l' & a' & q & H1 & H2). exists l', a', q. split; auto. right. auto.
        -- intros (l' & a' & q & [H1|H1] & H2 & H3); [|exists l', a', q; auto]. injection H1 as <- <-. assert (false = true); [|discriminate]. apply Here. eauto.
    + cbn [iterator existsb last]. rewrite (IH W' NB' _ K). apply Other. discriminate.
    + cbn [iterator existsb last]. rewrite (IH W' NB' _ K). apply Other. discriminate.
Qed.
(** The test tells exactly whether a body that the command does not involve is touched while the command is executed. *)
Theorem movable_test_exact : forall robot command s body p, well_formed robot command ->
  movable_collision_test link_pose touch s command body (BodyPose body p) = true <->
  (~ In body (command_bodies _ _ _ g_body command) /\ command_touches robot command (assign_pose s (BodyPose body p)) body p).
Proof.
  intros robot command s body p W. unfold movable_collision_test. destruct (mem body (command_bodies _ _ _ g_body command)) eqn:M.
  - apply mem_in in M. split; [discriminate|tauto].
  - assert (N : ~ In body (command_bodies _ _ _ g_body command)) by (intro X; apply mem_in in X; congruence).
    assert (K : kept robot body (assign_pose s (BodyPose body p)) (assign_pose s (BodyPose body p)) p) by (split; [auto|split; [apply put_same|auto]]).
    rewrite (test_paths_exact robot body (assign_pose s (BodyPose body p)) p command W N _ K). tauto.
Qed.
End MovableTest.

(** *** C121: the motion streams *)
Section Motion.
Variable link_pose : nat -> jconf -> nat -> pose.
Variable touch : nat -> nat -> pose -> jconf -> pose -> jconf -> bool.
Variable robot : nat.
Variable plan : sim -> nat -> jconf -> list nat -> list body_grasp -> option (list jconf).
(** robot and attachments are clear of a body at pose p in configuration c *)
Definition clear_of (s : sim) (atts : list body_grasp) (c : jconf) (b : nat) (p : pose) : Prop :=
  touch robot b (pose_at s robot) c p (joints_at s b) = false /\
  forall g, In g atts -> touch (g_body g) b (held_at link_pose g c) (joints_at s (g_body g)) p (joints_at s b) = false.
(** plan_joint_motion: from where the robot is to the goal, clear of the obstacles where they are *)
Definition plan_exact : Prop := forall s q obstacles atts l, plan s robot q obstacles atts = Some l ->
  hd_error l = Some (joints_at s robot) /\ last l [] = q /\
  forall c b, In c l -> In b obstacles -> ~ In b (map g_body atts) -> clear_of s atts c b (pose_at s b).

Definition at_poses (l : list (nat * pose)) : list ((nat * body_pose) + nat) := map (fun x => inl (fst x, BodyPose (fst x) (snd x))) l.
Lemma assign_fluents l : forall s, exists s', assign_fluent_state s (at_poses l) = Some (map fst l, s') /\ joints_at s' = joints_at s /\
  (forall b, ~ In b (map fst l) -> pose_at s' b = pose_at s b) /\ (NoDup (map fst l) -> forall o p, In (o, p) l -> pose_at s' o = p).
Proof.
  induction l as [|[o p] l IH]; intro s.
  - exists s. simpl. split; auto. split; auto. split; auto. intros _ o p [].
  - simpl. destruct (IH (assign_pose s (BodyPose o p))) as (s' & -> & J & R & A). exists s'. split; auto. split; [exact J|]. split.
    + intros b Hb. rewrite R by tauto. simpl. apply put_other. intros ->. tauto.
    + intros N o' p' [H|H]; inversion N as [|? ? N1 N2]; subst; [|auto]. inversion H; subst. rewrite R by auto. apply put_same.
Qed.
(** A planned motion leads from the first to the second configuration, and on the way the robot and what it
    holds are clear of the fixed bodies and of every object at the pose the planner gives it. *)
Theorem motion_sound : plan_exact -> forall fixed s c1 c2 atts objects command s', proper robot atts ->
  c_body c1 = robot -> ~ In robot fixed -> NoDup (map fst objects) -> ~ In robot (map fst objects) -> (forall b, In b fixed -> ~ In b (map fst objects)) ->
  motion_fn robot plan fixed false s c1 c2 atts (at_poses objects) = Planned command s' ->
  exists l, command = [body_path_of robot l atts] /\ follows _ _ _ (configuration c1) command (configuration c2) /\
    forall c, In c l -> (forall b, In b fixed -> ~ In b (map g_body atts) -> clear_of s atts c b (pose_at s b)) /\
                        (forall o p, In (o, p) objects -> ~ In o (map g_body atts) -> clear_of s atts c o p).
Proof.
  intros E fixed s c1 c2 atts objects command s' (_ & PR & _) R NF ND NR DJ H. unfold motion_fn in H.
  destruct (c_body c1 =? c_body c2)%nat; [|discriminate]. cbn [negb] in H.
  destruct (assign_fluents objects (assign_conf s c1)) as (s2 & A & J & Re & P). rewrite A in H.
  destruct (plan s2 robot (configuration c2) (fixed ++ map fst objects) atts) as [l|] eqn:Ep; [|discriminate]. injection H as <- <-.
  destruct (E _ _ _ _ _ Ep) as (H1 & H2 & H3). exists l. split; auto.
  assert (J1 : joints_at s2 robot = configuration c1) by (rewrite J, <- R; apply put_same).
  assert (J2 : forall b, b <> robot -> joints_at s2 b = joints_at s b) by (intros b Hb; rewrite J; simpl; rewrite R; now apply put_other).
  split.
  - apply FPath with (last l (configuration c1)); [rewrite H1; f_equal; exact J1|reflexivity|].
    destruct l as [|c l]; [discriminate|]. rewrite <- H2, !last_cons. constructor.
  - assert (T : forall c b p, In c l -> In b (fixed ++ map fst objects) -> pose_at s2 b = p -> b <> robot -> ~ In b (map g_body atts) -> clear_of s atts c b p).
    { intros c b p Hc Hb Hp Nb Na. destruct (H3 c b Hc Hb Na) as [T1 T2]. rewrite Hp in *. split.
      - rewrite (Re robot) in T1 by auto. rewrite J2 in T1 by auto. exact T1.
      - intros g Hg. specialize (T2 g Hg). rewrite (J2 b) in T2 by auto.
        rewrite (J2 (g_body g)) in T2; auto. intro X. apply PR. rewrite <- X. now apply in_map. }
    intros c Hc. split.
    + intros b Hb Na. apply T; auto; [apply in_or_app; auto|rewrite Re by auto; reflexivity|intros ->; auto].
    + intros o p Ho Na. assert (Io : In o (map fst objects)) by (apply in_map_iff; exists (o, p); auto).
      apply T; auto; [apply in_or_app; auto|intros ->; auto].
Qed.
(** A call raises exactly if the configurations are of different bodies or, unless it teleports, if there is a fluent
    that is not a pose. *)
Lemma assign_raises l : forall s, assign_fluent_state s l = None <-> exists x, In (inr x) l.
Proof.
  induction l as [|[[o p]|x] l IH]; intro s; simpl.
  - split; [discriminate|intros (x & [])].
  - specialize (IH (assign_pose s p)). destruct (assign_fluent_state (assign_pose s p) l) as [[? ?]|].
    + split; [discriminate|]. intros (x & [H|H]); [discriminate|]. assert (X : Some (l0, s0) = None) by (apply IH; eauto). discriminate.
    + split; auto. intros _. destruct (proj1 IH eq_refl) as (x & H). exists x. right. auto.
  - split; auto. intros _. exists x. left. auto.
Qed.
Theorem motion_raises_exactly : forall fixed teleport s c1 c2 atts fluents,
  motion_fn robot plan fixed teleport s c1 c2 atts fluents = Raised <->
  (c_body c1 <> c_body c2 \/ (teleport = false /\ exists x, In (inr x) fluents)).
Proof.
  intros. unfold motion_fn. destruct (c_body c1 =? c_body c2)%nat eqn:E; cbn [negb].
  - apply Nat.eqb_eq in E. destruct teleport; [split; [discriminate|intros [H|[H _]]; congruence]|].
    pose proof (assign_raises fluents (assign_conf s c1)) as A. destruct (assign_fluent_state (assign_conf s c1) fluents) as [[? ?]|].
    + split; [destruct (plan _ _ _ _ _); discriminate|]. intros [H|[_ H]]; [congruence|]. apply A in H. discriminate.
    + split; auto. intros _. right. split; auto. now apply A.
  - apply Nat.eqb_neq in E. tauto.
Qed.
End Motion.
(** With [teleport] nothing is checked: the two configurations are joined whatever is between or around them. *)
Theorem teleport_checked_refuted : exists touch plan s c1 c2 command s', motion_fn 0 plan [1%nat] true s c1 c2 [] [] = Planned command s' /\
  (forall link_pose, plan_exact link_pose touch 0 plan) /\ ~ (forall l c, In (body_path_of 0 l []) command -> In c l -> touch 0%nat 1%nat (pose_at s 0%nat) c (pose_at s 1%nat) (joints_at s 1%nat) = false).
Proof.
  exists (fun _ _ _ _ _ _ => true), (fun _ _ _ _ _ => None), (Sim (fun _ => []) (fun _ => unit_pose)), (BodyConf 0 [0]), (BodyConf 0 [1]). eexists _, _.
  split; [reflexivity|]. split; [intros k s q o a l H; discriminate|].
  intro H. specialize (H _ [0] (or_introl eq_refl) (or_introl eq_refl)). discriminate.
Qed.
Print Assumptions ik_sound.
Print Assumptions ik_fails_exactly.
Print Assumptions certified_conf_holds.
Print Assumptions top_conf_one_cm_above.
Print Assumptions iterator_exact.
Print Assumptions movable_test_exact.
Print Assumptions motion_sound.
Print Assumptions motion_raises_exactly.
Print Assumptions teleport_checked_refuted.
