(** C117: the grasps of kuka_primitives.get_top_grasps. *)
From Coq Require Import Reals Lra Lia List Bool Arith.
From Verif Require Import Space Pose Kuka_Model Prim_Model.
Import ListNotations.
Local Open Scope R_scope.

(** *** Specification *)
(** points of the box with the given centre and side lengths *)
Definition in_prism (center : r3) (w l h : R) (v : r3) : Prop :=
  Rabs (px v - px center) <= w / 2 /\ Rabs (py v - py center) <= l / 2 /\ Rabs (pz v - pz center) <= h / 2.
(** A grasp places the body in the frame of the tool: it maps points of the body to points of the tool frame.
    It is at depth [d] below the centre of the top face, looking down. *)
Definition top_centre_grasp (center : r3) (h d : R) (g : pose) : Prop :=
  rigid g /\ apply g (px center, py center, pz center + (h / 2 - d)) = (0, 0, 0) /\
  forall v, pz (apply g v) = - (pz v - (pz center + (h / 2 - d))).
(** the fingers close along the y axis of the tool *)
Definition fits_gripper (center : r3) (w l h m : R) (g : pose) : Prop :=
  forall u v, in_prism center w l h u -> in_prism center w l h v -> py (apply g u) - py (apply g v) <= m.

(** *** Proofs *)
Lemma rot_x_0 : rot_x 0 = eye.
Proof. unfold rot_x, eye. rewrite cos_0, sin_0, Ropp_0. reflexivity. Qed.
Lemma rot_y_0 : rot_y 0 = eye.
Proof. unfold rot_y, eye. rewrite cos_0, sin_0, Ropp_0. reflexivity. Qed.
Lemma rot_z_0 : rot_z 0 = eye.
Proof. unfold rot_z, eye. rewrite cos_0, sin_0, Ropp_0. reflexivity. Qed.
Lemma euler_z a : from_euler 0 0 a = rot_z a.
Proof. unfold from_euler. now rewrite rot_x_0, rot_y_0, !mulm_eye_r. Qed.
Lemma euler_flip : from_euler 0 PI 0 = ((-1, 0, 0), (0, 1, 0), (0, 0, -1)).
Proof. unfold from_euler. rewrite rot_x_0, rot_z_0, mulm_eye_r, mulm_eye_l. unfold rot_y. rewrite cos_PI, sin_PI, Ropp_0. reflexivity. Qed.
Definition grasp_at (center : r3) (h d a : R) : pose :=
  multiply unit_pose (multiply (shift (0, 0, h / 2 - d)) (multiply (mkPose (from_euler 0 0 a) (0, 0, 0)) (multiply (mkPose (from_euler 0 PI 0) (0, 0, 0)) (multiply (shift (addp (point unit_pose) (oppp center))) unit_pose)))).
Lemma apply_shift u v : apply (shift u) v = addp v u.
Proof. unfold apply, shift. cbn [rot point]. now rewrite mulv_eye. Qed.
Lemma apply_unit v : apply unit_pose v = v.
Proof. unfold apply, unit_pose. cbn [rot point]. now rewrite mulv_eye, addp_0_r. Qed.
Lemma apply_rot m v : apply (mkPose m (0, 0, 0)) v = mulv m v.
Proof. unfold apply. cbn [rot point]. apply addp_0_r. Qed.
Lemma grasp_at_apply center h d a v : apply (grasp_at center h d a) v =
  (- cos a * (px v - px center) - sin a * (py v - py center), - sin a * (px v - px center) + cos a * (py v - py center), - (pz v - pz center) + (h / 2 - d)).
Proof.
  unfold grasp_at. rewrite !apply_multiply, !apply_unit, !apply_shift, !apply_rot, euler_z, euler_flip. cbn [point unit_pose]. rewrite addp_0_l.
  destruct v as [[v1 v2] v3], center as [[c1 c2] c3].
  assert (E : addp (v1, v2, v3) (oppp (c1, c2, c3)) = (v1 - c1, v2 - c2, v3 - c3)) by (unpose; comps; ring). rewrite E.
  assert (F : mulv ((-1, 0, 0), (0, 1, 0), (0, 0, -1)) (v1 - c1, v2 - c2, v3 - c3) = (- (v1 - c1), v2 - c2, - (v3 - c3))) by (unpose; comps; ring). rewrite F.
  unfold rot_z. unpose. comps; ring.
Qed.
Lemma rigid_rot m v : rotation m -> rigid (mkPose m v).
Proof. intro H. exact H. Qed.
Lemma grasp_at_rigid center h d a : rigid (grasp_at center h d a).
Proof.
  unfold grasp_at. apply rigid_multiply; [apply rigid_unit|]. apply rigid_multiply; [apply rigid_shift|].
  apply rigid_multiply; [apply rigid_rot, rotation_euler|]. apply rigid_multiply; [apply rigid_rot, rotation_euler|].
  apply rigid_multiply; [apply rigid_shift|apply rigid_unit].
Qed.
Lemma grasp_at_top center h d a : top_centre_grasp center h d (grasp_at center h d a).
Proof.
  split; [apply grasp_at_rigid|]. split.
  - rewrite grasp_at_apply. unpose. comps; ring.
  - intro v. rewrite grasp_at_apply. unfold pz at 1. cbn [snd]. ring.
Qed.
Lemma cos_PI2_PI : cos (PI / 2 + PI) = 0.
Proof. rewrite neg_cos, cos_PI2. ring. Qed.
Lemma sin_PI2_PI : sin (PI / 2 + PI) = -1.
Proof. rewrite neg_sin, sin_PI2. ring. Qed.
Lemma turn_cases i (under : bool) : In i (seq 0 (if under then 2 else 1)) -> i = 0%nat \/ i = 1%nat.
Proof. rewrite in_seq. destruct under; lia. Qed.
Lemma get_top_grasps_in center w l h under m d g : In g (get_top_grasps center w l h under unit_pose unit_pose m d) ->
  exists a, g = grasp_at center h d a /\
    ((leb_opt w m = true /\ cos a = 0 /\ (sin a = 1 \/ sin a = -1)) \/ (leb_opt l m = true /\ sin a = 0 /\ (cos a = 1 \/ cos a = -1))).
Proof.
  unfold get_top_grasps. intro H. apply in_app_or in H. destruct H as [H|H].
  - destruct (leb_opt w m) eqn:E; [|inversion H]. apply in_map_iff in H. destruct H as (i & <- & Hi).
    exists (PI / 2 + INR i * PI). split; [reflexivity|]. left. split; auto.
    destruct (turn_cases _ _ Hi) as [-> | ->]; simpl INR.
    + rewrite Rmult_0_l, Rplus_0_r. split; [apply cos_PI2|left; apply sin_PI2].
    + rewrite Rmult_1_l. split; [apply cos_PI2_PI|right; apply sin_PI2_PI].
  - destruct (leb_opt l m) eqn:E; [|inversion H]. apply in_map_iff in H. destruct H as (i & <- & Hi).
    exists (INR i * PI). split; [reflexivity|]. right. split; auto.
    destruct (turn_cases _ _ Hi) as [-> | ->]; simpl INR.
    + rewrite Rmult_0_l. split; [apply sin_0|left; apply cos_0].
    + rewrite Rmult_1_l. split; [apply sin_PI|right; apply cos_PI].
Qed.
Lemma abs_half a b c : Rabs (a - c) <= b / 2 -> - (b / 2) <= a - c <= b / 2.
Proof. intro H. split; [|eapply Rle_trans; [apply Rle_abs|exact H]]. pose proof (Rle_abs (- (a - c))) as A. rewrite Rabs_Ropp in A. lra. Qed.

(** Every grasp is centred over the top face and looks straight down, for every gripper. *)
Theorem top_grasp_geometry : forall center w l h under m d g,
  In g (get_top_grasps center w l h under unit_pose unit_pose m d) -> top_centre_grasp center h d g.
Proof. intros center w l h under m d g H. destruct (get_top_grasps_in _ _ _ _ _ _ _ _ H) as (a & -> & _). apply grasp_at_top. Qed.
(** With a bounded gripper, the body fits between the fingers. *)
Theorem top_grasp_fits : forall center w l h under m d g,
  In g (get_top_grasps center w l h under unit_pose unit_pose (Some m) d) -> fits_gripper center w l h m g.
Proof.
  intros center w l h under m d g H u v (U1 & U2 & U3) (V1 & V2 & V3). destruct (get_top_grasps_in _ _ _ _ _ _ _ _ H) as (a & -> & C).
  assert (Y : forall t, py (apply (grasp_at center h d a) t) = - sin a * (px t - px center) + cos a * (py t - py center)) by (intro t; rewrite grasp_at_apply; reflexivity).
  rewrite !Y.
  apply abs_half in U1, U2, V1, V2. unfold leb_opt in C.
  destruct C as [(C & -> & [-> | ->])|(C & -> & [-> | ->])]; [destruct (Rle_dec w m)|destruct (Rle_dec w m)|destruct (Rle_dec l m)|destruct (Rle_dec l m)]; try discriminate; lra.
Qed.
(** A gripper that is wide enough for one side has a grasp. *)
Theorem top_grasp_exists : forall center w l h under m d,
  get_top_grasps center w l h under unit_pose unit_pose (Some m) d <> [] <-> w <= m \/ l <= m.
Proof.
  intros. unfold get_top_grasps, leb_opt. destruct (Rle_dec w m), (Rle_dec l m), under; cbn [seq map app]; split; intro H; auto; try discriminate; try congruence; tauto.
Qed.
(** The grasps of "top": four, by quarter turns. *)
Definition x_axis (g : pose) : r3 := mulv (rot g) (1, 0, 0).
Lemma x_axis_apply g : x_axis g = addp (apply g (1, 0, 0)) (oppp (apply g (0, 0, 0))).
Proof. destruct g as [m v]. unfold x_axis, apply. cbn [rot point]. unpose. comps; ring. Qed.
Lemma x_axis_at center h d a : x_axis (grasp_at center h d a) = (- cos a, - sin a, 0).
Proof. rewrite x_axis_apply, !grasp_at_apply. destruct center as [[c1 c2] c3]. generalize (cos a) (sin a). intros c t. unpose. comps; ring. Qed.
Theorem top_grasps_quarter_turns : forall center w l h,
  map x_axis (top_grasps center w l h) = [(0, -1, 0); (0, 1, 0); (-1, 0, 0); (1, 0, 0)] /\ NoDup (top_grasps center w l h).
Proof.
  intros. assert (E : map x_axis (top_grasps center w l h) = [(0, -1, 0); (0, 1, 0); (-1, 0, 0); (1, 0, 0)]).
  { transitivity (map x_axis [grasp_at center h 0 (PI / 2 + INR 0 * PI); grasp_at center h 0 (PI / 2 + INR 1 * PI); grasp_at center h 0 (INR 0 * PI); grasp_at center h 0 (INR 1 * PI)]); [reflexivity|].
    cbn [map]. rewrite !x_axis_at. simpl INR. rewrite !Rmult_0_l, !Rmult_1_l, Rplus_0_r, cos_PI2, sin_PI2, cos_PI2_PI, sin_PI2_PI, cos_0, sin_0, cos_PI, sin_PI.
    f_equal; [|f_equal; [|f_equal; [|f_equal]]]; comps; lra. }
  split; auto. apply (NoDup_map_inv x_axis). rewrite E.
  assert (D : forall (x y z : R) (x' y' z' : R), x <> x' \/ y <> y' -> (x, y, z) <> (x', y', z')) by (intros x y z x' y' z' [N|N] Q; inversion Q; auto).
  constructor; [|constructor; [|constructor; [|constructor; [intros []|constructor]]]]; cbn [In].
  - intros [H|[H|[H|[]]]]; revert H; apply D; lra.
  - intros [H|[H|[]]]; revert H; apply D; lra.
  - intros [H|[]]; revert H; apply D; lra.
Qed.
(** The grasps of a body: four, all of that body by the given tool, from above the centre of its top face, approached from a centimetre above. *)
Theorem grasp_gen_exact : forall robot tool_link prism body center w l h, prism body = (center, (w, l, h)) ->
  length (grasp_gen robot tool_link prism body) = 4%nat /\ NoDup (map grasp_pose (grasp_gen robot tool_link prism body)) /\
  forall g, In g (grasp_gen robot tool_link prism body) -> g_body g = body /\ g_robot g = robot /\ g_link g = tool_link /\ top_centre_grasp center h 0 (grasp_pose g) /\
    rot (approach_pose g) = eye /\ point (approach_pose g) = (0, 0, 1 / 100).
Proof.
  intros robot tool_link prism body center w l h E. unfold grasp_gen. rewrite E. destruct (top_grasps_quarter_turns center w l h) as [Q N]. rewrite map_length, map_map. cbn [grasp_pose]. rewrite map_id.
  split; [apply (f_equal (@length _)) in Q; rewrite map_length in Q; exact Q|]. split; auto. intros g Hg. apply in_map_iff in Hg as (p & <- & Hp). cbn. repeat split; auto; apply (top_grasp_geometry center w l h true None 0 p Hp).
Qed.
Print Assumptions grasp_gen_exact.
Print Assumptions top_grasp_geometry.
Print Assumptions top_grasp_fits.
Print Assumptions top_grasp_exists.
Print Assumptions top_grasps_quarter_turns.

(** A box of 6 cm x 10 cm x 20 cm and a gripper of 8 cm: two grasps, across the short side. *)
Example top_grasps_ex : length (get_top_grasps (0, 0, 0) (6/100) (10/100) (20/100) true unit_pose unit_pose (Some (8/100)) 0) = 2%nat /\
  exists g, In g (get_top_grasps (0, 0, 0) (6/100) (10/100) (20/100) true unit_pose unit_pose (Some (8/100)) 0).
Proof.
  unfold get_top_grasps, leb_opt. destruct (Rle_dec (6/100) (8/100)) as [A|A]; [|lra]. destruct (Rle_dec (10/100) (8/100)) as [B|B]; [lra|].
  split; [reflexivity|]. eexists. left. reflexivity.
Qed.
Example in_prism_ex : in_prism (0, 0, 0) (6/100) (10/100) (20/100) (3/100, -(5/100), 0).
Proof.
  unfold in_prism, px, py, pz. cbn [fst snd]. rewrite !Rminus_0_r.
  split; [rewrite Rabs_pos_eq; lra|]. split; [rewrite Rabs_left; lra|]. rewrite Rabs_R0. lra.
Qed.
Example grasp_gen_ex : map g_body (grasp_gen 0 7 (fun b => ((0, 0, INR b), (6/100, 10/100, 20/100))) 3) = [3; 3; 3; 3]%nat.
Proof. reflexivity. Qed.
