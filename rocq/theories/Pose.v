(** Rigid poses of pybullet_tools.utils (library assumption, DESIGN.md section 3): a pose is a
    rotation matrix and a point; [multiply] composes, [invert] inverts, [Pose(point, euler)] turns
    about x, then y, then z. *)
From Coq Require Import Reals Lra Lia List.
From Verif Require Import Space.
Import ListNotations.
Local Open Scope R_scope.

(** rows of the matrix *)
Notation mat := (r3 * r3 * r3)%type.
Definition row1 (m : mat) : r3 := fst (fst m).
Definition row2 (m : mat) : r3 := snd (fst m).
Definition row3 (m : mat) : r3 := snd m.
Definition dotp (u v : r3) : R := px u * px v + py u * py v + pz u * pz v.
Definition addp (u v : r3) : r3 := (px u + px v, py u + py v, pz u + pz v).
Definition oppp (u : r3) : r3 := (- px u, - py u, - pz u).
Definition transpose (m : mat) : mat :=
  ((px (row1 m), px (row2 m), px (row3 m)), (py (row1 m), py (row2 m), py (row3 m)), (pz (row1 m), pz (row2 m), pz (row3 m))).
Definition mulv (m : mat) (v : r3) : r3 := (dotp (row1 m) v, dotp (row2 m) v, dotp (row3 m) v).
Definition mulm (a b : mat) : mat :=
  let t := transpose b in (mulv t (row1 a), mulv t (row2 a), mulv t (row3 a)).
Definition eye : mat := ((1, 0, 0), (0, 1, 0), (0, 0, 1)).
Definition rotation (m : mat) : Prop := mulm m (transpose m) = eye /\ mulm (transpose m) m = eye.

Record pose := mkPose { rot : mat; point : r3 }.
Definition unit_pose : pose := mkPose eye (0, 0, 0).
Definition multiply (p q : pose) : pose := mkPose (mulm (rot p) (rot q)) (addp (mulv (rot p) (point q)) (point p)).
Definition invert (p : pose) : pose := mkPose (transpose (rot p)) (oppp (mulv (transpose (rot p)) (point p))).
(** where the point [v] of the frame [p] is *)
Definition apply (p : pose) (v : r3) : r3 := addp (mulv (rot p) v) (point p).
Definition shift (v : r3) : pose := mkPose eye v.
Definition rigid (p : pose) : Prop := rotation (rot p).
Definition rot_x (a : R) : mat := ((1, 0, 0), (0, cos a, - sin a), (0, sin a, cos a)).
Definition rot_y (a : R) : mat := ((cos a, 0, sin a), (0, 1, 0), (- sin a, 0, cos a)).
Definition rot_z (a : R) : mat := ((cos a, - sin a, 0), (sin a, cos a, 0), (0, 0, 1)).
Definition from_euler (roll pitch yaw : R) : mat := mulm (rot_z yaw) (mulm (rot_y pitch) (rot_x roll)).

Ltac unpose := unfold rigid, rotation, multiply, invert, apply, shift, unit_pose, mulm, mulv, transpose, addp, oppp, dotp, eye, row1, row2, row3, px, py, pz in *; cbn [fst snd rot point] in *.

Lemma pair_eq {A B} (a c : A) (b d : B) : a = c -> b = d -> (a, b) = (c, d).
Proof. intros -> ->. reflexivity. Qed.
Lemma pose_eq a b c d : a = c -> b = d -> mkPose a b = mkPose c d.
Proof. intros -> ->. reflexivity. Qed.
Ltac comps := repeat first [apply pose_eq | apply pair_eq].

Lemma mulm_assoc a b c : mulm a (mulm b c) = mulm (mulm a b) c.
Proof. unpose. comps; ring. Qed.
Lemma mulm_eye_l a : mulm eye a = a.
Proof. destruct a as [[[[? ?] ?] [[? ?] ?]] [[? ?] ?]]. unpose. comps; ring. Qed.
Lemma mulm_eye_r a : mulm a eye = a.
Proof. destruct a as [[[[? ?] ?] [[? ?] ?]] [[? ?] ?]]. unpose. comps; ring. Qed.
Lemma mulv_mulm a b v : mulv (mulm a b) v = mulv a (mulv b v).
Proof. unpose. comps; ring. Qed.
Lemma mulv_eye v : mulv eye v = v.
Proof. destruct v as [[? ?] ?]. unpose. comps; ring. Qed.
Lemma mulv_addp a u v : mulv a (addp u v) = addp (mulv a u) (mulv a v).
Proof. unpose. comps; ring. Qed.
Lemma mulv_oppp a v : mulv a (oppp v) = oppp (mulv a v).
Proof. unpose. comps; ring. Qed.
Lemma transpose_mulm a b : transpose (mulm a b) = mulm (transpose b) (transpose a).
Proof. unpose. comps; ring. Qed.
Lemma transpose_invol a : transpose (transpose a) = a.
Proof. destruct a as [[[[? ?] ?] [[? ?] ?]] [[? ?] ?]]. reflexivity. Qed.
Lemma addp_assoc u v w : addp u (addp v w) = addp (addp u v) w.
Proof. unpose. comps; ring. Qed.
Lemma addp_0_l v : addp (0, 0, 0) v = v.
Proof. destruct v as [[? ?] ?]. unpose. comps; ring. Qed.
Lemma addp_0_r v : addp v (0, 0, 0) = v.
Proof. destruct v as [[? ?] ?]. unpose. comps; ring. Qed.
Lemma addp_opp v : addp v (oppp v) = (0, 0, 0).
Proof. unpose. comps; ring. Qed.
Lemma addp_opp_l v : addp (oppp v) v = (0, 0, 0).
Proof. unpose. comps; ring. Qed.

Lemma multiply_assoc a b c : multiply a (multiply b c) = multiply (multiply a b) c.
Proof.
  unfold multiply. cbn [rot point]. rewrite mulm_assoc. f_equal. rewrite mulv_addp, mulv_mulm. apply eq_sym, eq_sym. rewrite addp_assoc. reflexivity.
Qed.
Lemma multiply_unit_l a : multiply unit_pose a = a.
Proof. destruct a as [m v]. unfold multiply, unit_pose. cbn [rot point]. now rewrite mulm_eye_l, mulv_eye, addp_0_r. Qed.
Lemma multiply_unit_r a : multiply a unit_pose = a.
Proof.
  destruct a as [m v]. unfold multiply, unit_pose. cbn [rot point]. rewrite mulm_eye_r. f_equal.
  destruct v as [[? ?] ?]. unpose. comps; ring.
Qed.
Lemma invert_r p : rigid p -> multiply p (invert p) = unit_pose.
Proof.
  intros [H _]. unfold multiply, invert. cbn [rot point]. rewrite H, mulv_oppp, <- mulv_mulm, H, mulv_eye, addp_opp_l. reflexivity.
Qed.
Lemma invert_l p : rigid p -> multiply (invert p) p = unit_pose.
Proof.
  intros [_ H]. unfold multiply, invert. cbn [rot point]. rewrite H, addp_opp. reflexivity.
Qed.
Lemma rigid_multiply p q : rigid p -> rigid q -> rigid (multiply p q).
Proof.
  intros [P1 P2] [Q1 Q2]. unfold rigid, rotation, multiply. cbn [rot point]. rewrite transpose_mulm. split.
  - rewrite mulm_assoc, <- (mulm_assoc (rot p)), Q1, mulm_eye_r. exact P1.
  - rewrite mulm_assoc, <- (mulm_assoc (transpose (rot q))), P2, mulm_eye_r. exact Q2.
Qed.
Lemma rigid_invert p : rigid p -> rigid (invert p).
Proof. intros [P1 P2]. unfold rigid, rotation, invert. cbn [rot point]. now rewrite transpose_invol. Qed.
Lemma rigid_shift v : rigid (shift v).
Proof. unfold rigid, rotation, shift. cbn [rot]. assert (E : transpose eye = eye) by reflexivity. rewrite E, mulm_eye_l. auto. Qed.
Lemma rigid_unit : rigid unit_pose.
Proof. apply rigid_shift. Qed.
Lemma multiply_cancel_l p a b : rigid p -> multiply p a = multiply p b -> a = b.
Proof.
  intros H E. rewrite <- (multiply_unit_l a), <- (multiply_unit_l b), <- (invert_l p H), <- !multiply_assoc. now rewrite E.
Qed.
Lemma multiply_cancel_r p a b : rigid p -> multiply a p = multiply b p -> a = b.
Proof.
  intros H E. rewrite <- (multiply_unit_r a), <- (multiply_unit_r b), <- (invert_r p H), !multiply_assoc. now rewrite E.
Qed.
Lemma apply_multiply p q v : apply (multiply p q) v = apply p (apply q v).
Proof. unfold apply, multiply. cbn [rot point]. now rewrite mulv_addp, mulv_mulm, addp_assoc. Qed.
Lemma multiply_shift v p : multiply (shift v) p = mkPose (rot p) (addp v (point p)).
Proof.
  unfold multiply, shift. cbn [rot point]. rewrite mulm_eye_l, mulv_eye. f_equal. unpose. comps; ring.
Qed.
Lemma multiply_shift_shift u v : multiply (shift u) (shift v) = shift (addp u v).
Proof. rewrite multiply_shift. reflexivity. Qed.
Lemma rotation_x a : rotation (rot_x a).
Proof. pose proof (sin2_cos2 a) as H. unfold Rsqr in H. unfold rot_x. unpose. split; comps; lra. Qed.
Lemma rotation_y a : rotation (rot_y a).
Proof. pose proof (sin2_cos2 a) as H. unfold Rsqr in H. unfold rot_y. unpose. split; comps; lra. Qed.
Lemma rotation_z a : rotation (rot_z a).
Proof. pose proof (sin2_cos2 a) as H. unfold Rsqr in H. unfold rot_z. unpose. split; comps; lra. Qed.
Lemma rotation_mulm a b : rotation a -> rotation b -> rotation (mulm a b).
Proof. intros A B. exact (rigid_multiply (mkPose a (0, 0, 0)) (mkPose b (0, 0, 0)) A B). Qed.
Lemma rotation_euler r p y : rotation (from_euler r p y).
Proof. repeat apply rotation_mulm; [apply rotation_z|apply rotation_y|apply rotation_x]. Qed.
