(** Properties of BagOfBoundingBoxes of exps/tamp_environment/kuka_carry/run.py: the region it
    samples and its motion check. *)
From Coq Require Import Reals List Bool Arith ZArith Lra Lia Psatz.
From Verif Require Import Sat_Model Sat_Props Box_Model Box_Props Bin_Model Bin_Props.
Import ListNotations.
Open Scope R_scope.

(** ** The sampled region *)
Definition proper_oobb (o : oobb) : Prop := forall i, (i < 3)%nat -> o_lower o i <= o_upper o i.

Lemma in_vertices o v : In v (oobb_vertices o) <-> exists x y z, In x [o_lower o; o_upper o] /\ In y [o_lower o; o_upper o] /\ In z [o_lower o; o_upper o] /\
  v = vec3 (o_point o 0%nat + x 0%nat) (o_point o 1%nat + y 1%nat) (o_point o 2%nat + z 2%nat).
Proof.
  unfold oobb_vertices. rewrite in_flat_map. split.
  - intros (x & Ix & I). apply in_flat_map in I as (y & Iy & I). apply in_map_iff in I as (z & <- & Iz). exists x, y, z. auto.
  - intros (x & y & z & Ix & Iy & Iz & ->). exists x. split; auto. apply in_flat_map. exists y. split; auto. apply in_map_iff. exists z. auto.
Qed.
Lemma vertex_in o v : proper_oobb o -> In v (oobb_vertices o) -> in_oobb o v.
Proof.
  intros P I. apply in_vertices in I as (x & y & z & Ix & Iy & Iz & ->). intros i Hi. pose proof (P i Hi) as B.
  idx3; cbn; [destruct Ix as [<-|[<-|[]]]|destruct Iy as [<-|[<-|[]]]|destruct Iz as [<-|[<-|[]]]]; lra.
Qed.
Lemma vertices_reach o p i : (i < 3)%nat -> in_oobb o p ->
  exists v v', In v (oobb_vertices o) /\ In v' (oobb_vertices o) /\ v i <= p i <= v' i.
Proof.
  intros Hi P. specialize (P i Hi).
  exists (vec3 (o_point o 0%nat + o_lower o 0%nat) (o_point o 1%nat + o_lower o 1%nat) (o_point o 2%nat + o_lower o 2%nat)),
         (vec3 (o_point o 0%nat + o_upper o 0%nat) (o_point o 1%nat + o_upper o 1%nat) (o_point o 2%nat + o_upper o 2%nat)).
  split; [apply in_vertices; exists (o_lower o), (o_lower o), (o_lower o); cbn; repeat split; auto|].
  split; [apply in_vertices; exists (o_upper o), (o_upper o), (o_upper o); cbn; repeat split; auto|].
  idx3; cbn [vec3]; lra.
Qed.

(** coordinate i of the start or of a point of an obstacle *)
Definition occupied (obstacles : list oobb) (start : vec) (i : nat) (x : R) : Prop :=
  x = start i \/ exists o p, In o obstacles /\ in_oobb o p /\ x = p i.

Lemma env_bound_nth obstacles start theta i : (i < 3)%nat ->
  nth i (env_bounds obstacles start theta) (0, 0) =
  (lmin (map (fun v => v i) (env_vertices obstacles start)), lmax (map (fun v => v i) (env_vertices obstacles start))).
Proof. intro Hi. idx3; reflexivity. Qed.
Lemma env_angle_nth obstacles start theta i : (3 <= i < 6)%nat -> nth i (env_bounds obstacles start theta) (0, 0) = (- theta, theta).
Proof. intro Hi. assert (i = 3 \/ i = 4 \/ i = 5)%nat as [-> | [-> | ->]] by lia; reflexivity. Qed.

Lemma env_bounds_list obstacles start theta : env_bounds obstacles start theta =
  [nth 0 (env_bounds obstacles start theta) (0, 0); nth 1 (env_bounds obstacles start theta) (0, 0); nth 2 (env_bounds obstacles start theta) (0, 0);
   (- theta, theta); (- theta, theta); (- theta, theta)].
Proof. reflexivity. Qed.

(** C98.  In the three position coordinates the region is the smallest interval that contains
    the obstacles and the start; in the three angles it is [-theta_margin, theta_margin]. *)
Theorem sampling_bounds_tight : forall obstacles start theta, (forall o, In o obstacles -> proper_oobb o) ->
  length (env_bounds obstacles start theta) = 6%nat /\
  (forall i, (i < 3)%nat ->
     let b := nth i (env_bounds obstacles start theta) (0, 0) in
     occupied obstacles start i (fst b) /\ occupied obstacles start i (snd b) /\
     forall x, occupied obstacles start i x -> fst b <= x <= snd b) /\
  forall i, (3 <= i < 6)%nat -> nth i (env_bounds obstacles start theta) (0, 0) = (- theta, theta).
Proof.
  intros obstacles start theta P. split; [reflexivity|]. split; [|apply env_angle_nth].
  intros i Hi. cbv zeta. rewrite env_bound_nth by auto. cbn [fst snd].
  assert (N : map (fun v : vec => v i) (env_vertices obstacles start) <> []).
  { unfold env_vertices. rewrite map_app. intro E. apply app_eq_nil in E as (_ & E). discriminate. }
  assert (Occ : forall v, In v (env_vertices obstacles start) -> occupied obstacles start i (v i)).
  { intros v I. unfold env_vertices in I. apply in_app_iff in I as [I|[<-|[]]]; [|left; reflexivity].
    apply in_flat_map in I as (o & Io & I). right. exists o, v. split; auto. split; auto. apply vertex_in; auto. }
  split; [|split].
  - pose proof (lmin_In _ N) as I. apply in_map_iff in I as (v & <- & I). auto.
  - pose proof (lmax_In _ N) as I. apply in_map_iff in I as (v & <- & I). auto.
  - intros x [-> | (o & p & Io & Ip & ->)].
    + assert (I : In (start i) (map (fun v : vec => v i) (env_vertices obstacles start))).
      { apply (in_map (fun v : vec => v i)). unfold env_vertices. apply in_app_iff. right. left. reflexivity. }
      split; [apply lmin_le|apply lmax_ge]; auto.
    + destruct (vertices_reach o p i Hi Ip) as (v & v' & V & V' & B).
      assert (I : forall u, In u (oobb_vertices o) -> In (u i) (map (fun v : vec => v i) (env_vertices obstacles start))).
      { intros u U. apply (in_map (fun v : vec => v i)). unfold env_vertices. apply in_app_iff. left. apply in_flat_map. eauto. }
      pose proof (lmin_le _ _ (I v V)). pose proof (lmax_ge _ _ (I v' V')). lra.
Qed.
Print Assumptions sampling_bounds_tight.

(** C98.  Draws from the unit cube give exactly the points of the region. *)
Definition in_region (bounds : list (R * R)) (q : list R) : Prop :=
  Forall2 (fun b x => fst b <= x <= snd b) bounds q.
Lemma in_region_nth bounds q k : in_region bounds q -> (k < length bounds)%nat -> fst (nth k bounds (0, 0)) <= nth k q 0 <= snd (nth k bounds (0, 0)).
Proof.
  intro H. revert k. induction H as [|b x bs q Hb Hq IH]; intros k L; [cbn in L; lia|]. destruct k; cbn; auto. apply IH. cbn in L. lia.
Qed.
Definition unit_draw (n : nat) (u : list R) : Prop := length u = n /\ Forall (fun x => 0 <= x <= 1) u.

Theorem samples_fill_bounds : forall bounds q, Forall (fun b => fst b <= snd b) bounds ->
  (in_region bounds q <-> exists u, unit_draw (length bounds) u /\ sample_env bounds u = q).
Proof.
  intros bounds q B. unfold in_region, unit_draw. split.
  - intro H. induction H as [|b x bs q Hb Hq IH].
    + exists []. repeat split; auto.
    + inversion B as [|? ? B1 B2]; subst. destruct (IH B2) as (u & (L & U) & E).
      assert (C : exists y, 0 <= y <= 1 /\ fst b + (snd b - fst b) * y = x).
      { destruct (Rle_lt_or_eq_dec _ _ B1) as [Lt|Eq].
        - exists ((x - fst b) / (snd b - fst b)). split; [|field; lra].
          split; [apply Rle_mult_inv_pos; lra|]. apply Rmult_le_reg_r with (snd b - fst b); [lra|]. unfold Rdiv. rewrite Rmult_assoc, Rinv_l; lra.
        - exists 0. lra. }
      destruct C as (y & Hy & Ey). exists (y :: u). split; [split; [cbn; lia|constructor; auto]|].
      unfold sample_env in *. cbn. now rewrite Ey, E.
  - intros (u & (L & U) & <-). revert u L U. induction bounds as [|b bs IH]; intros [|y u] L U; try discriminate; [constructor|].
    inversion B as [|? ? B1 B2]; subst. inversion U as [|? ? U1 U2]; subst. constructor; [cbn; nra|]. apply IH; auto.
Qed.
Print Assumptions samples_fill_bounds.

(** C98.  The region around a bin: the bin's block stretched to the start. *)
Lemma bin_proper gap at_ o : - (5/100) <= gap -> In o (bin_at (container_size gap) container_height at_) -> proper_oobb o.
Proof.
  intros G Io. apply in_map_iff in Io as (w & <- & Iw). rewrite bin_list in Iw.
  destruct Iw as [<-|[<-|[<-|[<-|[<-|[]]]]]]; intros j Hj; idx3; cbn; unfold thickness, container_size, container_height in *; lra.
Qed.
Theorem bin_region : forall gap at_ start theta i, - (5/100) <= gap -> (i < 3)%nat ->
  nth i (env_bounds (bin_at (container_size gap) container_height at_) start theta) (0, 0) =
  (Rmin (start i) (vec3 (fst at_) (snd at_) 0 i + lo (container_size gap) (container_size gap) container_height i),
   Rmax (start i) (vec3 (fst at_) (snd at_) 0 i + hi (container_size gap) (container_size gap) container_height i)).
Proof.
  intros gap at_ start theta i G Hi. pose proof thick as T.
  assert (W : thickness <= container_size gap) by (unfold container_size; lra).
  assert (H : thickness <= container_height) by (unfold container_height; lra).
  destruct (sampling_bounds_tight (bin_at (container_size gap) container_height at_) start theta (fun o => bin_proper gap at_ o G)) as (_ & B & _).
  destruct (B i Hi) as (B1 & B2 & X). clear B.
  destruct (nth i (env_bounds (bin_at (container_size gap) container_height at_) start theta) (0, 0)) as (a, b). cbn [fst snd] in *.
  set (w := container_size gap) in *. set (h := container_height) in *.
  assert (S : a <= start i <= b) by (apply X; left; reflexivity).
  assert (L : occupied (bin_at w h at_) start i (vec3 (fst at_) (snd at_) 0 i + lo w w h i)).
  { right. exists (place at_ (wall (vec3 w w h) thickness 0 (-1))), (fun j => vec3 (fst at_) (snd at_) 0 j + lo w w h j).
    split; [apply in_map; rewrite bin_list; left; reflexivity|]. split; [|reflexivity].
    apply in_place. intros j Hj. unfold shift. idx3; idx3; cbn; lra. }
  assert (U : occupied (bin_at w h at_) start i (vec3 (fst at_) (snd at_) 0 i + hi w w h i)).
  { right. exists (place at_ (wall (vec3 w w h) thickness 0 1)), (fun j => vec3 (fst at_) (snd at_) 0 j + hi w w h j).
    split; [apply in_map; rewrite bin_list; right; left; reflexivity|]. split; [|reflexivity].
    apply in_place. intros j Hj. unfold shift. idx3; idx3; cbn; lra. }
  apply X in L, U.
  assert (O : forall x, occupied (bin_at w h at_) start i x -> x = start i \/
     vec3 (fst at_) (snd at_) 0 i + lo w w h i <= x <= vec3 (fst at_) (snd at_) 0 i + hi w w h i).
  { intros x [-> | (o & p & Io & Ip & ->)]; auto. right. apply in_map_iff in Io as (o' & <- & Io). apply in_place in Ip.
    assert (Q : in_walls (bin_shape w w h thickness) (shift at_ p)) by (exists o'; auto).
    apply bin_walls in Q as (Q & _); auto; try lra. specialize (Q i Hi). unfold shift in Q. lra. }
  apply O in B1, B2. f_equal.
  - unfold Rmin. destruct (Rle_dec _ _); destruct B1; lra.
  - unfold Rmax. destruct (Rle_dec _ _); destruct B2; lra.
Qed.
Print Assumptions bin_region.

(** C98.  Its volume when the start is above the opening. *)
Theorem bin_region_volume : forall gap at_ start theta, - (5/100) <= gap ->
  Rabs (start 0%nat - fst at_) <= container_size gap / 2 -> Rabs (start 1%nat - snd at_) <= container_size gap / 2 ->
  container_height <= start 2%nat ->
  cspace_volume (env_bounds (bin_at (container_size gap) container_height at_) start theta) =
  container_size gap * container_size gap * start 2%nat * (2 * theta) ^ 3.
Proof.
  intros gap at_ start theta G X Y Z.
  assert (A : forall x y, Rabs x <= y -> - y <= x <= y) by (intros x y; unfold Rabs; destruct (Rcase_abs x); lra). apply A in X, Y.
  pose proof (bin_region gap at_ start theta 0 G ltac:(lia)) as B0. pose proof (bin_region gap at_ start theta 1 G ltac:(lia)) as B1.
  pose proof (bin_region gap at_ start theta 2 G ltac:(lia)) as B2.
  cbn [vec3 lo hi] in B0, B1, B2. assert (Hh : 0 < container_height) by (unfold container_height; lra).
  rewrite Rmin_right, Rmax_right in B0, B1 by lra. rewrite Rmin_right, Rmax_left in B2 by lra.
  rewrite env_bounds_list, B0, B1, B2. unfold cspace_volume. cbn [fold_left fst snd]. field.
Qed.
Print Assumptions bin_region_volume.

Example region_case : cspace_volume (env_bounds (bin_at (container_size (4/100)) container_height (0, 0)) (vec3 0 0 (3/10)) (1/2)) = 3 / 1000.
Proof.
  rewrite bin_region_volume; cbn [vec3 fst snd]; rewrite ?Rminus_0_r, ?Rabs_R0; unfold container_size, container_height; lra.
Qed.

(** C98.  A start above the bin is on the boundary of the region: no sample is higher, so the
    region contains no ball around it. *)
Theorem start_neighbourhood_sampled_refuted : exists gap at_ start theta, In at_ (bin_positions gap) /\ 0 < theta /\
  ~ in_block (container_size gap) (container_size gap) container_height (shift at_ start) /\
  (forall u, unit_draw 6 u -> nth 2 (sample_env (env_bounds (bin_at (container_size gap) container_height at_) start theta) u) 0 <= start 2%nat) /\
  forall delta, 0 < delta -> snd (nth 2 (env_bounds (bin_at (container_size gap) container_height at_) start theta) (0, 0)) < start 2%nat + delta.
Proof.
  set (at_ := (INR 0 * container_size (4/100) + - (68/100), INR 0 * container_size (4/100) + - (container_size (4/100) * (INR 4 - 1)) / 2)).
  exists (4/100), at_, (vec3 (fst at_) (snd at_) (3/10)), (1/4).
  split; [left; reflexivity|]. split; [lra|]. split.
  { intro I. specialize (I 2%nat ltac:(lia)). unfold shift, container_height in I. cbn in I. lra. }
  pose proof (bin_region (4/100) at_ (vec3 (fst at_) (snd at_) (3/10)) (1/4) 2 ltac:(lra) ltac:(lia)) as B.
  cbn [vec3 lo hi] in B. rewrite Rmin_right, Rmax_left in B by (unfold container_height; lra).
  split.
  - intros u U.
    assert (E : in_region (env_bounds (bin_at (container_size (4/100)) container_height at_) (vec3 (fst at_) (snd at_) (3/10)) (1/4))
      (sample_env (env_bounds (bin_at (container_size (4/100)) container_height at_) (vec3 (fst at_) (snd at_) (3/10)) (1/4)) u)).
    { apply samples_fill_bounds; [|exists u; auto].
      apply Forall_forall. intros b I. apply (In_nth _ _ (0, 0)) in I as (k & Lk & <-). cbn in Lk.
      destruct (Nat.lt_ge_cases k 3) as [K|K].
      - rewrite bin_region by (auto; lra). cbn [fst snd]. eapply Rle_trans; [apply Rmin_l|apply Rmax_l].
      - rewrite env_angle_nth by lia. cbn. lra. }
    pose proof (in_region_nth _ _ 2 E ltac:(cbn; lia)) as N. rewrite B in N. cbn [fst snd] in N. apply N.
  - intros delta D. rewrite B. cbn. lra.
Qed.
Print Assumptions start_neighbourhood_sampled_refuted.

(** ** The motion check *)
Definition centred (o : oobb) : Prop := forall i, (i < 3)%nat -> o_lower o i = - o_upper o i.

(** C99.  OBB.from_oobb covers the oriented bounding box exactly when the latter's AABB is
    centred, as those of the walls are. *)
Lemma eye3_sum (f : nat -> R) i : (i < 3)%nat -> eye3 i 0 * f 0%nat + eye3 i 1 * f 1%nat + eye3 i 2 * f 2%nat = f i.
Proof. intro Hi. idx3; unfold eye3; cbn; ring. Qed.
Lemma obstacle_box_points o p : in_box (obstacle_box o) p <-> forall i, (i < 3)%nat -> Rabs (p i - o_point o i) <= Rabs ((o_upper o i - o_lower o i) / 2).
Proof.
  unfold in_box, obstacle_box, obb_from_oobb. cbn [center half orient]. split.
  - intros (t & Ht & E) i Hi. rewrite (E i Hi), (eye3_sum (fun i => (o_upper o i - o_lower o i) / 2 * t i)) by auto.
    replace (o_point o i + (o_upper o i - o_lower o i) / 2 * t i - o_point o i) with ((o_upper o i - o_lower o i) / 2 * t i) by ring.
    rewrite Rabs_mult. specialize (Ht i Hi). assert (Rabs (t i) <= 1) by (apply Rabs_le; lra).
    pose proof (Rabs_pos ((o_upper o i - o_lower o i) / 2)). nra.
  - intro H. exists (fun i => (p i - o_point o i) / ((o_upper o i - o_lower o i) / 2)). split.
    + intros i Hi. specialize (H i Hi). set (k := (o_upper o i - o_lower o i) / 2) in *.
      destruct (Req_dec k 0) as [Z|Z].
      * rewrite Z in *. rewrite Rabs_R0 in H. pose proof (Rabs_pos (p i - o_point o i)).
        assert (p i - o_point o i = 0) by (destruct (Req_dec (p i - o_point o i) 0); auto; exfalso; pose proof (Rabs_pos_lt _ H1); lra).
        rewrite H1. unfold Rdiv. rewrite Rmult_0_l. lra.
      * assert (K : 0 < Rabs k) by now apply Rabs_pos_lt.
        assert (A : Rabs ((p i - o_point o i) / k) <= 1).
        { unfold Rdiv. rewrite Rabs_mult, Rabs_inv. apply Rmult_le_reg_r with (Rabs k); auto. rewrite Rmult_assoc, Rinv_l; lra. }
        unfold Rabs in A. destruct (Rcase_abs _); lra.
    + intros i Hi. rewrite (eye3_sum (fun i => (o_upper o i - o_lower o i) / 2 * ((p i - o_point o i) / ((o_upper o i - o_lower o i) / 2)))) by auto.
      specialize (H i Hi). destruct (Req_dec ((o_upper o i - o_lower o i) / 2) 0) as [Z|Z].
      * rewrite Z in *. rewrite Rabs_R0 in H. pose proof (Rabs_pos (p i - o_point o i)).
        assert (p i - o_point o i = 0) by (destruct (Req_dec (p i - o_point o i) 0); auto; exfalso; pose proof (Rabs_pos_lt _ H1); lra). lra.
      * field. intro; apply Z; lra.
Qed.

Theorem obb_covers_iff_centred : forall o, proper_oobb o ->
  ((forall p, in_box (obstacle_box o) p <-> in_oobb o p) <-> centred o).
Proof.
  intros o P. split.
  - intros H i Hi.
    assert (A : in_oobb o (fun j => o_point o j + (o_upper o j - o_lower o j) / 2)).
    { apply H, obstacle_box_points. intros j Hj. right. f_equal. ring. }
    assert (B : in_oobb o (fun j => o_point o j - (o_upper o j - o_lower o j) / 2)).
    { apply H, obstacle_box_points. intros j Hj. right. rewrite <- (Rabs_Ropp ((o_upper o j - o_lower o j) / 2)). f_equal. ring. }
    specialize (A i Hi). specialize (B i Hi). cbn in A, B. lra.
  - intros C p. rewrite obstacle_box_points. unfold in_oobb.
    assert (K : forall i, (i < 3)%nat -> Rabs ((o_upper o i - o_lower o i) / 2) = o_upper o i).
    { intros i Hi. rewrite (C i Hi). pose proof (P i Hi) as Q. rewrite (C i Hi) in Q. rewrite Rabs_right; lra. }
    split; intros H i Hi; specialize (H i Hi); rewrite (C i Hi) in *; specialize (K i Hi); rewrite (C i Hi) in K; rewrite K in *.
    + unfold Rabs in H. destruct (Rcase_abs _); lra.
    + apply Rabs_le. lra.
Qed.
Print Assumptions obb_covers_iff_centred.

Lemma bin_centred w h at_ o : In o (bin_at w h at_) -> centred o.
Proof.
  intros Io. apply in_map_iff in Io as (x & <- & Iw). rewrite bin_list in Iw.
  destruct Iw as [<-|[<-|[<-|[<-|[<-|[]]]]]]; intros j Hj; idx3; cbn; lra.
Qed.
Example bin_boxes gap at_ o p : - (5/100) <= gap -> In o (bin_at (container_size gap) container_height at_) ->
  (in_box (obstacle_box o) p <-> in_oobb o p).
Proof. intros G I. apply obb_covers_iff_centred; [eapply bin_proper; eauto|eapply bin_centred; eauto]. Qed.

Lemma fold_and {A} (f : A -> bool) l b : fold_left (fun v a => v && negb (f a)) l b = b && negb (existsb f l).
Proof. revert b. induction l as [|a l IH]; intro b; cbn; [now rewrite andb_true_r|]. rewrite IH. destruct b, (f a), (existsb f l); reflexivity. Qed.
Lemma fold_and2 {A B} (f : A -> B -> bool) l k b :
  fold_left (fun v a => fold_left (fun v p => v && negb (f p a)) l v) k b = b && negb (existsb (fun a => existsb (fun p => f p a) l) k).
Proof.
  revert b. induction k as [|a k IH]; intro b; cbn; [now rewrite andb_true_r|]. rewrite IH, (fold_and (fun p => f p a)).
  destruct b, (existsb (fun p => f p a) l), (existsb (fun a => existsb (fun p => f p a) l) k); reflexivity.
Qed.

Section Check.
  Context {conf : Type}.
  Variable norm_diff : conf -> conf -> R.
  Variable interpolate : conf -> conf -> nat -> list (vec * (nat -> nat -> R)).
  Variables (lower upper : vec).
  Variable obstacles : list oobb.

  Definition body_box (pose : vec * (nat -> nat -> R)) : box := obb_from_oobb lower upper (fst pose) (snd pose).
  Definition collides (pose : vec * (nat -> nat -> R)) : Prop := exists o p, In o obstacles /\ in_oobb o p /\ in_box (body_box pose) p.

  Lemma hits_iff pose o : proper_oobb o -> centred o -> proper_box (body_box pose) ->
    (hits lower upper pose o = true <-> exists p, in_oobb o p /\ in_box (body_box pose) p).
  Proof.
    intros P C B. unfold hits. rewrite box_test_exact; auto.
    - unfold boxes_meet. split; intros (p & H1 & H2); exists p; split; auto; apply obb_covers_iff_centred; auto.
    - split; [|split].
      + intros i j Hi Hj. unfold obstacle_box, obb_from_oobb, column, dot3, eye3. cbn [orient]. idx3; idx3; cbn; ring.
      + intros j Hj. cbn. specialize (P j Hj). lra.
      + intros i j Hi Hj. cbn. unfold eye3. destruct (i =? j) eqn:E; [|lra]. apply Nat.eqb_eq in E. now subst.
  Qed.

  (** C99.  For a body whose box keeps aligned extents, the verdict of every motion of the batch
      is that no interpolated pose touches an obstacle.  The number of poses comes from the
      longest motion of the batch: two more steps than the whole multiples of 0.03 in it. *)
  Definition steps_of_longest (batch : list (conf * conf)) (n : nat) : Prop :=
    exists a b, In (a, b) batch /\ INR n <= norm_diff a b / (3/100) < INR n + 1 /\
      forall c d, In (c, d) batch -> norm_diff c d <= norm_diff a b.

  Theorem kuka_motion_exact : forall batch,
    (forall o, In o obstacles -> proper_oobb o /\ centred o) ->
    (forall a b n pose, In pose (interpolate a b n) -> proper_box (body_box pose)) ->
    (forall a b c d n, length (interpolate a b n) = length (interpolate c d n)) ->
    (forall a b, 0 <= norm_diff a b) -> batch <> [] ->
    exists verdicts n, motion_valid norm_diff interpolate lower upper obstacles batch = Some verdicts /\ length verdicts = length batch /\
      steps_of_longest batch n /\
      forall k a b, nth_error batch k = Some (a, b) ->
        (nth_error verdicts k = Some true <-> forall pose, In pose (interpolate a b (n + 2)) -> ~ collides pose).
  Proof.
    intros batch HO HB HL HN NE. destruct batch as [|first batch]; [congruence|].
    set (l := first :: batch) in *. set (n := num_steps norm_diff l).
    assert (M : forallb (fun sg => length (row_poses interpolate n first) <=? length (row_poses interpolate n sg)) l = true).
    { apply forallb_forall. intros sg _. apply Nat.leb_le. unfold row_poses. rewrite (HL (fst first) (snd first) (fst sg) (snd sg)). auto. }
    eexists. exists n. split; [|split; [|split]].
    - change (motion_valid norm_diff interpolate lower upper obstacles l) with
        (let n := num_steps norm_diff l in let m := length (row_poses interpolate n first) in
         if forallb (fun sg => m <=? length (row_poses interpolate n sg)) l then
           Some (map (fun sg => fold_left (fun valid o =>
                  fold_left (fun valid pose => valid && negb (hits lower upper pose o)) (firstn m (row_poses interpolate n sg)) valid)
                obstacles true) l) else None).
      cbv zeta. fold n. rewrite M. reflexivity.
    - now rewrite map_length.
    - assert (N : map (fun sg => norm_diff (fst sg) (snd sg)) l <> []) by discriminate.
      pose proof (lmax_In _ N) as I. apply in_map_iff in I as ((a, b) & E & I). cbn [fst snd] in E. exists a, b. split; auto.
      assert (X : INR n <= norm_diff a b / (3 / 100) < INR n + 1).
      { unfold n, num_steps, trunc. rewrite <- E. set (x := norm_diff a b / (3/100)).
        assert (X0 : 0 <= x) by (unfold x; specialize (HN a b); lra).
        pose proof (base_Int_part x) as (P1 & P2). rewrite INR_IZR_INZ, Z2Nat.id.
        - lra.
        - apply le_IZR. assert (IZR (-1) < IZR (Int_part x)) by lra. apply lt_IZR in H. apply IZR_le. lia. }
      split; auto. intros c d Ic. rewrite E. apply lmax_ge, (in_map (fun sg => norm_diff (fst sg) (snd sg)) l (c, d) Ic).
    - intros k a b Ek. rewrite nth_error_map, Ek. cbn [option_map]. rewrite (fold_and2 (hits lower upper)). cbn [andb].
      unfold row_poses. cbn [fst snd]. rewrite (HL (fst first) (snd first) a b), firstn_all.
      assert (Q : existsb (fun o => existsb (fun pose => hits lower upper pose o) (interpolate a b (n + 2))) obstacles = true <->
                  exists pose, In pose (interpolate a b (n + 2)) /\ collides pose).
      { rewrite existsb_exists. split.
        - intros (o & Io & H). apply existsb_exists in H as (pose & Ip & H). apply hits_iff in H as (p & H1 & H2); try apply HO; eauto.
          exists pose. split; auto. exists o, p. auto.
        - intros (pose & Ip & o & p & Io & H1 & H2). exists o. split; auto. apply existsb_exists. exists pose. split; auto.
          apply hits_iff; try apply HO; eauto. }
      destruct (existsb (fun o => existsb (fun pose => hits lower upper pose o) (interpolate a b (n + 2))) obstacles); cbn [negb].
      + split; [discriminate|]. intro F. exfalso. destruct (proj1 Q eq_refl) as (pose & Ip & C). apply (F pose Ip C).
      + split; auto. intros _ pose Ip C. assert (false = true) by (apply Q; eauto). discriminate.
  Qed.
End Check.
Print Assumptions kuka_motion_exact.

(** ** Linear translations *)
(** the poses of an unrotated body moved along a segment in n equal steps *)
Definition glide (a b : vec) (s : R) : vec := fun i => a i + s * (b i - a i).
Definition translations (a b : vec) (n : nat) : list (vec * (nat -> nat -> R)) :=
  map (fun k => (glide a b (INR k / INR n), eye3)) (seq 0 (S n)).
Definition length3 (a b : vec) : R := sqrt (dot3 (fun i => b i - a i) (fun i => b i - a i)).

Lemma coord_le_length a b i : (i < 3)%nat -> Rabs (b i - a i) <= length3 a b.
Proof.
  intro Hi. unfold length3, dot3. rewrite <- sqrt_Rsqr_abs. apply sqrt_le_1_alt. pose proof (Rle_0_sqr (b 0%nat - a 0%nat)). pose proof (Rle_0_sqr (b 1%nat - a 1%nat)). pose proof (Rle_0_sqr (b 2%nat - a 2%nat)).
  unfold Rsqr in *. idx3; lra.
Qed.
Lemma unrotated_proper lower upper c : (forall i, (i < 3)%nat -> lower i <= upper i) -> proper_box (obb_from_oobb lower upper c eye3).
Proof.
  intro P. split; [|split].
  - intros i j Hi Hj. unfold obb_from_oobb, column, dot3, eye3. cbn [orient]. idx3; idx3; cbn; ring.
  - intros j Hj. cbn. specialize (P j Hj). lra.
  - intros i j Hi Hj. cbn. unfold eye3. destruct (i =? j) eqn:E; [|lra]. apply Nat.eqb_eq in E. now subst.
Qed.
Lemma unrotated_points lower upper c p : (forall i, (i < 3)%nat -> lower i <= upper i) ->
  (in_box (obb_from_oobb lower upper c eye3) p <-> forall i, (i < 3)%nat -> Rabs (p i - c i) <= (upper i - lower i) / 2).
Proof.
  intro P. change (obb_from_oobb lower upper c eye3) with (obstacle_box (mkOobb lower upper c)). rewrite obstacle_box_points. cbn [o_lower o_upper o_point].
  split; intros H i Hi; specialize (H i Hi); specialize (P i Hi); (rewrite (Rabs_right ((upper i - lower i) / 2)) in * by lra); auto.
Qed.

(** C99.  A translation accepted in a batch keeps every body 0.015 smaller on each side clear of
    the obstacles all along. *)
Theorem shrunk_body_clear : forall lower upper obstacles batch verdicts k a b s,
  (forall o, In o obstacles -> proper_oobb o /\ centred o) -> (forall i, (i < 3)%nat -> lower i <= upper i) ->
  motion_valid length3 translations lower upper obstacles batch = Some verdicts ->
  nth_error batch k = Some (a, b) -> nth_error verdicts k = Some true -> 0 <= s <= 1 ->
  ~ exists o p, In o obstacles /\ in_oobb o p /\ forall i, (i < 3)%nat -> Rabs (p i - glide a b s i) <= (upper i - lower i) / 2 - 15/1000.
Proof.
  intros lower upper obstacles batch verdicts k a b s HO HB E Ek V Hs (o & p & Io & Ip & Hp).
  assert (NE : batch <> []) by (intros ->; destruct k; discriminate).
  destruct (kuka_motion_exact length3 translations lower upper obstacles batch HO) as (vs & n & E' & L & St & X); auto.
  { intros c d m pose I. apply in_map_iff in I as (j & <- & _). now apply unrotated_proper. }
  { intros. unfold translations. now rewrite !map_length. }
  { intros. apply sqrt_pos. }
  rewrite E in E'. injection E' as <-. destruct (X k a b Ek) as (F & _). specialize (F V).
  destruct St as (c & d & Icd & B & Mx). specialize (Mx a b (nth_error_In _ _ Ek)).
  set (m := (n + 2)%nat) in *.
  assert (Mp : 0 < INR m) by (apply lt_0_INR; lia).
  assert (D : length3 a b < 3/100 * INR m).
  { assert (INR m = INR n + 2) by (unfold m; rewrite plus_INR; cbn; lra). lra. }
  (* the checked pose nearest to s *)
  set (j := Z.to_nat (Int_part (s * INR m + 1/2))).
  assert (J : IZR (Int_part (s * INR m + 1/2)) = INR j).
  { unfold j. rewrite (INR_IZR_INZ (Z.to_nat _)), Z2Nat.id; auto. pose proof (base_Int_part (s * INR m + 1/2)) as (P1 & P2).
    assert (IZR (-1) < IZR (Int_part (s * INR m + 1/2))) by nra. apply lt_IZR in H. lia. }
  pose proof (base_Int_part (s * INR m + 1/2)) as (P1 & P2). rewrite J in P1, P2.
  assert (Lj : (j <= m)%nat).
  { apply INR_le. assert (INR j < INR m + 1) by nra. rewrite <- S_INR in H. apply INR_lt in H. apply le_INR. lia. }
  assert (R : Rabs (s - INR j / INR m) <= / (2 * INR m)).
  { apply Rmult_le_reg_r with (INR m); auto. rewrite <- (Rabs_right (INR m)) at 2 by lra. rewrite <- Rabs_mult.
    replace ((s - INR j / INR m) * INR m) with (s * INR m - INR j) by (field; lra).
    replace (/ (2 * INR m) * INR m) with (1/2) by (field; lra). apply Rabs_le. lra. }
  apply (F (glide a b (INR j / INR m), eye3)).
  - apply in_map_iff. exists j. split; auto. apply in_seq. lia.
  - exists o, p. split; auto. split; auto. unfold body_box. cbn [fst snd]. apply unrotated_points; auto.
    intros i Hi. specialize (Hp i Hi). pose proof (coord_le_length a b i Hi) as Cl.
    replace (p i - glide a b (INR j / INR m) i) with ((p i - glide a b s i) + (s - INR j / INR m) * (b i - a i)) by (unfold glide; ring).
    eapply Rle_trans; [apply Rabs_triang|]. rewrite Rabs_mult.
    assert (Rabs (s - INR j / INR m) * Rabs (b i - a i) <= 15/1000).
    { apply Rle_trans with (/ (2 * INR m) * (3/100 * INR m)).
      - apply Rmult_le_compat; try apply Rabs_pos; auto. lra.
      - right. field. lra. }
    lra.
Qed.
Print Assumptions shrunk_body_clear.

(** ** What the check lets through *)
Definition thin_wall : oobb := mkOobb (vec3 (- (5/1000)) (-1) (-1)) (vec3 (5/1000) 1 1) (vec3 (7/1000) 0 0).
Definition thin_lower : vec := vec3 (- (5/10000)) (- (5/10000)) (- (1/10)).
Definition thin_upper : vec := vec3 (5/10000) (5/10000) (1/10).
Definition along_x (x : R) : vec := vec3 x 0 0.

Lemma thin_wall_ok o : In o [thin_wall] -> proper_oobb o /\ centred o.
Proof. intros [<-|[]]. split; intros i Hi; idx3; cbn; lra. Qed.
Lemma thin_body_ok i : (i < 3)%nat -> thin_lower i <= thin_upper i.
Proof. intro Hi. idx3; cbn; lra. Qed.
Lemma length_x x : 0 <= x -> length3 (along_x 0) (along_x x) = x.
Proof.
  intro X. unfold length3, dot3, along_x. cbn [vec3]. replace ((x - 0) * (x - 0) + (0 - 0) * (0 - 0) + (0 - 0) * (0 - 0)) with (x * x) by ring.
  now apply sqrt_square.
Qed.
Lemma thin_collides c : collides thin_lower thin_upper [thin_wall] (c, eye3) <->
  15/10000 <= c 0%nat <= 125/10000 /\ Rabs (c 1%nat) <= 1 + 5/10000 /\ Rabs (c 2%nat) <= 1 + 1/10.
Proof.
  unfold collides, body_box. cbn [fst snd]. split.
  - intros (o & p & [<-|[]] & Ip & B). rewrite unrotated_points in B by apply thin_body_ok.
    pose proof (Ip 0%nat ltac:(lia)) as I0. pose proof (Ip 1%nat ltac:(lia)) as I1. pose proof (Ip 2%nat ltac:(lia)) as I2.
    pose proof (B 0%nat ltac:(lia)) as B0. pose proof (B 1%nat ltac:(lia)) as B1. pose proof (B 2%nat ltac:(lia)) as B2.
    cbn in *. assert (A : forall x y, Rabs x <= y -> - y <= x <= y) by (intros x y; unfold Rabs; destruct (Rcase_abs x); lra).
    apply A in B0, B1, B2. split; [lra|]. split; apply Rabs_le; lra.
  - intros (C0 & C1 & C2).
    assert (A : forall x y, Rabs x <= y -> - y <= x <= y) by (intros x y; unfold Rabs; destruct (Rcase_abs x); lra). apply A in C1, C2.
    exists thin_wall, (vec3 (Rmax (2/1000) (Rmin (12/1000) (c 0%nat))) (Rmax (-1) (Rmin 1 (c 1%nat))) (Rmax (-1) (Rmin 1 (c 2%nat)))).
    split; [left; reflexivity|]. split.
    + intros i Hi. unfold Rmax, Rmin. idx3; cbn; repeat destruct (Rle_dec _ _); lra.
    + apply unrotated_points; [apply thin_body_ok|]. intros i Hi. apply Rabs_le. unfold Rmax, Rmin. idx3; cbn; repeat destruct (Rle_dec _ _); lra.
Qed.

Lemma thin_exact batch : batch <> [] -> exists verdicts n, motion_valid length3 translations thin_lower thin_upper [thin_wall] batch = Some verdicts /\
  length verdicts = length batch /\ steps_of_longest length3 batch n /\
  forall k a b, nth_error batch k = Some (a, b) ->
    (nth_error verdicts k = Some true <-> forall pose, In pose (translations a b (n + 2)) -> ~ collides thin_lower thin_upper [thin_wall] pose).
Proof.
  intro N. apply (kuka_motion_exact length3 translations thin_lower thin_upper [thin_wall]); auto.
  - apply thin_wall_ok.
  - intros c d m pose I. apply in_map_iff in I as (j & <- & _). apply unrotated_proper, thin_body_ok.
  - intros. unfold translations. now rewrite !map_length.
  - intros. apply sqrt_pos.
Qed.

Lemma thin_alone : motion_valid length3 translations thin_lower thin_upper [thin_wall] [(along_x 0, along_x (28/1000))] = Some [true].
Proof.
  destruct (thin_exact [(along_x 0, along_x (28/1000))] ltac:(discriminate)) as (vs & n & E & L & (a & b & [Iab|[]] & B & _) & X).
  injection Iab as <- <-. rewrite length_x in B by lra.
  assert (n = 0%nat) as -> by (destruct n; auto; rewrite S_INR in B; pose proof (pos_INR n); lra).
  rewrite E. f_equal. destruct vs as [|v [|]]; try discriminate. f_equal.
  assert (V : Some v = Some true); [|injection V; auto].
  apply (X 0%nat _ _ eq_refl). intros pose I C. unfold translations in I.
  cbn [seq map plus] in I. replace (INR 2) with 2 in I by (cbn; lra). replace (INR 1) with 1 in I by reflexivity. replace (INR 0) with 0 in I by reflexivity.
  destruct I as [<-|[<-|[<-|[]]]]; apply thin_collides in C as (C & _); unfold glide in C; cbn [along_x vec3] in C; lra.
Qed.

(** C99.  A motion accepted by the check goes through a wall as thick as those of the bins: the
    poses are up to 0.03 apart, the smallest objects are 0.001 wide, the walls 0.01. *)
Theorem kuka_motion_sound_refuted : exists lower upper obstacles a b s,
  (forall o, In o obstacles -> proper_oobb o /\ centred o) /\ (forall i, (i < 3)%nat -> lower i < upper i) /\
  motion_valid length3 translations lower upper obstacles [(a, b)] = Some [true] /\ 0 <= s <= 1 /\
  collides lower upper obstacles (glide a b s, eye3).
Proof.
  exists thin_lower, thin_upper, [thin_wall], (along_x 0), (along_x (28/1000)), (1/4).
  split; [apply thin_wall_ok|]. split; [intros i Hi; idx3; cbn; lra|]. split; [apply thin_alone|]. split; [lra|].
  apply thin_collides. unfold glide. cbn. split; [lra|]. split; apply Rabs_le; lra.
Qed.
Print Assumptions kuka_motion_sound_refuted.

(** C99.  The verdict on a motion depends on the other motions of the batch; an empty batch is
    an exception. *)
Theorem kuka_motion_batch_refuted : exists lower upper obstacles m m' v,
  (forall o, In o obstacles -> proper_oobb o /\ centred o) /\ (forall i, (i < 3)%nat -> lower i < upper i) /\
  motion_valid length3 translations lower upper obstacles [m] = Some [true] /\
  motion_valid length3 translations lower upper obstacles [m; m'] = Some [false; v] /\
  motion_valid length3 translations lower upper obstacles [] = None.
Proof.
  exists thin_lower, thin_upper, [thin_wall], (along_x 0, along_x (28/1000)), (along_x 0, along_x (3/10)).
  destruct (thin_exact [(along_x 0, along_x (28/1000)); (along_x 0, along_x (3/10))] ltac:(discriminate)) as (vs & n & E & L & (a & b & Iab & B & Mx) & X).
  assert (n = 10%nat) as ->.
  { pose proof (Mx _ _ (or_intror (or_introl eq_refl))) as M. rewrite length_x in M by lra.
    destruct Iab as [Iab|[Iab|[]]]; injection Iab as <- <-; rewrite length_x in B, M by lra; [lra|].
    apply INR_eq. assert (T : INR 10 = 10) by (cbn; lra).
    assert (n < 11)%nat by (apply INR_lt; replace (INR 11) with 11 by (cbn; lra); lra).
    assert (9 < n)%nat by (apply INR_lt; replace (INR 9) with 9 by (cbn; lra); lra). f_equal. lia. }
  destruct vs as [|v1 [|v2 [|]]]; try discriminate. exists v2.
  split; [apply thin_wall_ok|]. split; [intros i Hi; idx3; cbn; lra|]. split; [apply thin_alone|]. split; [|reflexivity].
  rewrite E. repeat f_equal. destruct v1; auto. exfalso.
  destruct (X 0%nat _ _ eq_refl) as (F & _). apply (F eq_refl (glide (along_x 0) (along_x (28/1000)) (INR 3 / INR 12), eye3)).
  - apply in_map_iff. exists 3%nat. split; [reflexivity|]. apply in_seq. lia.
  - apply thin_collides. replace (INR 3) with 3 by (cbn; lra). replace (INR 12) with 12 by (cbn; lra).
    unfold glide. cbn. split; [lra|]. split; apply Rabs_le; lra.
Qed.
Print Assumptions kuka_motion_batch_refuted.

(** the wall stops the same motion of a body 0.03 wider *)
Example wide_body_stopped : exists verdicts, motion_valid length3 translations (vec3 (- (155/10000)) (- (155/10000)) (- (1/10))) (vec3 (155/10000) (155/10000) (1/10)) [thin_wall]
  [(along_x 0, along_x (28/1000))] = Some verdicts /\ nth_error verdicts 0 = Some false.
Proof.
  set (lw := vec3 (- (155/10000)) (- (155/10000)) (- (1/10))). set (up := vec3 (155/10000) (155/10000) (1/10)).
  assert (LU : forall i, (i < 3)%nat -> lw i <= up i) by (intros i Hi; idx3; cbn; lra).
  destruct (kuka_motion_exact length3 translations lw up [thin_wall] [(along_x 0, along_x (28/1000))] thin_wall_ok) as (vs & n & E & L & _ & _); try discriminate.
  { intros c d m pose I. apply in_map_iff in I as (j & <- & _). now apply unrotated_proper. }
  { intros. unfold translations. now rewrite !map_length. }
  { intros. apply sqrt_pos. }
  exists vs. split; auto. destruct vs as [|v [|]]; try discriminate. cbn. destruct v; auto. exfalso.
  apply (shrunk_body_clear lw up [thin_wall] [(along_x 0, along_x (28/1000))] [true] 0 (along_x 0) (along_x (28/1000)) (1/4) thin_wall_ok LU E eq_refl eq_refl); [lra|].
  exists thin_wall, (vec3 (7/1000) 0 0). split; [left; reflexivity|]. split; [intros i Hi; idx3; cbn; lra|].
  intros i Hi. apply Rabs_le. unfold glide. idx3; cbn; lra.
Qed.
