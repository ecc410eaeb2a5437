(** Properties of BagOfBoundingBoxes.is_motion_valid
    (exps/tamp_environment/turtlebot_move/streams.py). *)
From Coq Require Import Reals List Bool Arith ZArith Lra Lia Psatz.
From Verif Require Import Plane Sat_Model Sat_Props Bag_Model.
Import ListNotations.
Open Scope R_scope.

(** ** Specification *)
(** point of the motion *)
Definition along (m : rpt * rpt) (t : R) : rpt :=
  (fst (fst m) + t * (fst (snd m) - fst (fst m)), snd (fst m) + t * (snd (snd m) - snd (fst m))).
(** the robot's shape moved to p *)
Definition moved (verts : list rpt) (p : rpt) : list rpt := map (fun v => (fst v + fst p, snd v + snd p)) verts.
Definition free_at (verts : list rpt) (hulls : list (list rpt)) (p : rpt) : Prop :=
  forall h, In h hulls -> ~ collide (moved verts p) h.
(** robot and obstacles are convex polygons with equally many vertices (four in the program) *)
Definition shapes_ok (verts : list rpt) (hulls : list (list rpt)) : Prop :=
  strictly_convex verts /\ forall h, In h hulls -> strictly_convex h /\ length h = length verts.

(** ** Shapes *)
Lemma moved_length verts p : length (moved verts p) = length verts.
Proof. unfold moved. apply map_length. Qed.
Lemma moved_vertex verts p i : (i < length verts)%nat -> vertex (moved verts p) i = (fst (vertex verts i) + fst p, snd (vertex verts i) + snd p).
Proof.
  intro H. unfold vertex, moved. set (f := fun v => _). rewrite nth_indep with (d' := f (0, 0)) by (rewrite map_length; auto).
  rewrite map_nth. reflexivity.
Qed.
Lemma moved_convex verts p : strictly_convex verts -> strictly_convex (moved verts p).
Proof.
  intros [L S]. split; [rewrite moved_length; auto|]. rewrite moved_length. intros i j Hi Hj N1 N2.
  assert (Hs : ((i + 1) mod length verts < length verts)%nat) by (apply Nat.mod_upper_bound; lia).
  rewrite !moved_vertex by auto. specialize (S i j Hi Hj N1 N2).
  unfold cross, vsub in *. cbn [fst snd] in *. lra.
Qed.
Lemma interm_moved verts a m : interm verts a m = moved verts (along m a).
Proof.
  unfold interm, robot_at, moved, along. induction verts as [|v l IH]; simpl; auto. rewrite IH. f_equal.
  destruct v, m as [[] []]. unfold place. simpl. f_equal; ring.
Qed.
Lemma spread_eq verts f m : verts <> [] -> (f = fst \/ f = snd) -> spread verts f m = Rabs (f (fst m) - f (snd m)).
Proof.
  intros N Hf. unfold spread, robot_at. 
  assert (E : map (fun sg : rpt * rpt => Rabs (f (fst sg) - f (snd sg))) (combine (map (place (fst m)) verts) (map (place (snd m)) verts)) = map (fun _ => Rabs (f (fst m) - f (snd m))) verts).
  { clear N. induction verts as [|v l IH]; simpl; auto. rewrite IH. f_equal. f_equal. destruct Hf as [->| ->]; unfold place; simpl; ring. }
  rewrite E. pose proof (lmin_In (map (fun _ : rpt => Rabs (f (fst m) - f (snd m))) verts)) as I.
  assert (I' := I ltac:(destruct verts; [congruence|discriminate])). apply in_map_iff in I' as (x & <- & _). reflexivity.
Qed.

(** ** Steps *)
Lemma num_steps_two verts batch : (2 <= num_steps verts batch)%nat.
Proof. unfold num_steps. lia. Qed.

Lemma trunc_bound x : 0 <= x -> x < INR (trunc x) + 1.
Proof.
  intro H. unfold trunc. destruct (base_Int_part x) as [A B].
  assert (0 <= Int_part x)%Z.
  { assert (-1 < Int_part x)%Z; [|lia]. apply lt_IZR. lra. }
  rewrite INR_IZR_INZ, Z2Nat.id by auto. lra.
Qed.

Lemma step_bound verts batch m : verts <> [] -> In m batch ->
  Rabs (fst (fst m) - fst (snd m)) < INR (num_steps verts batch - 1) * (8 / 100) /\ Rabs (snd (fst m) - snd (snd m)) < INR (num_steps verts batch - 1) * (8 / 100).
Proof.
  intros N H. unfold num_steps. set (M := lmax _).
  assert (B : forall f, (f = fst \/ f = snd) -> Rabs (f (fst m) - f (snd m)) <= M).
  { intros f Hf. rewrite <- (spread_eq verts f m N Hf). apply lmax_ge. apply in_flat_map. exists m. split; auto. destruct Hf as [->| ->]; simpl; auto. }
  replace (trunc (M / (8 / 100)) + 2 - 1)%nat with (S (trunc (M / (8 / 100)))) by lia. rewrite S_INR.
  assert (M0 : 0 <= M) by (pose proof (B fst (or_introl eq_refl)); pose proof (Rabs_pos (fst (fst m) - fst (snd m))); lra).
  pose proof (trunc_bound (M / (8 / 100)) ltac:(lra)) as T.
  pose proof (B fst (or_introl eq_refl)). pose proof (B snd (or_intror eq_refl)). split; lra.
Qed.

(** ** The verdicts *)
Lemma alphas_In n a : In a (alphas n) <-> exists k, (k < n)%nat /\ a = INR k / INR (n - 1).
Proof.
  unfold alphas. rewrite in_map_iff. split; intros (k & A & B).
  - apply in_seq in B. exists k. split; [lia|auto].
  - exists k. split; auto. apply in_seq. lia.
Qed.

Section Verdicts.
Variable verts : list rpt.
Variable hulls : list (list rpt).
Hypothesis Ok : shapes_ok verts hulls.

Lemma rounds batch l : (forall ha, In ha l -> In (fst ha) hulls) -> forall done : (rpt * rpt) -> bool,
  fold_left (check_round verts batch) l (Some (map done batch)) =
  Some (map (fun m => done m && forallb (fun ha => negb (separating_axis (moved verts (along m (snd ha))) (fst ha))) l) batch).
Proof.
  induction l as [|[h a] l IH]; intros Hl done; simpl.
  - f_equal. apply map_ext. intro. now rewrite andb_true_r.
  - destruct Ok as [[L3 _] Oh]. destruct (Oh h) as [Ch Lh]; [apply (Hl (h, a)); simpl; auto|].
    rewrite Lh. rewrite vec_separating_axis_batch.
    + rewrite map_map. cbn [fst snd].
      assert (E : map (fun vc : bool * bool => fst vc && negb (snd vc)) (combine (map done batch) (map (fun x => separating_axis (interm verts a x) h) batch))
        = map (fun m => done m && negb (separating_axis (moved verts (along m a)) h)) batch).
      { clear. induction batch as [|m b IHb]; simpl; auto. now rewrite IHb, interm_moved. }
      rewrite E, IH by (intros; apply Hl; simpl; auto). f_equal. apply map_ext. intro m. now rewrite andb_assoc.
    + intros x y Hxy. apply in_map_iff in Hxy as (m & E & _). injection E as <- <-. rewrite interm_moved, moved_length. lia.
Qed.

Lemma verdicts batch : batch <> [] ->
  is_motion_valid verts hulls batch =
  Some (map (fun m => forallb (fun ha => negb (separating_axis (moved verts (along m (snd ha))) (fst ha))) (list_prod hulls (alphas (num_steps verts batch)))) batch).
Proof.
  intro N. unfold is_motion_valid. destruct batch as [|m b] eqn:E; [congruence|]. rewrite <- E in *.
  replace (repeat true (length batch)) with (map (fun _ : rpt * rpt => true) batch) by (clear; induction batch; simpl; congruence).
  rewrite rounds; [reflexivity|]. intros [h a] H. apply in_prod_iff in H. apply H.
Qed.

Lemma verdict_iff n m :
  forallb (fun ha => negb (separating_axis (moved verts (along m (snd ha))) (fst ha))) (list_prod hulls (alphas n)) = true <->
  forall k, (k < n)%nat -> free_at verts hulls (along m (INR k / INR (n - 1))).
Proof.
  rewrite forallb_forall. split.
  - intros H k Hk h Hh C. assert (I : In (h, INR k / INR (n - 1)) (list_prod hulls (alphas n))).
    { apply in_prod; auto. apply alphas_In. eauto. }
    specialize (H _ I). cbn [fst snd] in H. apply negb_true_iff, not_true_iff_false in H. apply H.
    destruct Ok as [Cv Oh]. destruct (Oh h Hh) as [Ch _]. apply separating_axis_exact; auto. now apply moved_convex.
  - intros H [h a] I. apply in_prod_iff in I as [Hh Ha]. apply alphas_In in Ha as (k & Hk & ->). cbn [fst snd].
    apply negb_true_iff, not_true_iff_false. intro S. apply (H k Hk h Hh).
    destruct Ok as [Cv Oh]. destruct (Oh h Hh) as [Ch _]. apply separating_axis_exact in S; auto. now apply moved_convex.
Qed.
End Verdicts.

(** A non-empty batch gets one verdict per motion; it says exactly whether the robot is free
    of every obstacle at the checked points of that motion.  These are n equally spaced points
    including both ends, less than 0.08 apart in either coordinate; n is the same for the whole
    batch. *)
Theorem motion_checked_exactly verts hulls batch : shapes_ok verts hulls -> batch <> [] -> exists verdicts n,
  is_motion_valid verts hulls batch = Some verdicts /\ length verdicts = length batch /\ (2 <= n)%nat /\
  forall i m, nth_error batch i = Some m ->
    exists v, nth_error verdicts i = Some v /\
      (v = true <-> forall k, (k < n)%nat -> free_at verts hulls (along m (INR k / INR (n - 1)))) /\
      Rabs (fst (fst m) - fst (snd m)) / INR (n - 1) < 8 / 100 /\ Rabs (snd (fst m) - snd (snd m)) / INR (n - 1) < 8 / 100.
Proof.
  intros Ok N. set (n := num_steps verts batch).
  exists (map (fun m => forallb (fun ha => negb (separating_axis (moved verts (along m (snd ha))) (fst ha))) (list_prod hulls (alphas n))) batch), n.
  split; [now apply verdicts|]. split; [now rewrite map_length|]. split; [apply num_steps_two|].
  intros i m Hm. eexists. split; [rewrite nth_error_map, Hm; reflexivity|]. split; [now apply verdict_iff|].
  assert (Nv : verts <> []) by (destruct Ok as [[L _] _]; intros ->; simpl in L; lia).
  destruct (step_bound verts batch m Nv (nth_error_In _ _ Hm)) as [A B]. fold n in A, B.
  assert (P : 0 < INR (n - 1)) by (apply lt_0_INR; pose proof (num_steps_two verts batch); unfold n; lia).
  split; apply Rmult_lt_reg_r with (INR (n - 1)); auto; unfold Rdiv; rewrite Rmult_assoc, Rinv_l by lra; lra.
Qed.

(** An accepted motion starts and ends free, and every point of it is within 0.04 of a free
    point of it in either coordinate. *)
Theorem accepted_motion verts hulls batch verdicts i m : shapes_ok verts hulls ->
  is_motion_valid verts hulls batch = Some verdicts -> nth_error batch i = Some m -> nth_error verdicts i = Some true ->
  free_at verts hulls (fst m) /\ free_at verts hulls (snd m) /\
  forall t, 0 <= t <= 1 -> exists u, 0 <= u <= 1 /\ free_at verts hulls (along m u) /\
    Rabs (fst (along m t) - fst (along m u)) < 4 / 100 /\ Rabs (snd (along m t) - snd (along m u)) < 4 / 100.
Proof.
  intros Ok E Hm Ht. assert (N : batch <> []) by (intros ->; destruct i; discriminate).
  destruct (motion_checked_exactly verts hulls batch Ok N) as (vs & n & E' & _ & Hn & H). rewrite E in E'. injection E' as <-.
  destruct (H i m Hm) as (v & Hv & [F _] & Sx & Sy). rewrite Ht in Hv. injection Hv as <-. specialize (F eq_refl). clear H.
  assert (P : 0 < INR (n - 1)) by (apply lt_0_INR; lia).
  split; [|split].
  - specialize (F 0%nat ltac:(lia)). replace (along m (INR 0 / INR (n - 1))) with (fst m) in F; auto.
    destruct m as [[] []]. unfold along. simpl. f_equal; field; lra.
  - specialize (F (n - 1)%nat ltac:(lia)). replace (along m (INR (n - 1) / INR (n - 1))) with (snd m) in F; auto.
    destruct m as [[] []]. unfold along. simpl. f_equal; field; lra.
  - intros t T. set (k := trunc (t * INR (n - 1) + 1 / 2)).
    assert (X : 0 <= t * INR (n - 1)) by nra. pose proof (trunc_bound (t * INR (n - 1) + 1 / 2) ltac:(lra)) as U. fold k in U.
    assert (L : INR k <= t * INR (n - 1) + 1 / 2).
    { unfold k, trunc. destruct (base_Int_part (t * INR (n - 1) + 1 / 2)) as [A B].
      assert (0 <= Int_part (t * INR (n - 1) + 1 / 2))%Z by (assert (-1 < Int_part (t * INR (n - 1) + 1 / 2))%Z; [apply lt_IZR; lra|lia]).
      rewrite INR_IZR_INZ, Z2Nat.id by auto. lra. }
    assert (Kn : (k < n)%nat).
    { assert (INR k < INR n); [|now apply INR_lt]. replace (INR n) with (INR (n - 1) + 1) by (rewrite <- S_INR; f_equal; lia). nra. }
    exists (INR k / INR (n - 1)).
    assert (K1 : INR k <= INR (n - 1)) by (apply le_INR; lia).
    split; [|split; [now apply F|]].
    + split; [apply Rmult_le_pos; [apply pos_INR|apply Rlt_le, Rinv_0_lt_compat; auto]|].
      apply Rmult_le_reg_r with (INR (n - 1)); auto. unfold Rdiv. rewrite Rmult_assoc, Rinv_l; lra.
    + assert (D : forall c dx, Rabs (fst dx - snd dx) / INR (n - 1) < 8 / 100 ->
        Rabs ((c + t * (snd dx - fst dx)) - (c + INR k / INR (n - 1) * (snd dx - fst dx))) < 4 / 100).
      { intros c [x y] S. cbn [fst snd] in *.
        replace ((c + t * (y - x)) - (c + INR k / INR (n - 1) * (y - x))) with ((t * INR (n - 1) - INR k) * ((y - x) / INR (n - 1))) by (field; lra).
        rewrite Rabs_mult. unfold Rdiv at 1. rewrite Rabs_mult, (Rabs_right (/ INR (n - 1))) by (left; now apply Rinv_0_lt_compat).
        rewrite (Rabs_minus_sym y x). 
        assert (A : Rabs (t * INR (n - 1) - INR k) <= 1 / 2) by (apply Rabs_le; lra).
        pose proof (Rabs_pos (t * INR (n - 1) - INR k)). pose proof (Rabs_pos (x - y)).
        assert (0 <= Rabs (x - y) * / INR (n - 1)) by (apply Rmult_le_pos; auto; apply Rlt_le, Rinv_0_lt_compat; auto). unfold Rdiv in S. nra. }
      unfold along. cbn [fst snd]. split.
      * apply (D (fst (fst m)) (fst (fst m), fst (snd m))). exact Sx.
      * apply (D (snd (fst m)) (snd (fst m), snd (snd m))). exact Sy.
Qed.

(** Swapping start and goal of every motion changes no verdict. *)
Lemma num_steps_swap verts batch : verts <> [] -> num_steps verts (map (fun m => (snd m, fst m)) batch) = num_steps verts batch.
Proof.
  intro N. unfold num_steps. do 4 f_equal. induction batch as [|m b IH]; simpl; auto.
  rewrite IH, !spread_eq by auto. cbn [fst snd]. now rewrite (Rabs_minus_sym (fst (snd m))), (Rabs_minus_sym (snd (snd m))).
Qed.

Theorem motion_check_symmetric verts hulls batch : shapes_ok verts hulls ->
  is_motion_valid verts hulls (map (fun m => (snd m, fst m)) batch) = is_motion_valid verts hulls batch.
Proof.
  intro Ok. destruct batch as [|m0 b] eqn:E; [reflexivity|]. rewrite <- E.
  assert (Nv : verts <> []) by (destruct Ok as [[L _] _]; intros ->; simpl in L; lia).
  rewrite !verdicts by (auto; rewrite E; discriminate). rewrite num_steps_swap by auto. f_equal. rewrite map_map. apply map_ext. intro m.
  pose proof (num_steps_two verts batch) as T. set (n := num_steps verts batch) in *.
  assert (P : 0 < INR (n - 1)) by (apply lt_0_INR; lia).
  assert (A : forall k, (k < n)%nat -> along (snd m, fst m) (INR k / INR (n - 1)) = along m (INR (n - 1 - k) / INR (n - 1))).
  { intros k Hk. rewrite (minus_INR (n - 1) k) by lia. destruct m as [[] []]. unfold along. simpl. f_equal; field; lra. }
  apply eq_true_iff_eq. rewrite !verdict_iff by auto. split; intros H k Hk.
  - specialize (H (n - 1 - k)%nat ltac:(lia)). rewrite A in H by lia. now replace (n - 1 - (n - 1 - k))%nat with k in H by lia.
  - rewrite A by auto. apply H. lia.
Qed.

(** ** Examples and limits *)
Definition box_shape (x y w h : R) : list rpt := [(x - w, y - h); (x + w, y - h); (x + w, y + h); (x - w, y + h)].
Lemma box_shape_convex x y w h : 0 < w -> 0 < h -> strictly_convex (box_shape x y w h).
Proof.
  intros Hw Hh. split; [simpl; lia|]. intros i j Hi Hj N1 N2. simpl in Hi, Hj.
  assert (Ci : (i = 0 \/ i = 1 \/ i = 2 \/ i = 3)%nat) by lia. assert (Cj : (j = 0 \/ j = 1 \/ j = 2 \/ j = 3)%nat) by lia.
  destruct Ci as [->|[->|[->| ->]]]; destruct Cj as [->|[->|[->| ->]]]; simpl in *; try lia; unfold vertex; simpl; unfold cross, vsub; simpl; nra.
Qed.
Lemma box_shape_hull x y w h p : hull (box_shape x y w h) p -> 0 < w -> x - w <= fst p <= x + w.
Proof.
  intros H Hw.
  pose proof (hull_dot _ p (1, 0) (x - w) H) as A. pose proof (hull_dot _ p (-1, 0) (- (x + w)) H) as B.
  assert (x - w <= dot p (1, 0)) by (apply A; intros v [<-|[<-|[<-|[<-|[]]]]]; unfold dot; simpl; lra).
  assert (- (x + w) <= dot p (-1, 0)) by (apply B; intros v [<-|[<-|[<-|[<-|[]]]]]; unfold dot; simpl; lra).
  unfold dot in *. simpl in *. lra.
Qed.
Lemma box_shape_center x y w h : hull (box_shape x y w h) (x, y).
Proof.
  exists [1/4; 1/4; 1/4; 1/4]. split; [reflexivity|]. split; [intros v [<-|[<-|[<-|[<-|[]]]]]; lra|].
  unfold wsum, wx, wy. simpl. repeat split; field.
Qed.
Lemma moved_box w h p : moved (box_shape 0 0 w h) p = box_shape (fst p) (snd p) w h.
Proof.
  unfold moved, box_shape. simpl.
  apply f_equal2; [f_equal; ring|]. apply f_equal2; [f_equal; ring|]. apply f_equal2; [f_equal; ring|]. apply f_equal2; [f_equal; ring|reflexivity].
Qed.

(** a small robot and a thin wall *)
Definition ex_robot : list rpt := box_shape 0 0 (1/1000) (1/1000).
Definition ex_wall : list rpt := box_shape (1/50) 0 (1/1000) 1.
Lemma ex_shapes : shapes_ok ex_robot [ex_wall].
Proof. split; [apply box_shape_convex; lra|]. intros h [<-|[]]. split; [apply box_shape_convex; lra|reflexivity]. Qed.
(** through the wall, and a motion elsewhere *)
Definition ex_through : rpt * rpt := ((0, 0), (1/25, 0)).
Definition ex_other : rpt * rpt := ((10, 0), (10 + 8/100, 0)).

Lemma trunc_eq x k : INR k <= x < INR k + 1 -> trunc x = k.
Proof.
  intros [A B]. unfold trunc. rewrite <- (Nat2Z.id k). f_equal. destruct (base_Int_part x) as [C D].
  rewrite INR_IZR_INZ in A, B. 
  assert (IZR (Int_part x) < IZR (Z.of_nat k + 1)) as L1 by (rewrite plus_IZR; lra). apply lt_IZR in L1.
  assert (IZR (Z.of_nat k) < IZR (Int_part x + 1)) as L2 by (rewrite plus_IZR; lra). apply lt_IZR in L2. lia.
Qed.

Lemma free_ex p : (fst p <= 0 \/ 1/25 <= fst p) -> free_at ex_robot [ex_wall] p.
Proof.
  intros H h [<-|[]] (q & A & B). unfold ex_robot in A. rewrite moved_box in A. apply box_shape_hull in A; [|lra]. apply box_shape_hull in B; [|lra].
  destruct p as [x y]; cbn [fst] in *. lra.
Qed.
Lemma hit_ex : ~ free_at ex_robot [ex_wall] (1/50, 0).
Proof.
  intro F. apply (F ex_wall); [simpl; auto|]. exists (1/50, 0). split; [|apply box_shape_center].
  unfold ex_robot. rewrite moved_box. apply box_shape_center.
Qed.

Lemma steps_ex batch M k : (forall m, In m batch -> Rabs (fst (fst m) - fst (snd m)) <= M /\ Rabs (snd (fst m) - snd (snd m)) <= M) ->
  (exists m, In m batch /\ Rabs (fst (fst m) - fst (snd m)) = M) -> INR k <= M / (8/100) < INR k + 1 -> num_steps ex_robot batch = (k + 2)%nat.
Proof.
  intros B (m & Hm & E) K. unfold num_steps. f_equal. apply trunc_eq.
  assert (N : ex_robot <> []) by discriminate.
  set (l := flat_map _ batch).
  assert (L : forall x, In x l -> x <= M).
  { intros x Hx. apply in_flat_map in Hx as (m' & Hm' & Hx). destruct (B m' Hm') as [B1 B2]. simpl in Hx.
    destruct Hx as [<-|[<-|[]]]; rewrite spread_eq; auto. }
  assert (I : In M l).
  { apply in_flat_map. exists m. split; auto. simpl. left. rewrite spread_eq; auto. }
  assert (lmax l = M); [|congruence].
  apply Rle_antisym; [|now apply lmax_ge]. apply L. apply lmax_In. intro Z. rewrite Z in I. destruct I.
Qed.

Lemma verdict_true verts hulls batch : shapes_ok verts hulls -> batch <> [] ->
  (forall m k, In m batch -> (k < num_steps verts batch)%nat -> free_at verts hulls (along m (INR k / INR (num_steps verts batch - 1)))) ->
  is_motion_valid verts hulls batch = Some (repeat true (length batch)).
Proof.
  intros Ok N H. rewrite verdicts by auto. f_equal.
  transitivity (map (fun _ : rpt * rpt => true) batch); [|clear; induction batch; simpl; congruence].
  apply map_ext_in. intros m Hm. apply verdict_iff; auto.
Qed.

Example ex_accepted : is_motion_valid ex_robot [ex_wall] [ex_through] = Some [true].
Proof.
  apply (verdict_true ex_robot [ex_wall] [ex_through] ex_shapes ltac:(discriminate)). intros m k [<-|[]] Hk.
  rewrite (steps_ex _ (1/25) 0) in *.
  - apply free_ex. destruct k as [|[|k]]; [left|right|lia]; unfold along, ex_through; simpl; lra.
  - intros m [<-|[]]. unfold ex_through. simpl. split; apply Rabs_le; lra.
  - exists ex_through. split; [simpl; auto|]. unfold ex_through. simpl. rewrite Rabs_left; lra.
  - simpl. lra.
  - intros m [<-|[]]. unfold ex_through. simpl. split; apply Rabs_le; lra.
  - exists ex_through. split; [simpl; auto|]. unfold ex_through. simpl. rewrite Rabs_left; lra.
  - simpl. lra.
Qed.

(** An accepted motion can cross an obstacle thinner than the step. *)
Theorem motion_check_sound_refuted : exists verts hulls m t, shapes_ok verts hulls /\
  is_motion_valid verts hulls [m] = Some [true] /\ 0 <= t <= 1 /\ ~ free_at verts hulls (along m t).
Proof.
  exists ex_robot, [ex_wall], ex_through, (1/2). split; [apply ex_shapes|]. split; [apply ex_accepted|]. split; [lra|].
  replace (along ex_through (1/2)) with (1/50, 0); [apply hit_ex|]. unfold along, ex_through. simpl. f_equal; lra.
Qed.

(** The verdict for a motion depends on the other motions of the call. *)
Theorem motion_check_batch_refuted : exists verts hulls m m' v, shapes_ok verts hulls /\
  is_motion_valid verts hulls [m] = Some [true] /\ is_motion_valid verts hulls [m; m'] = Some [false; v].
Proof.
  exists ex_robot, [ex_wall], ex_through, ex_other. 
  assert (S : num_steps ex_robot [ex_through; ex_other] = 3%nat).
  { apply (steps_ex _ (8/100) 1).
    - intros m [<-|[<-|[]]]; unfold ex_through, ex_other; simpl; split; apply Rabs_le; lra.
    - exists ex_other. split; [simpl; auto|]. unfold ex_other. simpl. rewrite Rabs_left; lra.
    - simpl. lra. }
  eexists. split; [apply ex_shapes|]. split; [apply ex_accepted|].
  rewrite verdicts by (apply ex_shapes || discriminate). rewrite S. cbn [map]. f_equal. f_equal.
  apply not_true_iff_false. rewrite verdict_iff by apply ex_shapes. intro F. specialize (F 1%nat ltac:(lia)).
  replace (along ex_through (INR 1 / INR (3 - 1))) with (1/50, 0) in F; [now apply hit_ex|].
  unfold along, ex_through. simpl. f_equal; lra.
Qed.

(** A call without motions raises, where an empty answer would do. *)
Theorem motion_check_empty_refuted : exists verts hulls, shapes_ok verts hulls /\ is_motion_valid verts hulls [] = None.
Proof. exists ex_robot, [ex_wall]. split; [apply ex_shapes|reflexivity]. Qed.

Print Assumptions motion_checked_exactly.
Print Assumptions accepted_motion.
Print Assumptions motion_check_symmetric.
Print Assumptions motion_check_sound_refuted.
Print Assumptions motion_check_batch_refuted.
Print Assumptions motion_check_empty_refuted.
