(** Lemmas about segments, boxes and projections. *)
From Coq Require Import Arith List Reals Bool Lra Lia Psatz.
From Verif Require Import Geom_Model Geom_Spec.
Import ListNotations.
Open Scope R_scope.

Lemma Rleb_iff x y : Rleb x y = true <-> x <= y.
Proof. unfold Rleb. destruct (Rle_dec x y); split; auto; discriminate. Qed.
Lemma Reqb_iff x y : Reqb x y = true <-> x = y.
Proof. unfold Reqb. destruct (Req_EM_T x y); split; auto; discriminate. Qed.
Lemma Reqb_false x y : Reqb x y = false <-> x <> y.
Proof. unfold Reqb. destruct (Req_EM_T x y); split; auto; [discriminate|contradiction]. Qed.

(** ** Segments *)
Lemma detect_iff a b c d :
  detect_intersect a b c d = true <-> share_point a b c d \/ (parallel a b c d /\ aligned a b c).
Proof.
  destruct a as [ax ay], b as [bx by_], c as [cx cy], d as [dx dy].
  unfold detect_intersect, cross_2d, psub, share_point, on_segment, parallel, aligned. cbn [fst snd].
  set (cd := (bx - ax) * (dy - cy) - (by_ - ay) * (dx - cx)).
  set (u1 := (cx - ax) * (dy - cy) - (cy - ay) * (dx - cx)).
  set (u2 := (cx - ax) * (by_ - ay) - (cy - ay) * (bx - ax)).
  destruct (Req_EM_T cd 0) as [E|E].
  - replace (Reqb cd 0) with true by (symmetry; now apply Reqb_iff). cbn [andb orb].
    rewrite Reqb_iff. split.
    + intro U. right. unfold cd, u2 in *. split; lra.
    + intros [[[x y] [(t & Ht & X & Y) (s & Hs & X' & Y')]]|[P A]]; cbn [fst snd] in *.
      * replace u2 with (s * cd); [rewrite E; lra|].
        unfold cd, u2. rewrite X in X'. rewrite Y in Y'.
        replace (cx - ax) with (t * (bx - ax) - s * (dx - cx)) by lra.
        replace (cy - ay) with (t * (by_ - ay) - s * (dy - cy)) by lra. ring.
      * unfold u2. lra.
  - replace (Reqb cd 0) with false by (symmetry; now apply Reqb_false). cbn [andb]. rewrite orb_false_r.
    rewrite !andb_true_iff, !Rleb_iff. split.
    + intros [[A B] [C D]]. left.
      exists (ax + u1 / cd * (bx - ax), ay + u1 / cd * (by_ - ay)). split.
      * exists (u1 / cd). cbn [fst snd]. split; [lra|split; reflexivity].
      * exists (u2 / cd). cbn [fst snd]. split; [lra|].
        split; apply (Rmult_eq_reg_r cd); auto; unfold Rdiv.
        -- rewrite Rmult_plus_distr_r. rewrite Rmult_plus_distr_r.
           replace (u1 * / cd * (bx - ax) * cd) with (u1 * (bx - ax)) by (field; auto).
           replace (u2 * / cd * (dx - cx) * cd) with (u2 * (dx - cx)) by (field; auto).
           unfold cd, u1, u2. ring.
        -- rewrite Rmult_plus_distr_r. rewrite Rmult_plus_distr_r.
           replace (u1 * / cd * (by_ - ay) * cd) with (u1 * (by_ - ay)) by (field; auto).
           replace (u2 * / cd * (dy - cy) * cd) with (u2 * (dy - cy)) by (field; auto).
           unfold cd, u1, u2. ring.
    + intros [[[x y] [(t & Ht & X & Y) (s & Hs & X' & Y')]]|[P A]]; cbn [fst snd] in *.
      * assert (H1 : u1 = t * cd).
        { unfold u1, cd. replace (cx - ax) with (t * (bx - ax) - s * (dx - cx)) by lra.
          replace (cy - ay) with (t * (by_ - ay) - s * (dy - cy)) by lra. ring. }
        assert (H2 : u2 = s * cd).
        { unfold u2, cd. replace (cx - ax) with (t * (bx - ax) - s * (dx - cx)) by lra.
          replace (cy - ay) with (t * (by_ - ay) - s * (dy - cy)) by lra. ring. }
        rewrite H1, H2. replace (t * cd / cd) with t by (field; auto).
        replace (s * cd / cd) with s by (field; auto). lra.
      * exfalso. apply E. unfold cd. lra.
Qed.

Lemma bool_eq (a b : bool) : (a = true <-> b = true) -> a = b.
Proof. destruct a, b; intuition. Qed.

Lemma on_segment_rev a b x : on_segment a b x -> on_segment b a x.
Proof. intros (t & Ht & X & Y). exists (1 - t). split; [lra|]. split; [rewrite X|rewrite Y]; ring. Qed.

Lemma detect_reverse a b c d : detect_intersect b a c d = detect_intersect a b c d.
Proof.
  apply bool_eq. rewrite !detect_iff. unfold share_point, parallel, aligned.
  split; (intros [(x & A & B)|[A B]]; [left; exists x; split; auto using on_segment_rev|right; split; lra]).
Qed.

(** ** Vectors *)
Lemma nth_at_time t : forall p q i, length p = length q -> (i < length p)%nat ->
  nth i (at_time t p q) 0 = nth i p 0 + t * (nth i q 0 - nth i p 0).
Proof.
  induction p as [|x p IH]; intros [|y q] i L Hi; simpl in *; try lia.
  destruct i; auto. apply IH; lia.
Qed.
Lemma at_time_length t : forall p q, length p = length q -> length (at_time t p q) = length p.
Proof. induction p as [|x p IH]; intros [|y q] L; simpl in *; auto; try lia; rewrite IH; lia. Qed.

Lemma all2_iff f : forall p q, length p = length q ->
  (all2 f p q = true <-> forall i, (i < length p)%nat -> f (nth i p 0) (nth i q 0) = true).
Proof.
  induction p as [|x p IH]; intros [|y q] L; simpl in *; try lia.
  - split; [intros _ i Hi; lia|reflexivity].
  - unfold all2 in *. simpl. rewrite andb_true_iff, IH by lia. split.
    + intros [A B] [|i] Hi; auto. apply B. lia.
    + intro H. split; [apply (H 0%nat); lia|]. intros i Hi. apply (H (S i)). lia.
Qed.

Lemma nth_bounds a b n i : (i < S n)%nat -> nth i (a :: repeat b n) 0 = if (i =? 0)%nat then a else b.
Proof.
  destruct i; simpl; auto. intro H. revert i H. induction n; intros i H; [lia|].
  simpl. destruct i; auto. apply IHn. lia.
Qed.
Lemma bounds_length (a b : R) n : length (a :: repeat b n) = S n.
Proof. simpl. now rewrite repeat_length. Qed.

Lemma uniform_length lo hi u : length lo = length hi -> length u = length lo ->
  length (uniform lo hi u) = length lo.
Proof. intros. unfold uniform. rewrite map_length, !combine_length. lia. Qed.
Lemma nth_uniform : forall lo hi u i, length lo = length hi -> length u = length lo -> (i < length lo)%nat ->
  nth i (uniform lo hi u) 0 = nth i lo 0 + nth i u 0 * (nth i hi 0 - nth i lo 0).
Proof.
  unfold uniform. induction lo as [|x lo IH]; intros [|y hi] [|z u] i L1 L2 Hi; simpl in *; try lia.
  destruct i; auto. apply IH; lia.
Qed.

Lemma clip_range x lo hi : lo <= hi -> lo <= clip x lo hi <= hi.
Proof.
  intro H. unfold clip. split; [|apply Rmin_r]. apply Rmin_glb; auto. apply Rmax_r.
Qed.
Lemma clip_id x lo hi : lo <= x <= hi -> clip x lo hi = x.
Proof. intro H. unfold clip. rewrite Rmax_left by lra. rewrite Rmin_left; lra. Qed.
Lemma clip_closest x lo hi s : lo <= s <= hi -> (x - clip x lo hi) * (x - clip x lo hi) <= (x - s) * (x - s).
Proof.
  intro H. unfold clip.
  destruct (Rle_dec x lo).
  { rewrite Rmax_right by lra. rewrite Rmin_left by lra.
    assert (H1 : 0 <= (s - lo) * (s + lo - 2 * x)) by (apply Rmult_le_pos; lra). lra. }
  rewrite Rmax_left by lra. destruct (Rle_dec x hi).
  { rewrite Rmin_left by lra. pose proof (Rle_0_sqr (x - s)) as H1. unfold Rsqr in H1. lra. }
  rewrite Rmin_right by lra.
  assert (H1 : 0 <= (hi - s) * (2 * x - s - hi)) by (apply Rmult_le_pos; lra). lra.
Qed.

Lemma sumsq_nonneg : forall p q, 0 <= sumsq p q.
Proof. induction p as [|x p IH]; intros [|y q]; simpl; try lra. specialize (IH q). pose proof (Rle_0_sqr (x - y)) as H. unfold Rsqr in H. lra. Qed.

Lemma sumsq_coord : forall p q i, length p = length q -> (i < length p)%nat ->
  (nth i p 0 - nth i q 0) * (nth i p 0 - nth i q 0) <= sumsq p q.
Proof.
  induction p as [|x p IH]; intros [|y q] i L Hi; simpl in *; try lia.
  pose proof (sumsq_nonneg p q). destruct i; [lra|].
  assert (H1 : (nth i p 0 - nth i q 0) * (nth i p 0 - nth i q 0) <= sumsq p q) by (apply IH; lia).
  pose proof (Rle_0_sqr (x - y)). unfold Rsqr in *. lra.
Qed.

Lemma norm_vzip : forall p q, length p = length q ->
  norm (vzip Rminus p q) = dist p q.
Proof.
  intros p q L. unfold norm, dist. f_equal. revert q L.
  induction p as [|x p IH]; intros [|y q] L; simpl in *; try lia; auto.
  unfold vzip in IH. rewrite IH by lia. reflexivity.
Qed.

Lemma dist_coord p q i d : length p = length q -> (i < length p)%nat -> dist p q <= d ->
  - d <= nth i p 0 - nth i q 0 <= d.
Proof.
  intros L Hi D. pose proof (sumsq_coord p q i L Hi) as S. pose proof (sumsq_nonneg p q) as N.
  assert (D0 : 0 <= d) by (apply Rle_trans with (dist p q); auto; apply sqrt_pos).
  assert (S2 : sumsq p q <= d * d).
  { unfold dist in D. rewrite <- (sqrt_sqrt (sumsq p q)) by auto.
    pose proof (sqrt_pos (sumsq p q)). nra. }
  nra.
Qed.

Lemma prod_repeat x n : prod (repeat x n) = x ^ n.
Proof. induction n; simpl; auto. now rewrite IHn. Qed.
Lemma vzip_repeat f a b n : vzip f (repeat a n) (repeat b n) = repeat (f a b) n.
Proof. unfold vzip. induction n; simpl; auto. now rewrite IHn. Qed.

(** ** The narrow passage, one plane *)
Definition plane_free (c : R) (p : pt) : Prop :=
  -3/2 <= fst p <= 3/2 /\ -1/2 <= snd p <= 1/2 /\ (-1/2 < fst p < 1/2 -> -c <= snd p <= c).

(** A point above the passage cannot be reached from the free part without crossing one of
    the three upper walls. *)
Lemma upper_wall c a b t : 0 <= c <= 1/2 -> 0 <= t <= 1 ->
  snd a <= 1/2 -> snd b <= 1/2 ->
  (-1/2 < fst a < 1/2 -> snd a <= c) ->
  -1/2 < fst a + t * (fst b - fst a) < 1/2 -> c < snd a + t * (snd b - snd a) ->
  share_point a b (-1/2, c) (-1/2, 1/2) \/ share_point a b (-1/2, c) (1/2, c) \/
  share_point a b (1/2, c) (1/2, 1/2).
Proof.
  destruct a as [ax ay], b as [bx by_]. cbn [fst snd]. intros Hc Ht Ha Hb Fa Hx Hy.
  (* the point m = (mx, my); parameters l in [0,1] from m back to a *)
  set (mx := ax + t * (bx - ax)) in *. set (my := ay + t * (by_ - ay)) in *.
  assert (Back : forall l, 0 <= l <= 1 ->
            on_segment (ax, ay) (bx, by_) (mx + l * (ax - mx), my + l * (ay - my))).
  { intros l Hl. exists (t * (1 - l)). cbn [fst snd]. split; [nra|]. unfold mx, my. split; ring. }
  assert (Hm : my <= 1/2) by (unfold my; nra).
  (* crossing the line y = c on the way back, at an abscissa within the walls *)
  assert (Bottom : forall l, 0 <= l <= 1 -> my + l * (ay - my) <= c ->
            -1/2 <= mx + l * (ax - mx) <= 1/2 -> share_point (ax, ay) (bx, by_) (-1/2, c) (1/2, c)).
  { intros l Hl Hc1 Hx1.
    assert (Hd : 0 < l * (my - ay)) by lra.
    assert (Hpos : 0 < my - ay) by nra.
    set (l2 := (my - c) / (my - ay)).
    assert (E2 : l2 * (my - ay) = my - c) by (unfold l2; field; lra).
    assert (L2 : 0 <= l2 <= l) by (split; nra).
    assert (Hx2 : -1/2 <= mx + l2 * (ax - mx) <= 1/2).
    { destruct (Rle_dec ax mx); split; nra. }
    exists (mx + l2 * (ax - mx), my + l2 * (ay - my)). split; [apply Back; lra|].
    exists (mx + l2 * (ax - mx) + 1/2). cbn [fst snd]. split; [lra|]. split; lra. }
  destruct (Rle_dec ax (-1/2)) as [La|La]; [|destruct (Rle_dec (1/2) ax) as [Lb|Lb]].
  - set (l1 := (mx + 1/2) / (mx - ax)).
    assert (E1 : l1 * (mx - ax) = mx + 1/2) by (unfold l1; field; lra).
    assert (L1 : 0 <= l1 <= 1) by (split; nra).
    destruct (Rle_dec c (my + l1 * (ay - my))) as [H|H].
    + left. exists (mx + l1 * (ax - mx), my + l1 * (ay - my)). split; [apply Back; lra|].
      assert (Hy1 : my + l1 * (ay - my) <= 1/2) by nra.
      destruct (Req_dec c (1/2)) as [Ec|Ec].
      * exists 0. cbn [fst snd]. split; [lra|]. split; lra.
      * exists ((my + l1 * (ay - my) - c) / (1/2 - c)). cbn [fst snd].
        set (z := (my + l1 * (ay - my) - c) / (1/2 - c)).
        assert (Ez : z * (1/2 - c) = my + l1 * (ay - my) - c) by (unfold z; field; lra).
        split; [split; nra|]. split; lra.
    + right; left. apply (Bottom l1); auto; lra.
  - set (l1 := (1/2 - mx) / (ax - mx)).
    assert (E1 : l1 * (ax - mx) = 1/2 - mx) by (unfold l1; field; lra).
    assert (L1 : 0 <= l1 <= 1) by (split; nra).
    destruct (Rle_dec c (my + l1 * (ay - my))) as [H|H].
    + right; right. exists (mx + l1 * (ax - mx), my + l1 * (ay - my)). split; [apply Back; lra|].
      assert (Hy1 : my + l1 * (ay - my) <= 1/2) by nra.
      destruct (Req_dec c (1/2)) as [Ec|Ec].
      * exists 0. cbn [fst snd]. split; [lra|]. split; lra.
      * exists ((my + l1 * (ay - my) - c) / (1/2 - c)). cbn [fst snd].
        set (z := (my + l1 * (ay - my) - c) / (1/2 - c)).
        assert (Ez : z * (1/2 - c) = my + l1 * (ay - my) - c) by (unfold z; field; lra).
        split; [split; nra|]. split; lra.
    + right; left. apply (Bottom l1); auto; lra.
  - right; left. apply (Bottom 1); lra.
Qed.

Lemma share_mirror a b c d :
  share_point (fst a, - snd a) (fst b, - snd b) (fst c, - snd c) (fst d, - snd d) ->
  share_point a b c d.
Proof.
  intros (x & (t & Ht & X & Y) & (s & Hs & X' & Y')). cbn [fst snd] in *.
  exists (fst x, - snd x). split; [exists t|exists s]; cbn [fst snd]; split; auto; split; lra.
Qed.

Lemma plane_motion c a b t : 0 <= c <= 1/2 -> 0 <= t <= 1 -> plane_free c a ->
  -3/2 <= fst b <= 3/2 -> -1/2 <= snd b <= 1/2 ->
  (forall s, walls c s -> ~ share_point a b (fst s) (snd s)) ->
  plane_free c (fst a + t * (fst b - fst a), snd a + t * (snd b - snd a)).
Proof.
  intros Hc Ht (A1 & A2 & A3) B1 B2 NW. unfold plane_free. cbn [fst snd].
  split; [split; nra|]. split; [split; nra|]. intro Hx. split.
  - destruct (Rle_dec (- c) (snd a + t * (snd b - snd a))) as [|Hn]; auto. exfalso.
    assert (Hs : share_point (fst a, - snd a) (fst b, - snd b) (-1/2, c) (-1/2, 1/2) \/
                 share_point (fst a, - snd a) (fst b, - snd b) (-1/2, c) (1/2, c) \/
                 share_point (fst a, - snd a) (fst b, - snd b) (1/2, c) (1/2, 1/2)).
    { apply (upper_wall c _ _ t); cbn [fst snd]; auto; try lra. all: intro Hxx; specialize (A3 Hxx); lra. }
    assert (M : forall x y x' y', share_point (fst a, - snd a) (fst b, - snd b) (x, y) (x', y') ->
              share_point a b (x, - y) (x', - y')).
    { intros x y x' y' S. apply share_mirror. cbn [fst snd]. now rewrite !Ropp_involutive. }
    replace (-1/2) with (- (1/2)) in * by lra.
    destruct Hs as [S|[S|S]]; apply M in S; revert S.
    + intro S. apply (NW ((- (1/2), -c), (- (1/2), - (1/2)))); [|exact S].
      unfold walls. replace (-1/2) with (- (1/2)) by lra. simpl. auto.
    + intro S. apply (NW ((- (1/2), -c), (1/2, -c))); [|exact S].
      unfold walls. replace (-1/2) with (- (1/2)) by lra. simpl. auto.
    + intro S. apply (NW ((1/2, -c), (1/2, - (1/2)))); [|exact S].
      unfold walls. replace (-1/2) with (- (1/2)) by lra. simpl. auto 8.
  - destruct (Rle_dec (snd a + t * (snd b - snd a)) c) as [|Hn]; auto. exfalso.
    assert (A4 : -1/2 < fst a < 1/2 -> snd a <= c) by (intro Hxx; specialize (A3 Hxx); lra).
    destruct (upper_wall c a b t Hc Ht) as [S|[S|S]]; auto; try lra.
    + apply (NW ((-1/2, c), (-1/2, 1/2))) in S; auto. unfold walls. simpl. auto.
    + apply (NW ((-1/2, c), (1/2, c))) in S; auto. unfold walls. simpl. auto.
    + apply (NW ((1/2, c), (1/2, 1/2))) in S; auto. unfold walls. simpl. auto 8.
Qed.

Lemma free_planes dim c p : (2 <= dim)%nat -> 0 <= c <= 1/2 -> length p = dim ->
  (narrow_free dim c p <-> forall i, (1 <= i < dim)%nat -> plane_free c (nth 0 p 0, nth i p 0)).
Proof.
  intros Hd Hc L. unfold narrow_free, plane_free. cbn [fst snd]. split.
  - intros [_ [[X Y]|[[X Y]|[X Y]]]] i Hi; specialize (Y i Hi); repeat split; lra.
  - intro H. split; auto.
    assert (H1 := H 1%nat ltac:(lia)).
    destruct (Rle_dec (nth 0 p 0) (-1/2)); [|destruct (Rle_dec (1/2) (nth 0 p 0))].
    + left. split; [lra|]. intros i Hi. specialize (H i Hi). lra.
    + right; right. split; [lra|]. intros i Hi. specialize (H i Hi). lra.
    + right; left. split; [lra|]. intros i Hi. specialize (H i Hi). lra.
Qed.

Lemma orb_fold {A} (f : A -> bool) l : forall b,
  fold_left (fun x a => x || f a)%bool l b = true <-> b = true \/ exists a, In a l /\ f a = true.
Proof.
  induction l as [|a l IH]; intro b; simpl.
  - split; auto. intros [H|[a [[] _]]]; auto.
  - rewrite IH, orb_true_iff. split.
    + intros [[H|H]|[x [H1 H2]]]; eauto.
    + intros [H|[x [[->|H1] H2]]]; eauto.
Qed.

Lemma walls_coll c s : walls c s <-> In s (coll_lines c).
Proof.
  unfold walls, coll_lines. replace (-1/2) with (- (1/2)) by lra. reflexivity.
Qed.

Lemma narrow_valid_iff dim c start goal :
  narrow_motion_valid dim c start goal = true <->
  forall i s, (1 <= i < dim)%nat -> walls c s ->
    detect_intersect (proj i start) (proj i goal) (fst s) (snd s) = false.
Proof.
  unfold narrow_motion_valid.
  assert (G : forall l b,
    fold_left (fun colliding i =>
            fold_left (fun colliding l =>
                         colliding || detect_intersect (proj i start) (proj i goal) (fst l) (snd l))
                      (coll_lines c) colliding) l b = true <->
    b = true \/ exists i s, In i l /\ In s (coll_lines c) /\ detect_intersect (proj i start) (proj i goal) (fst s) (snd s) = true).
  { induction l as [|i l IH]; intro b.
    - simpl. split; auto. intros [H|(i & s & [] & _)]; auto.
    - cbn [fold_left]. rewrite IH.
      rewrite (orb_fold (fun l => detect_intersect (proj i start) (proj i goal) (fst l) (snd l)) (coll_lines c) b). split.
      + intros [[H|(s & A & B)]|(j & s & A & B & C)]; auto.
        * right. exists i, s. simpl. auto.
        * right. exists j, s. simpl. auto.
      + intros [H|(j & s & [<-|A] & B & C)]; auto.
        * left. right. exists s. auto.
        * right. exists j, s. auto. }
  rewrite negb_true_iff, <- not_true_iff_false, G. split.
  - intros H i s Hi Hs. apply not_true_iff_false. intro D. apply H. right. exists i, s.
    split; [apply in_seq; lia|]. split; auto. now apply walls_coll.
  - intros H [E|(i & s & A & B & C)]; [discriminate|]. apply in_seq in A. apply walls_coll in B.
    refine (eq_true_false_abs _ C (H i s _ B)). lia.
Qed.
