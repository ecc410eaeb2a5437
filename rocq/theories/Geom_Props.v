(** Properties C34-C42: segment test, straight-line and narrow-passage environments. *)
From Coq Require Import Arith List Reals Bool Lra Lia.
From Verif Require Import Geom_Model Geom_Spec Geom_Proofs.
Import ListNotations.
Open Scope R_scope.

(** C34 *)
Theorem segment_test_never_misses : forall a b c d,
  share_point a b c d -> detect_intersect a b c d = true.
Proof. intros. apply detect_iff. auto. Qed.
Print Assumptions segment_test_never_misses.

(** C35, for segments on lines that are not parallel, or parallel and not on one line. *)
Theorem segment_test_exact : forall a b c d, ~ (parallel a b c d /\ aligned a b c) ->
  (detect_intersect a b c d = true <-> share_point a b c d).
Proof. intros. rewrite detect_iff. tauto. Qed.
Print Assumptions segment_test_exact.

Example segment_test_case :
  detect_intersect (0, 0) (2, 2) (0, 2) (2, 0) = true /\ detect_intersect (0, 0) (2, 2) (3, 0) (3, 4) = false.
Proof.
  split.
  - apply segment_test_never_misses. exists (1, 1). split; exists (1/2); cbn [fst snd]; split; try lra; split; lra.
  - apply not_true_iff_false. rewrite segment_test_exact.
    + intros (x & (t & Ht & X & Y) & (s & Hs & X' & Y')). cbn [fst snd] in *. lra.
    + unfold parallel. cbn [fst snd]. lra.
Qed.

(** C35 in general is false: disjoint segments on one line, and a zero-length segment far
    away, are reported. *)
Theorem segment_test_exact_refuted :
  (exists a b c d, a <> b /\ c <> d /\ detect_intersect a b c d = true /\ ~ share_point a b c d) /\
  (exists a c d, c <> d /\ detect_intersect a a c d = true /\ ~ share_point a a c d).
Proof.
  split.
  - exists (0, 0), (1, 0), (2, 0), (3, 0). split; [intro E; injection E; lra|]. split; [intro E; injection E; lra|]. split.
    + apply detect_iff. right. unfold parallel, aligned. cbn [fst snd]. lra.
    + intros (x & (t & Ht & X & Y) & (s & Hs & X' & Y')). cbn [fst snd] in *. lra.
  - exists (0, 0), (1, 1), (1, 2). split; [intro E; injection E; lra|]. split.
    + apply detect_iff. right. unfold parallel, aligned. cbn [fst snd]. lra.
    + intros (x & (t & Ht & X & Y) & (s & Hs & X' & Y')). cbn [fst snd] in *. lra.
Qed.
Print Assumptions segment_test_exact_refuted.

(** C39, segment test: reversing either segment changes nothing. *)
Theorem segment_test_direction_free : forall a b c d,
  detect_intersect b a c d = detect_intersect a b c d /\
  detect_intersect a b d c = detect_intersect a b c d.
Proof.
  intros a b c d. split; [apply detect_reverse|].
  apply bool_eq. rewrite !detect_iff. unfold share_point, parallel, aligned.
  split; (intros [(x & A & B)|[A B]]; [left; exists x; split; auto using on_segment_rev|right; split; lra]).
Qed.
Print Assumptions segment_test_direction_free.

(** ** Narrow passage *)

(** C36.  From a free start, to a goal in the environment's bounding box: every point of an
    accepted motion is free (and so is the goal). *)
Theorem narrow_accepted_motion_free : forall dim c start goal, (2 <= dim)%nat -> 0 <= c <= 1/2 ->
  narrow_free dim c start -> narrow_outer dim goal ->
  narrow_motion_valid dim c start goal = true ->
  forall t, 0 <= t <= 1 -> narrow_free dim c (at_time t start goal).
Proof.
  intros dim c start goal Hd Hc Fs (Lg & G0 & Gi) V t Ht.
  assert (Ls : length start = dim) by apply Fs.
  assert (L : length start = length goal) by congruence.
  assert (La : length (at_time t start goal) = dim) by (rewrite at_time_length; auto).
  apply free_planes; auto. intros i Hi.
  rewrite !nth_at_time by lia.
  rewrite narrow_valid_iff in V.
  pose proof (proj1 (free_planes dim c start Hd Hc Ls) Fs i Hi) as Ps.
  apply (plane_motion c (nth 0 start 0, nth i start 0) (nth 0 goal 0, nth i goal 0) t); auto; cbn [fst snd].
  - apply (Gi i Hi).
  - intros s Hs S. specialize (V i s Hi Hs). unfold proj in V.
    apply segment_test_never_misses in S. exact (eq_true_false_abs _ S V).
Qed.
Print Assumptions narrow_accepted_motion_free.

(** C37.  Exactly which motions are accepted: no wall is touched in any plane, and no
    planar projection of the motion lies on the line of a wall (or is a single point, which
    lies on every line). *)
Theorem narrow_accepts_iff : forall dim c start goal,
  narrow_motion_valid dim c start goal = true <->
  forall i s, (1 <= i < dim)%nat -> walls c s ->
    let a := (nth 0 start 0, nth i start 0) in let b := (nth 0 goal 0, nth i goal 0) in
    ~ share_point a b (fst s) (snd s) /\ ~ (parallel a b (fst s) (snd s) /\ aligned a b (fst s)).
Proof.
  intros. rewrite narrow_valid_iff. split; intros H i s Hi Hs; specialize (H i s Hi Hs); cbv zeta in *.
  - apply not_true_iff_false in H. unfold proj in H. rewrite detect_iff in H. tauto.
  - apply not_true_iff_false. unfold proj. rewrite detect_iff. tauto.
Qed.
Print Assumptions narrow_accepts_iff.

(** A motion through the passage, dim 3, clearance 1/4. *)
Example narrow_motion_case :
  narrow_motion_valid 3 (1/4) [-1; 0; 1/8] [1; 1/8; 0] = true /\
  narrow_free 3 (1/4) [-1; 0; 1/8] /\ narrow_outer 3 [1; 1/8; 0].
Proof.
  split; [|split].
  - apply narrow_accepts_iff. intros i s Hi Hs.
    assert (I : i = 1%nat \/ i = 2%nat) by lia.
    unfold walls in Hs. simpl in Hs.
    destruct Hs as [<-|[<-|[<-|[<-|[<-|[<-|[]]]]]]]; destruct I as [-> | ->]; cbn [fst snd nth]; split;
      try (intros (x & (t & Ht & X & Y) & (s & Hs & X' & Y')); cbn [fst snd] in *; lra);
      (intros [A B]; unfold parallel, aligned in *; cbn [fst snd] in *; lra).
  - split; [reflexivity|]. left. simpl. split; [lra|]. intros i Hi.
    assert (I : i = 1%nat \/ i = 2%nat) by lia. destruct I as [-> | ->]; simpl; lra.
  - split; [reflexivity|]. simpl. split; [lra|]. intros i Hi.
    assert (I : i = 1%nat \/ i = 2%nat) by lia. destruct I as [-> | ->]; simpl; lra.
Qed.

(** C37 is false: free motions that touch no wall are rejected.  First, staying at the
    origin; second, in three dimensions, any motion along the third axis (its projection to
    the first plane is a point); third, in two dimensions, a motion in the left room on the
    height of a passage wall. *)
Definition all_free (dim : nat) (c : R) (p q : list R) : Prop :=
  forall t, 0 <= t <= 1 -> narrow_free dim c (at_time t p q).
Definition clear_of_walls (dim : nat) (c : R) (p q : list R) : Prop :=
  forall i s, (1 <= i < dim)%nat -> walls c s ->
    ~ share_point (nth 0 p 0, nth i p 0) (nth 0 q 0, nth i q 0) (fst s) (snd s).

Theorem narrow_clear_motions_accepted_refuted :
  (exists c p, all_free 2 c p p /\ clear_of_walls 2 c p p /\ narrow_motion_valid 2 c p p = false) /\
  (exists c p q, p <> q /\ all_free 3 c p q /\ clear_of_walls 3 c p q /\ narrow_motion_valid 3 c p q = false) /\
  (exists c p q, p <> q /\ all_free 2 c p q /\ clear_of_walls 2 c p q /\ narrow_motion_valid 2 c p q = false).
Proof.
  assert (W : forall c (s : (R * R) * (R * R)), walls c s -> s = ((-1/2, c), (-1/2, 1/2)) \/ s = ((-1/2, -c), (-1/2, -1/2)) \/
     s = ((-1/2, c), (1/2, c)) \/ s = ((-1/2, -c), (1/2, -c)) \/ s = ((1/2, c), (1/2, 1/2)) \/ s = ((1/2, -c), (1/2, -1/2))).
  { intros c s Hs. unfold walls in Hs. simpl in Hs. intuition congruence. }
  split; [|split].
  - exists (1/4), [0; 0]. split; [|split].
    + intros t Ht. split; [reflexivity|]. right; left. simpl. split; [lra|]. intros i Hi.
      assert (i = 1%nat) by lia. subst. simpl. lra.
    + intros i s Hi Hs. assert (i = 1%nat) by lia. subst. apply W in Hs.
      destruct Hs as [->|[->|[->|[->|[->| ->]]]]]; cbn [fst snd nth];
      intros (x & (t & Ht & X & Y) & (s' & Hs' & X' & Y')); cbn [fst snd] in *; lra.
    + apply not_true_iff_false. rewrite narrow_accepts_iff. intro H.
      destruct (H 1%nat ((-1/2, 1/4), (-1/2, 1/2)) ltac:(lia)) as [_ N]; [unfold walls; simpl; auto|].
      apply N. unfold parallel, aligned. cbn [fst snd nth]. lra.
  - exists (1/4), [0; 0; 0], [0; 0; 1/8]. split; [intro E; injection E; lra|]. split; [|split].
    + intros t Ht. split; [reflexivity|]. right; left. simpl. split; [lra|]. intros i Hi.
      assert (I : i = 1%nat \/ i = 2%nat) by lia. destruct I as [-> | ->]; simpl; lra.
    + intros i s Hi Hs. assert (I : i = 1%nat \/ i = 2%nat) by lia. apply W in Hs.
      destruct I as [-> | ->]; destruct Hs as [->|[->|[->|[->|[->| ->]]]]]; cbn [fst snd nth];
      intros (x & (t & Ht & X & Y) & (s' & Hs' & X' & Y')); cbn [fst snd] in *; lra.
    + apply not_true_iff_false. rewrite narrow_accepts_iff. intro H.
      destruct (H 1%nat ((-1/2, 1/4), (-1/2, 1/2)) ltac:(lia)) as [_ N]; [unfold walls; simpl; auto|].
      apply N. unfold parallel, aligned. cbn [fst snd nth]. lra.
  - exists (1/4), [-3/2; 1/4], [-1; 1/4]. split; [intro E; injection E; lra|]. split; [|split].
    + intros t Ht. split; [reflexivity|]. left. simpl. split; [lra|]. intros i Hi.
      assert (i = 1%nat) by lia. subst. simpl. lra.
    + intros i s Hi Hs. assert (i = 1%nat) by lia. subst. apply W in Hs.
      destruct Hs as [->|[->|[->|[->|[->| ->]]]]]; cbn [fst snd nth];
      intros (x & (t & Ht & X & Y) & (s' & Hs' & X' & Y')); cbn [fst snd] in *; lra.
    + apply not_true_iff_false. rewrite narrow_accepts_iff. intro H.
      destruct (H 1%nat ((-1/2, 1/4), (1/2, 1/4)) ltac:(lia)) as [_ N]; [unfold walls; simpl; auto|].
      apply N. unfold parallel, aligned. cbn [fst snd nth]. lra.
Qed.
Print Assumptions narrow_clear_motions_accepted_refuted.

(** C36 needs a free start: motions wholly inside an obstacle are accepted. *)
Theorem narrow_accepted_inside_obstacle_refuted :
  exists c p q, 0 < c < 1/2 /\ narrow_outer 2 p /\ narrow_outer 2 q /\ narrow_motion_valid 2 c p q = true /\
    forall t, 0 <= t <= 1 -> ~ narrow_free 2 c (at_time t p q).
Proof.
  exists (1/4), [0; 3/8], [1/8; 7/16].
  assert (I1 : forall i, (1 <= i < 2)%nat -> i = 1%nat) by (intros; lia).
  split; [lra|]. split; [|split; [|split]].
  - split; [reflexivity|]. simpl. split; [lra|]. intros i Hi. rewrite (I1 i Hi). simpl. lra.
  - split; [reflexivity|]. simpl. split; [lra|]. intros i Hi. rewrite (I1 i Hi). simpl. lra.
  - apply narrow_accepts_iff. intros i s Hi Hs. rewrite (I1 i Hi).
    unfold walls in Hs. simpl in Hs.
    destruct Hs as [<-|[<-|[<-|[<-|[<-|[<-|[]]]]]]]; cbn [fst snd nth]; split;
      try (intros (x & (t & Ht & X & Y) & (s & Hs & X' & Y')); cbn [fst snd] in *; lra);
      (intros [A B]; unfold parallel, aligned in *; cbn [fst snd] in *; lra).
  - intros t Ht [_ [[A _]|[[_ B]|[A _]]]]; simpl in *; try lra.
    specialize (B 1%nat ltac:(lia)). simpl in B. lra.
Qed.
Print Assumptions narrow_accepted_inside_obstacle_refuted.

(** C38 *)
Lemma unit_nth dim u i : unit_draws dim u -> (i < dim)%nat -> 0 <= nth i u 0 <= 1.
Proof. intros [L H] Hi. apply H. apply nth_In. lia. Qed.

Theorem narrow_samples_free : forall dim c box u, (2 <= dim)%nat -> 0 <= c <= 1/2 -> (box < 3)%nat ->
  unit_draws dim u -> narrow_free dim c (narrow_sample dim c box u).
Proof.
  intros dim c box u Hd Hc Hb U. pose proof U as [Lu _].
  assert (B : forall a b a' b', length (uniform (a :: repeat b (dim - 1)) (a' :: repeat b' (dim - 1)) u) = dim /\
     (forall i, (i < dim)%nat -> nth i (uniform (a :: repeat b (dim - 1)) (a' :: repeat b' (dim - 1)) u) 0 =
        (if (i =? 0)%nat then a else b) + nth i u 0 * ((if (i =? 0)%nat then a' else b') - (if (i =? 0)%nat then a else b)))).
  { intros. split.
    - rewrite uniform_length; rewrite !bounds_length; lia.
    - intros i Hi. rewrite nth_uniform; rewrite ?bounds_length; try lia. rewrite !nth_bounds by lia. reflexivity. }
  unfold narrow_sample, narrow_free.
  assert (N0 := unit_nth dim u 0 U ltac:(lia)).
  destruct box as [|[|[|]]]; [| | |lia]; cbn [nth lined_up_bounds fst snd];
    unfold left_lb, left_ub, right_lb, right_ub, hall_lb, hall_ub;
    match goal with |- context [uniform (?a :: repeat ?b _) (?a' :: repeat ?b' _) u] =>
      destruct (B a b a' b') as [L E] end; (split; [exact L|]).
  - left. rewrite E by lia. simpl. split; [lra|]. intros i Hi. rewrite E by lia.
    destruct i; [lia|]. simpl. assert (N := unit_nth dim u (S i) U ltac:(lia)). lra.
  - right; right. rewrite E by lia. simpl. split; [lra|]. intros i Hi. rewrite E by lia.
    destruct i; [lia|]. simpl. assert (N := unit_nth dim u (S i) U ltac:(lia)). lra.
  - right; left. rewrite E by lia. simpl. split; [lra|]. intros i Hi. rewrite E by lia.
    destruct i; [lia|]. simpl. assert (N := unit_nth dim u (S i) U ltac:(lia)). split; nra.
Qed.
Print Assumptions narrow_samples_free.

Theorem narrow_probabilities : forall dim c, (1 <= dim)%nat -> 0 <= c ->
  narrow_volume dim c = 2 + (2 * c) ^ (dim - 1) /\
  p_left dim c = 1 / narrow_volume dim c /\ p_right dim c = p_left dim c /\
  p_hall dim c = (2 * c) ^ (dim - 1) / narrow_volume dim c /\
  0 <= p_left dim c /\ 0 <= p_hall dim c /\ p_left dim c + p_right dim c + p_hall dim c = 1.
Proof.
  intros dim c Hd Hc.
  assert (V : forall a b a' b', 0 <= b' - b -> a' - a = 1 ->
     box_vol (a :: repeat b (dim - 1)) (a' :: repeat b' (dim - 1)) = (b' - b) ^ (dim - 1)).
  { intros a b a' b' Hb Ha. unfold box_vol.
    replace (vzip Rminus (a' :: repeat b' (dim - 1)) (a :: repeat b (dim - 1)))
      with ((a' - a) :: vzip Rminus (repeat b' (dim - 1)) (repeat b (dim - 1))) by reflexivity.
    rewrite vzip_repeat. simpl. rewrite Ha, Rabs_R1.
    assert (E : map Rabs (repeat (b' - b) (dim - 1)) = repeat (b' - b) (dim - 1)).
    { induction (dim - 1)%nat; simpl; auto. rewrite IHn, Rabs_pos_eq; auto. }
    rewrite E, prod_repeat. ring. }
  assert (EL : left_vol dim = 1).
  { unfold left_vol, left_lb, left_ub. rewrite V by lra. replace (1/2 - - (1/2)) with 1 by lra. apply pow1. }
  assert (ER : right_vol dim = 1).
  { unfold right_vol, right_lb, right_ub. rewrite V by lra. replace (1/2 - - (1/2)) with 1 by lra. apply pow1. }
  assert (EH : hall_vol dim c = (2 * c) ^ (dim - 1)).
  { unfold hall_vol, hall_lb, hall_ub. rewrite V by lra. f_equal. lra. }
  assert (P : 0 <= (2 * c) ^ (dim - 1)) by (apply pow_le; lra).
  assert (EV : narrow_volume dim c = 2 + (2 * c) ^ (dim - 1)) by (unfold narrow_volume; lra).
  unfold p_left, p_right, p_hall. rewrite EL, ER, EH, EV.
  set (h := (2 * c) ^ (dim - 1)) in *.
  split; auto. split; auto. split; auto. split; auto.
  split; [apply Rlt_le, Rdiv_lt_0_compat; lra|]. split; [|field; lra].
  apply Rmult_le_pos; auto. apply Rlt_le, Rinv_0_lt_compat. lra.
Qed.
Print Assumptions narrow_probabilities.

Example narrow_sample_case :
  narrow_sample 2 (1/4) 2 [1/2; 1] = [0; 1/4] /\ unit_draws 2 [1/2; 1] /\ narrow_volume 3 (1/4) = 9/4.
Proof.
  split; [|split].
  - unfold narrow_sample, uniform. simpl. f_equal; [lra|]. f_equal. lra.
  - split; [reflexivity|]. simpl. intros x [<-|[<-|[]]]; lra.
  - destruct (narrow_probabilities 3 (1/4)) as [-> _]; try lia; try lra. simpl. lra.
Qed.

(** C39 *)
Theorem narrow_motion_symmetric : forall dim c p q,
  narrow_motion_valid dim c p q = narrow_motion_valid dim c q p.
Proof.
  intros. apply bool_eq. rewrite !narrow_valid_iff.
  split; intros H i s Hi Hs; rewrite detect_reverse; auto.
Qed.
Print Assumptions narrow_motion_symmetric.

Theorem line_motion_symmetric : forall dim delta len p q,
  line_motion_valid dim delta len p q = line_motion_valid dim delta len q p.
Proof. intros. unfold line_motion_valid. apply andb_comm. Qed.
Print Assumptions line_motion_symmetric.

(** ** Straight line *)
Definition line_lo (delta : R) (i : nat) : R := - delta.
Definition line_hi (delta len : R) (i : nat) : R := match i with O => len + delta | _ => delta end.

Lemma in_bounds_iff dim delta len p : (1 <= dim)%nat -> length p = dim ->
  (in_bounds dim delta len p = true <-> in_box p (line_lo delta) (line_hi delta len)).
Proof.
  intros Hd L. unfold in_bounds, line_lower, line_upper.
  rewrite andb_true_iff, !all2_iff by (rewrite ?bounds_length; lia). rewrite bounds_length, L.
  unfold in_box, line_lo, line_hi. split.
  - intros [A B] i Hi. rewrite L in Hi. specialize (A i ltac:(lia)). specialize (B i ltac:(lia)).
    rewrite nth_bounds in A, B by lia. apply Rleb_iff in A, B. destruct i; simpl in *; lra.
  - intro H. split; intros i Hi; rewrite nth_bounds by lia; apply Rleb_iff; specialize (H i ltac:(lia));
    destruct i; simpl in *; lra.
Qed.

(** C40.  Accepted iff every point of the motion is in the box. *)
Theorem line_motion_exact : forall dim delta len p q, (2 <= dim)%nat -> length p = dim -> length q = dim ->
  (line_motion_valid dim delta len p q = true <->
   forall t, 0 <= t <= 1 -> in_box (at_time t p q) (line_lo delta) (line_hi delta len)).
Proof.
  intros dim delta len p q Hd Lp Lq. unfold line_motion_valid. rewrite andb_true_iff, !in_bounds_iff by (auto; lia).
  unfold in_box. split.
  - intros [A B] t Ht i Hi. rewrite at_time_length in Hi by lia. rewrite nth_at_time by lia.
    specialize (A i Hi). specialize (B i ltac:(lia)). split; nra.
  - intro H. split; intros i Hi.
    + specialize (H 0 ltac:(lra) i). rewrite at_time_length, nth_at_time in H by lia.
      specialize (H ltac:(lia)). lra.
    + specialize (H 1 ltac:(lra) i). rewrite at_time_length, nth_at_time in H by lia.
      specialize (H ltac:(lia)). lra.
Qed.
Print Assumptions line_motion_exact.

Theorem line_samples_connect : forall dim delta len u v, (2 <= dim)%nat -> 0 <= delta -> 0 <= len ->
  unit_draws dim u -> unit_draws dim v ->
  line_motion_valid dim delta len (line_sample dim delta len u) (line_sample dim delta len v) = true.
Proof.
  intros dim delta len u v Hd Hdel Hlen U V. unfold line_motion_valid.
  assert (G : forall w, unit_draws dim w -> in_bounds dim delta len (line_sample dim delta len w) = true).
  { intros w W. pose proof W as [Lw _].
    assert (L : length (line_sample dim delta len w) = dim).
    { unfold line_sample, line_lower, line_upper. rewrite uniform_length; rewrite !bounds_length; lia. }
    apply in_bounds_iff; [lia|auto|]. intros i Hi. rewrite L in Hi.
    unfold line_sample, line_lower, line_upper, line_lo, line_hi.
    rewrite nth_uniform; rewrite ?bounds_length; try lia. rewrite !nth_bounds by lia.
    pose proof (unit_nth dim w i W Hi). destruct i; simpl in *; split; nra. }
  rewrite !G; auto.
Qed.
Print Assumptions line_samples_connect.

Example line_motion_case :
  line_motion_valid 2 (1/2) 1 [-1/4; 0] [5/4; 1/2] = true /\ line_motion_valid 2 (1/2) 1 [-1/4; 0] [5/4; 1] = false.
Proof.
  split.
  - apply line_motion_exact; auto. intros t Ht i Hi. unfold line_lo, line_hi. simpl in *.
    destruct i as [|[|]]; simpl; lra || lia.
  - apply not_true_iff_false. rewrite line_motion_exact by auto. intro H.
    specialize (H 1 ltac:(lra) 1%nat ltac:(simpl; lia)). unfold line_hi in H. simpl in H. lra.
Qed.

(** C41.  The distance is the least Euclidean distance to the reference path. *)
Theorem line_distance_exact : forall dim len p, (2 <= dim)%nat -> 0 <= len -> length p = dim ->
  exists d, line_distance dim len p = Ok d /\
    (exists s, straight_path dim len s /\ d = dist p s) /\
    (forall s, straight_path dim len s -> d <= dist p s).
Proof.
  intros dim len p Hd Hlen L. unfold line_distance, line_dir, vsub_np.
  set (x := clip (nth 0 p 0) 0 len).
  assert (E : map (fun y => x * y) (1 :: repeat 0 (dim - 1)) = x :: repeat 0 (dim - 1)).
  { simpl. f_equal; [lra|]. induction (dim - 1)%nat; simpl; auto. rewrite IHn. f_equal. lra. }
  rewrite E, bounds_length. replace (length p =? S (dim - 1)) with true by (symmetry; apply Nat.eqb_eq; lia).
  assert (Lx : length p = length (x :: repeat 0 (dim - 1))) by (rewrite bounds_length; lia).
  rewrite norm_vzip by auto. eexists. split; [reflexivity|]. split.
  - exists (x :: repeat 0 (dim - 1)). split; auto. exists x. split; auto. now apply clip_range.
  - intros s (y & Hy & ->). unfold dist. apply sqrt_le_1_alt.
    destruct p as [|p0 p]; [simpl in L; lia|]. simpl. pose proof (clip_closest p0 0 len y Hy). unfold x. simpl. lra.
Qed.
Print Assumptions line_distance_exact.

(** Every point within delta of the reference path is in the box, so the path has
    clearance delta. *)
Theorem line_clearance : forall dim delta len p t, (2 <= dim)%nat -> 0 <= len -> length p = dim ->
  dist p (line_curve dim len t) <= delta -> in_box p (line_lo delta) (line_hi delta len).
Proof.
  intros dim delta len p t Hd Hlen L D i Hi. unfold line_curve in D.
  set (x := clip t 0 1 * len) in D.
  assert (Hx : 0 <= x <= len) by (pose proof (clip_range t 0 1 ltac:(lra)); unfold x; split; nra).
  pose proof (dist_coord p (x :: repeat 0 (dim - 1)) i delta ltac:(rewrite bounds_length; lia) Hi D) as C.
  rewrite nth_bounds in C by lia. unfold line_lo, line_hi. destruct i; simpl in *; lra.
Qed.
Print Assumptions line_clearance.

(** The curve stays on the path and covers it, in arclength proportion. *)
Theorem line_curve_covers : forall dim len, (2 <= dim)%nat -> 0 <= len ->
  (forall t, straight_path dim len (line_curve dim len t) /\ length (line_curve dim len t) = dim) /\
  (forall p, straight_path dim len p -> exists t, 0 <= t <= 1 /\ line_curve dim len t = p) /\
  (forall t s, 0 <= t <= 1 -> 0 <= s <= 1 -> dist (line_curve dim len t) (line_curve dim len s) = Rabs (t - s) * len).
Proof.
  intros dim len Hd Hlen. split; [|split].
  - intro t. split.
    + exists (clip t 0 1 * len). split; auto. pose proof (clip_range t 0 1 ltac:(lra)). split; nra.
    + unfold line_curve. rewrite bounds_length. lia.
  - intros p (s & Hs & ->). destruct (Req_dec len 0) as [E|E].
    + exists 0. split; [lra|]. unfold line_curve. f_equal. rewrite clip_id by lra. lra.
    + exists (s / len).
      assert (R : 0 <= s / len <= 1).
      { split; [apply Rmult_le_pos; [lra|apply Rlt_le, Rinv_0_lt_compat; lra]|].
        apply (Rmult_le_reg_r len); [lra|]. unfold Rdiv. rewrite Rmult_assoc, Rinv_l by auto. lra. }
      split; auto. unfold line_curve. f_equal. rewrite clip_id by auto. field. auto.
  - intros t s Ht Hs. unfold line_curve. rewrite !clip_id by auto. unfold dist. simpl.
    assert (Z : sumsq (repeat 0 (dim - 1)) (repeat 0 (dim - 1)) = 0).
    { induction (dim - 1)%nat; simpl; auto. rewrite IHn. lra. }
    rewrite Z. replace ((t * len - s * len) * (t * len - s * len) + 0) with (Rsqr ((t - s) * len)) by (unfold Rsqr; ring).
    rewrite sqrt_Rsqr_abs, Rabs_mult, (Rabs_pos_eq len); auto.
Qed.
Print Assumptions line_curve_covers.

Theorem line_volume_exact : forall dim delta len, 0 <= delta -> 0 <= len ->
  line_volume dim delta len = (len + 2 * delta) * (2 * delta) ^ (dim - 1).
Proof.
  intros dim delta len Hd Hl. unfold line_volume, line_upper, line_lower.
  replace (vzip Rminus (len + delta :: repeat delta (dim - 1)) (- delta :: repeat (- delta) (dim - 1)))
    with ((len + delta - - delta) :: vzip Rminus (repeat delta (dim - 1)) (repeat (- delta) (dim - 1))) by reflexivity.
  rewrite vzip_repeat. simpl. rewrite Rabs_pos_eq by lra. f_equal; [lra|].
  replace (delta - - delta) with (2 * delta) by lra.
  induction (dim - 1)%nat; simpl; auto. rewrite IHn, Rabs_pos_eq by lra. reflexivity.
Qed.
Print Assumptions line_volume_exact.

Example line_distance_case : line_distance 2 1 [4; 4] = Ok 5 /\ line_volume 3 (1/2) 1 = 2.
Proof.
  split.
  - unfold line_distance. simpl nth. replace (clip 4 0 1) with 1.
    2: { unfold clip. rewrite Rmax_left, Rmin_right by lra. reflexivity. }
    unfold line_dir, vsub_np, vzip, norm. simpl. f_equal.
    match goal with |- sqrt ?x = 5 => replace x with (5 * 5) by lra end. apply sqrt_square. lra.
  - rewrite line_volume_exact by lra. simpl. lra.
Qed.

(** C42 is false for the narrow passage: curve points have dim + 1 coordinates, and
    distance_to_path raises on every point with dim coordinates (dim >= 2). *)
Theorem narrow_curve_extra_coordinate :
  forall dim t, (2 <= dim)%nat ->
    length (narrow_curve dim t) = S dim /\
    forall p, length p = dim -> narrow_distance dim p = Err ValueError.
Proof.
  intros dim t Hd. split; [unfold narrow_curve; now rewrite bounds_length|].
  intros p L. unfold narrow_distance, vsub_np, narrow_line_dir.
  rewrite map_length, bounds_length, L.
  replace (dim =? S dim) with false by (symmetry; apply Nat.eqb_neq; lia).
  replace (S dim =? 1) with false by (symmetry; apply Nat.eqb_neq; lia).
  replace (dim =? 1) with false by (symmetry; apply Nat.eqb_neq; lia). reflexivity.
Qed.
Print Assumptions narrow_curve_extra_coordinate.

(** And even for points with dim + 1 coordinates the distance is to [0, 1] and not to the
    curve, which runs over [-1/2, 1/2]: the curve's own start is at "distance" 1/2. *)
Theorem narrow_distance_misses_curve :
  forall dim, (2 <= dim)%nat -> narrow_distance dim (narrow_curve dim 0) = Ok (1/2).
Proof.
  intros dim Hd. unfold narrow_distance, narrow_curve, vsub_np, narrow_line_dir.
  rewrite map_length, !bounds_length, Nat.eqb_refl. f_equal.
  rewrite (clip_id 0 0 1) by lra.
  replace (clip (nth 0 (- (1 / 2) + 0 :: repeat 0 dim) 0) 0 1) with 0.
  2: { simpl. unfold clip. rewrite Rmax_right by lra. rewrite Rmin_left by lra. reflexivity. }
  simpl. unfold vzip, norm. simpl.
  assert (Z : fold_right (fun x s => x * x + s) 0 (map (fun xy => fst xy - snd xy) (combine (repeat 0 dim) (map (fun x => 0 * x) (repeat 0 dim)))) = 0).
  { clear Hd. induction dim; simpl; auto. rewrite IHdim. lra. }
  rewrite Z. match goal with |- sqrt ?x = _ => replace x with (1/2 * (1/2)) by lra end. apply sqrt_square. lra.
Qed.
Print Assumptions narrow_distance_misses_curve.

Theorem narrow_curve_dimension_refuted :
  exists dim t p, (2 <= dim)%nat /\ length p = dim /\ narrow_free dim (1/4) p /\
    length (narrow_curve dim t) <> dim /\ narrow_distance dim p = Err ValueError.
Proof.
  exists 2%nat, 0, [0; 0]. split; [lia|]. split; [reflexivity|]. split.
  - split; [reflexivity|]. right; left. simpl. split; [lra|]. intros i Hi.
    assert (i = 1%nat) by lia. subst. simpl. lra.
  - destruct (narrow_curve_extra_coordinate 2 0 ltac:(lia)) as [L H]. rewrite L. split; [lia|auto].
Qed.
Print Assumptions narrow_curve_dimension_refuted.

Theorem narrow_distance_of_curve_refuted :
  exists dim t, narrow_distance dim (narrow_curve dim t) <> Ok 0.
Proof.
  exists 2%nat, 0. rewrite narrow_distance_misses_curve by lia. intro E. injection E. lra.
Qed.
Print Assumptions narrow_distance_of_curve_refuted.
