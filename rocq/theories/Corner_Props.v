(** Properties C147 and C148: the corner world of the turtlebot is a square ring; which configurations
    are free, when start and goal are, and that the roadmap has to go round the box
    (exps/tamp_environment/turtlebot_move/problems.py 399-439). *)
From Coq Require Import Reals List ZArith QArith Qreals Bool Lra Lia Psatz.
From Verif Require Import NkGraph_Model NkGraph_Spec Prm_Model Prm_Spec Sp_Oracle PrmAnn_Inst
  Plane Sat_Model Sat_Props Bag_Model Bag_Props World_Model World_Props WorldCheck_Props Anytime_Model Stream_Model Stream_Props
  StreamWorld_Props Corner_Model.
Import ListNotations.
Close Scope Q_scope.
Local Open Scope R_scope.

(** ** Specification *)
(** distance from the origin in the maximum norm *)
Definition far (p : rpt) : R := Rmax (Rabs (fst p)) (Rabs (snd p)).
(** The region between the outer walls and a box of width w, for the centre of a square of half side a. *)
Definition ring (w a : R) (p : rpt) : Prop := w / 2 + a < far p /\ far p < 29/20 - a.
(** The way round over one of the two other corners of the floor. *)
Definition over (robot_scale : R) (sign : R) : rpt := (sign * (7/5 - 179/1000 * robot_scale), sign * (7/5 - 179/1000 * robot_scale)).
(** a motion is accepted wherever it occurs *)
Definition always_accepted (obstacles : list obox) (ex ey : R) (m : rpt * rpt) : Prop := forall batch i,
  nth_error batch i = Some m -> exists verdicts, check_motions obstacles ex ey batch = Some verdicts /\ nth_error verdicts i = Some true.

(** ** The walls *)
Ltac far_cases := unfold far, Rmax, Rabs in *; repeat (destruct (Rle_dec _ _) || destruct (Rcase_abs _)).

Lemma corner_walls_iff s dd p : in_walls (corner_walls s dd) p <-> 29/20 <= far p <= 31/20 \/ far p <= box_width s dd / 2.
Proof.
  unfold in_walls, corner_walls, rect_has, base_extent, mound_height. set (w := box_width s dd). cbn [In]. split.
  - intros (o & [<-|[<-|[<-|[<-|[<-|[]]]]]] & H1 & H2); cbn [r_x r_y r_w r_l] in *; [left|left|left|left|right]; far_cases; lra.
  - destruct p as [x y]. cbn [fst snd]. intros [H|H].
    + destruct (Rle_lt_dec (Rabs x) (Rabs y)) as [L|L].
      * assert (E : far (x, y) = Rabs y) by (unfold far; cbn [fst snd]; now apply Rmax_right). rewrite E in H. clear E.
        destruct (Rle_lt_dec 0 y) as [S|S]; [eexists; split; [left; reflexivity|]|eexists; split; [right; left; reflexivity|]]; cbn [r_x r_y r_w r_l]; far_cases; lra.
      * assert (E : far (x, y) = Rabs x) by (unfold far; cbn [fst snd]; apply Rmax_left; lra). rewrite E in H. clear E.
        destruct (Rle_lt_dec 0 x) as [S|S]; [eexists; split; [do 2 right; left; reflexivity|]|eexists; split; [do 3 right; left; reflexivity|]]; cbn [r_x r_y r_w r_l]; far_cases; lra.
    + eexists. split; [do 4 right; left; reflexivity|]. cbn [r_x r_y r_w r_l]. far_cases; cbn [fst snd] in *; lra.
Qed.

Lemma abs_both x a : Rabs x <= a -> - a <= x <= a.
Proof. unfold Rabs. destruct (Rcase_abs x); lra. Qed.
Lemma far_near p q a : Rabs (fst q - fst p) <= a -> Rabs (snd q - snd p) <= a -> Rabs (far q - far p) <= a.
Proof. intros X Y. far_cases; lra. Qed.
Lemma far_pos p : 0 <= far p.
Proof. far_cases; lra. Qed.

Lemma far_is x y c : 0 <= c -> ((x = c \/ x = - c) /\ - c <= y <= c) \/ ((y = c \/ y = - c) /\ - c <= x <= c) -> far (x, y) = c.
Proof. intros C H. far_cases; cbn [fst snd] in *; lra. Qed.

(** a point of the square around p at any distance that the square covers *)
Lemma far_reach p a d : 0 <= a -> 0 <= d -> far p - a <= d <= far p + a ->
  exists q, Rabs (fst q - fst p) <= a /\ Rabs (snd q - snd p) <= a /\ far q = d.
Proof.
  intros A D [L U].
  set (cl := fun x => Rmax (- d) (Rmin x d)).
  assert (C : forall x, Rabs x <= far p -> Rabs (cl x - x) <= a /\ Rabs (cl x) <= d).
  { intros x Hx. unfold cl, Rmin. far_cases; split; lra. }
  set (up := fun x => if Rle_dec 0 x then d else - d).
  assert (V : forall x, Rabs x = far p -> Rabs (up x - x) <= a /\ Rabs (up x) = d).
  { intros x Hx. rewrite <- Hx in *. unfold up. unfold Rabs in *. repeat (destruct (Rle_dec _ _) || destruct (Rcase_abs _)); split; lra. }
  destruct (Rle_lt_dec (Rabs (fst p)) (Rabs (snd p))) as [M|M].
  - assert (E : Rabs (snd p) = far p) by (symmetry; unfold far; now apply Rmax_right).
    exists (cl (fst p), up (snd p)). cbn [fst snd]. destruct (C (fst p)) as [C1 C2]; [lra|]. destruct (V (snd p) E) as [V1 V2].
    split; auto. split; auto. unfold far. cbn [fst snd]. rewrite V2. now apply Rmax_right.
  - assert (E : Rabs (fst p) = far p) by (symmetry; unfold far; apply Rmax_left; lra).
    exists (up (fst p), cl (snd p)). cbn [fst snd]. destruct (C (snd p)) as [C1 C2]; [lra|]. destruct (V (fst p) E) as [V1 V2].
    split; auto. split; auto. unfold far. cbn [fst snd]. rewrite V2. now apply Rmax_left.
Qed.

(** ** C147 *)
(** A square touches neither the walls nor the box exactly when its centre is in the ring, or when it
    is outside the walls altogether. *)
Theorem corner_free_exact s dd a p : 0 <= a -> 0 <= box_width s dd <= 29/10 ->
  (body_free (corner_walls s dd) a a p <-> ring (box_width s dd) a p \/ 31/20 + a < far p).
Proof.
  set (w := box_width s dd). intros A W. unfold body_free, ring. split.
  - intro F. destruct (Rlt_le_dec (31/20 + a) (far p)) as [O|O]; auto. left.
    assert (N : forall d, 0 <= d -> far p - a <= d <= far p + a -> ~ (29/20 <= d <= 31/20 \/ d <= w / 2)).
    { intros d D R H. destruct (far_reach p a d A D R) as (q & X & Y & E). apply (F q X Y), corner_walls_iff. fold w. now rewrite E. }
    pose proof (far_pos p) as P.
    assert (U : far p < 29/20 - a).
    { destruct (Rlt_le_dec (far p) (29/20 - a)) as [|H]; auto. exfalso.
      apply (N (Rmax (29/20) (far p - a))); unfold Rmax; destruct (Rle_dec _ _); lra. }
    split; auto. destruct (Rlt_le_dec (w / 2 + a) (far p)) as [|H]; auto. exfalso.
    apply (N (Rmax 0 (far p - a))); unfold Rmax; destruct (Rle_dec _ _); lra.
  - intros H v X Y I. apply corner_walls_iff in I. fold w in I. pose proof (far_near p v a X Y) as D. apply abs_both in D.
    destruct H as [[H1 H2]|H]; lra.
Qed.
Print Assumptions corner_free_exact.

Definition corner_obstacles (s dd : R) : list obox := map wall_oobb (corner_walls s dd).
Lemma corner_side s dd o : 1/1000 <= box_width s dd -> In o (corner_walls s dd) -> 1/1000 <= r_w o /\ 1/1000 <= r_l o.
Proof.
  intros W I. unfold corner_walls, base_extent, mound_height in I. cbn [In] in I. repeat destruct I as [<-|I]; cbn [r_w r_l]; try lra.
Qed.
Lemma corner_boxes s dd : 1/1000 <= box_width s dd -> Forall obox_ok (corner_obstacles s dd) /\ Forall thick (corner_obstacles s dd).
Proof.
  intro W. split; apply Forall_forall; intros b Hb; apply in_map_iff in Hb as (o & <- & Io); destruct (corner_side s dd o W Io) as [A B];
    unfold obox_ok, thick, wall_oobb; cbn; lra.
Qed.
Lemma corner_clear s dd a b p : 1/1000 <= box_width s dd ->
  (clear_of (corner_obstacles s dd) a b p <-> body_free (corner_walls s dd) a b p).
Proof.
  intro W. unfold clear_of, body_free, in_walls. split.
  - intros H v VX VY (o & Io & Hv). destruct (corner_side s dd o W Io). apply (H (wall_oobb o) v); auto; [now apply in_map|]. apply wall_has; auto; lra.
  - intros H b' v Hb VX VY Hv. apply in_map_iff in Hb as (o & <- & Io). destruct (corner_side s dd o W Io). apply (H v VX VY). exists o. split; auto.
    apply wall_has in Hv; auto; lra.
Qed.

(** the world is built with a positive scale and its box is neither thinner than a millimetre nor wider than the walls allow *)
Definition corner_ok (s dd : R) : Prop := 0 < s /\ 1/1000 <= box_width s dd <= 29/10.
Lemma box_half s dd : box_width s dd / 2 = 7/5 - 2 * (179/1000 * s) - dd / 2.
Proof. unfold box_width, base_extent, mound_height, robot_width, BOT_RADIUS. lra. Qed.

Lemma free_here s dd e p : corner_ok s dd -> 1/1000 <= e -> far p <= 31/20 ->
  (clear_of (corner_obstacles s dd) (e / 2) (e / 2) p <-> ring (box_width s dd) (e / 2) p).
Proof.
  intros (S & W) E N. rewrite corner_clear by lra. rewrite corner_free_exact by lra. split; auto. intros [H|H]; auto. lra.
Qed.

Lemma ends_far s dd : corner_ok s dd -> 7/5 - 179/1000 * s <= 31/20 -> -(31/20) <= 7/5 - 179/1000 * s ->
  far (corner_init s) = Rabs (7/5 - 179/1000 * s) /\ far (corner_goal s) = Rabs (7/5 - 179/1000 * s).
Proof.
  intros _ _ _. unfold corner_init, corner_goal, corner_offset, robot_width, base_extent, mound_height, BOT_RADIUS. far_cases; cbn [fst snd] in *; lra.
Qed.
Lemma scale_bound s dd : corner_ok s dd -> -(1/10) - 4 * (179/1000 * s) <= dd <= 28/10 - 4 * (179/1000 * s).
Proof. intros (S & W). pose proof (box_half s dd). lra. Qed.

(** The assertions on start and goal hold exactly when the robot's side is below 2 r + dd and below
    2 r + 0.1, r being the scaled radius. *)
Theorem corner_ends_exact s dd e p : corner_ok s dd -> 1/1000 <= e -> 179/1000 * s <= 7/5 ->
  p = corner_init s \/ p = corner_goal s ->
  exists v, conf_free (corner_obstacles s dd) e e p = Some v /\
    (v = true <-> e < 2 * (179/1000 * s) + dd /\ e < 2 * (179/1000 * s) + 1/10).
Proof.
  intros O E S Hp. pose proof O as (S0 & W). destruct (corner_boxes s dd ltac:(lra)) as [K T].
  destruct (conf_check_exact _ e e p K T E E) as (v & Ev & F). exists v. split; auto. rewrite F.
  assert (P : far p = 7/5 - 179/1000 * s).
  { destruct (ends_far s dd O ltac:(lra) ltac:(lra)) as [I G]. rewrite Rabs_pos_eq in I, G by lra. destruct Hp as [-> | ->]; auto. }
  rewrite (free_here s dd e p O E ltac:(lra)). unfold ring. rewrite P, box_half. split; intros [H1 H2]; split; lra.
Qed.
Print Assumptions corner_ends_exact.

(** Motions whose points are all in the ring are accepted in every batch. *)
Lemma ring_accepted s dd e m : corner_ok s dd -> 1/1000 <= e -> (forall t, 0 <= t <= 1 -> ring (box_width s dd) (e / 2) (along m t)) ->
  always_accepted (corner_obstacles s dd) e e m.
Proof.
  intros O E H batch i Hm. pose proof O as (S0 & W). destruct (corner_boxes s dd ltac:(lra)) as [K T].
  assert (N : batch <> []) by (intros ->; destruct i; discriminate).
  destruct (proj1 (box_check_exact _ e e batch K ltac:(lra) ltac:(lra) N) (conj T (conj E E))) as (vs & n & Ev & _ & Hn & Hv).
  exists vs. split; auto. destruct (Hv i m Hm) as (v & Ei & [_ F] & _). rewrite Ei. f_equal. apply F. intros k Hk.
  assert (D : 0 < INR (n - 1)) by (apply lt_0_INR; lia).
  assert (T0 : 0 <= INR k / INR (n - 1) <= 1).
  { split; [apply Rmult_le_pos; [apply pos_INR|apply Rlt_le, Rinv_0_lt_compat; auto]|].
    apply Rmult_le_reg_r with (INR (n - 1)); auto. unfold Rdiv. rewrite Rmult_assoc, Rinv_l, Rmult_1_r, Rmult_1_l by lra. apply le_INR. lia. }
  specialize (H _ T0). apply (free_here s dd e _ O E); auto. destruct H. lra.
Qed.

Lemma ways_ring s dd e sign : corner_ok s dd -> 1/1000 <= e -> 179/1000 * s <= 7/5 -> sign = 1 \/ sign = -1 ->
  e < 2 * (179/1000 * s) + dd -> e < 2 * (179/1000 * s) + 1/10 -> forall t, 0 <= t <= 1 ->
  ring (box_width s dd) (e / 2) (along (corner_init s, over s sign) t) /\ ring (box_width s dd) (e / 2) (along (over s sign, corner_goal s) t).
Proof.
  intros O E S Sg H1 H2 t Ht. pose proof O as (S0 & W).
  split; unfold ring; rewrite box_half.
  all: set (c := 7/5 - 179/1000 * s) in *.
  all: assert (C0 : 0 <= c) by (unfold c; lra).
  all: enough (F : far (along _ t) = c) by (rewrite F; unfold c; lra).
  all: unfold corner_init, corner_goal, corner_offset, robot_width, base_extent, mound_height, BOT_RADIUS, over, along; cbn [fst snd]; fold c.
  - replace (3 / 2 - (179 / 1000 * s + 1 / 10)) with c by (unfold c; lra). replace (- (3) / 2 + (179 / 1000 * s + 1 / 10)) with (- c) by (unfold c; lra).
    destruct Sg as [-> | ->]; apply far_is; auto; [left|right]; (split; [|split; nra]); lra.
  - replace (3 / 2 - (179 / 1000 * s + 1 / 10)) with c by (unfold c; lra). replace (- (3) / 2 + (179 / 1000 * s + 1 / 10)) with (- c) by (unfold c; lra).
    destruct Sg as [-> | ->]; apply far_is; auto; [right|left]; (split; [|split; nra]); lra.
Qed.

(** When start and goal are free, both ways round the box are accepted, each with one intermediate
    configuration. *)
Theorem corner_ways_round s dd e sign : corner_ok s dd -> 1/1000 <= e -> 179/1000 * s <= 7/5 -> sign = 1 \/ sign = -1 ->
  e < 2 * (179/1000 * s) + dd -> e < 2 * (179/1000 * s) + 1/10 ->
  always_accepted (corner_obstacles s dd) e e (corner_init s, over s sign) /\
  always_accepted (corner_obstacles s dd) e e (over s sign, corner_goal s).
Proof.
  intros O E S Sg H1 H2. split; apply ring_accepted; auto; intros t Ht; now apply (ways_ring s dd e sign).
Qed.
Print Assumptions corner_ways_round.

(** No batch accepts the straight motion from start to goal, nor any other motion through the centre
    of the box, unless box and robot are tiny. *)
Theorem corner_straight_rejected s dd e p q t : corner_ok s dd -> 1/1000 <= e -> 4/100 <= box_width s dd / 2 + e / 2 ->
  0 <= t <= 1 -> along (p, q) t = (0, 0) -> ~ accepted_by (corner_obstacles s dd) e e (p, q).
Proof.
  intros O E B Ht C Acc. pose proof O as (S0 & W). destruct (corner_boxes s dd ltac:(lra)) as [K T].
  destruct (proj2 (proj2 (accepted_clear _ e e K T E E p q Acc)) t Ht) as (c & F & X & Y). rewrite C in X, Y. cbn [fst snd] in X, Y.
  assert (M : far c < 4/100) by (clear - X Y; far_cases; lra).
  apply (free_here s dd e c O E) in F; [|lra]. destruct F. lra.
Qed.
Print Assumptions corner_straight_rejected.
Lemma straight_centre s : along (corner_init s, corner_goal s) (1/2) = (0, 0).
Proof. unfold along, corner_init, corner_goal, corner_offset, base_extent. cbn [fst snd]. f_equal; lra. Qed.

(** Accepted motions that start in the ring end in it: the walls are thicker than the gap between
    checked configurations. *)
Theorem corner_motion_stays s dd e p q : corner_ok s dd -> 1/1000 <= e ->
  accepted_by (corner_obstacles s dd) e e (p, q) -> far p < 29/20 -> ring (box_width s dd) (e / 2) p /\ ring (box_width s dd) (e / 2) q.
Proof.
  intros O E Acc P. pose proof O as (S0 & W). destruct (corner_boxes s dd ltac:(lra)) as [K T].
  destruct (accepted_clear _ e e K T E E p q Acc) as (Cp & Cq & Mid).
  split; [apply (free_here s dd e p O E); auto; lra|]. destruct (Rle_lt_dec (far q) (31/20)) as [Q|Q]; [apply (free_here s dd e q O E); auto|]. exfalso.
  set (g := fun t => far (along (p, q) t)).
  assert (Cg : continuity g).
  { assert (Mx : forall a b, Rmax a b = (a + b + Rabs (a - b)) * / 2) by (intros; far_cases; lra).
    assert (L : forall u v : R, continuity (fun t => Rabs (u + t * v))).
    { intros u v. apply (continuity_comp (fun t => u + t * v) Rabs); [apply line_continuous|exact Rcontinuity_abs]. }
    assert (Ext : forall f h : R -> R, (forall t, f t = h t) -> continuity h -> continuity f).
    { intros f h H C t eps He. destruct (C t eps He) as (al & Ha & G). exists al. split; auto. intros x Hx. rewrite !H. now apply G. }
    apply (Ext g (fun t => (Rabs (fst p + t * (fst q - fst p)) + Rabs (snd p + t * (snd q - snd p)) +
      Rabs (Rabs (fst p + t * (fst q - fst p)) - Rabs (snd p + t * (snd q - snd p)))) * / 2)).
    - intro t. unfold g, far, along. cbn [fst snd]. apply Mx.
    - apply (continuity_mult (fun t => Rabs (fst p + t * (fst q - fst p)) + Rabs (snd p + t * (snd q - snd p)) +
      Rabs (Rabs (fst p + t * (fst q - fst p)) - Rabs (snd p + t * (snd q - snd p)))) (fun _ => / 2)); [|apply continuity_const; intros x y; reflexivity].
      apply (continuity_plus (fun t => Rabs (fst p + t * (fst q - fst p)) + Rabs (snd p + t * (snd q - snd p)))); [apply (continuity_plus (fun t => Rabs (fst p + t * (fst q - fst p)))); apply L|].
      apply (continuity_comp (fun t => Rabs (fst p + t * (fst q - fst p)) - Rabs (snd p + t * (snd q - snd p))) Rabs); [|exact Rcontinuity_abs].
      apply (continuity_minus (fun t => Rabs (fst p + t * (fst q - fst p)))); apply L. }
  assert (G0 : g 0 = far p) by (unfold g, along; cbn [fst snd]; rewrite !Rmult_0_l, !Rplus_0_r; now destruct p).
  assert (G1 : g 1 = far q).
  { unfold g, along. cbn [fst snd]. replace (fst p + 1 * (fst q - fst p)) with (fst q) by ring. replace (snd p + 1 * (snd q - snd p)) with (snd q) by ring. now destruct q. }
  assert (Ch : continuity (fun t => g t - 3/2)).
  { apply (continuity_minus g (fun _ => 3/2)); auto. apply continuity_const. intros x y. reflexivity. }
  destruct (IVT_cor (fun t => g t - 3/2) 0 1 Ch ltac:(lra)) as (t & Ht & Z).
  { rewrite G0, G1. nra. }
  destruct (Mid t Ht) as (c & F & X & Y). pose proof (far_near c (along (p, q) t) (4/100) ltac:(lra) ltac:(lra)) as D. apply abs_both in D. fold (g t) in D.
  apply corner_clear in F; [|lra]. apply corner_free_exact in F; [|lra|lra]. destruct F as [[F1 F2]|F]; lra.
Qed.
Print Assumptions corner_motion_stays.

(** A path of the motion stream stays in the ring and has an intermediate configuration. *)
Section Stream.
  Variable dist : qpt -> qpt -> Q.
  Variable smp : nat -> qpt.
  Variable ann : list qpt -> nat -> rows.
  Variable sp : sp_oracle.
  Variables (max_samples : Z) (factor : Q) (start goal : qpt) (k pos : nat) (min_samples : Z).

  Lemma corner_conf_ok s dd e p v : corner_ok s dd -> 1/1000 <= e ->
    conf_free (corner_obstacles s dd) e e (real p) = Some v -> conf_ok (bag_verdicts (corner_obstacles s dd) e e) p = Ok v.
  Proof.
    intros O E H. pose proof O as (S0 & W). destruct (corner_boxes s dd ltac:(lra)) as [K T]. unfold conf_free in H. unfold conf_ok, bag_verdicts. cbn [map fst snd].
    destruct (proj1 (box_check_exact _ e e [(real p, real p)] K ltac:(lra) ltac:(lra) ltac:(discriminate)) (conj T (conj E E))) as (vs & n & Ev & Len & _).
    rewrite Ev in *. destruct vs as [|b [|? ?]]; try discriminate. cbn in H. now injection H as ->.
  Qed.

  Theorem corner_stream s dd e fuel out : (forall p q, (0 <= dist p q)%Q) -> (forall p q, (dist p q == dist q p)%Q) -> ann_shape dist ann -> sp_correct sp ->
    corner_ok s dd -> 1/1000 <= e -> 179/1000 * s <= 7/5 -> real start = corner_init s -> real goal = corner_goal s -> (1 <= min_samples)%Z -> (1 <= k)%nat ->
    motion_stream dist (bag_verdicts (corner_obstacles s dd) e e) smp ann sp max_samples factor start goal k fuel pos min_samples = Some out ->
    (out = StartInCollision <-> ~ (e < 2 * (179/1000 * s) + dd /\ e < 2 * (179/1000 * s) + 1/10)) /\ out <> GoalInCollision /\
    forall sizes path, out = Found sizes path -> forall p, In p path -> ring (box_width s dd) (e / 2) (real p).
  Proof.
    intros DN DS ANN SP O E S Es Eg M Hk Run. pose proof O as (S0 & W). destruct (corner_boxes s dd ltac:(lra)) as [K T].
    destruct (corner_ends_exact s dd e (corner_init s) O E S ltac:(auto)) as (v1 & F1 & X1).
    destruct (corner_ends_exact s dd e (corner_goal s) O E S ltac:(auto)) as (v2 & F2 & X2).
    rewrite <- Es in F1. rewrite <- Eg in F2. apply corner_conf_ok in F1, F2; auto.
    assert (V : v2 = v1) by (destruct v1, v2; tauto || (exfalso; intuition congruence)). subst v2.
    pose proof Run as Run'. unfold motion_stream in Run. rewrite F1 in Run. destruct v1.
    - rewrite F2 in Run.
      assert (N : out <> StartInCollision /\ out <> GoalInCollision).
      { clear - Run. revert Run. generalize (inject_Z min_samples) (prm_new (P := qpt) pos) (@nil Z). induction fuel as [|f IH]; intros num st sizes Run; [discriminate|].
        cbn [attempts] in Run. destruct (Qlt_bool _ _); [|destruct sizes; injection Run as <-; split; discriminate].
        destruct (_ && _); [injection Run as <-; split; discriminate|]. destruct (prm_grow _ _ _ _ _ _); [|injection Run as <-; split; discriminate].
        destruct (prm_query _ _ _ _ _ _) as [[[d path] st2]|]; [|injection Run as <-; split; discriminate].
        destruct path; [eapply IH; exact Run|injection Run as <-; split; discriminate]. }
      split; [split; [intro H; now destruct N|intro H; exfalso; apply H, X1; reflexivity]|]. split; [apply N|].
      intros sizes path -> p Hp.
      destruct (leg_accepted dist smp ann sp DN DS ANN SP max_samples factor start goal k pos min_samples (corner_obstacles s dd) e e fuel sizes path K T E E M Hk Run') as ((mids & Ep & Nm) & Legs).
      destruct (proj1 X1 eq_refl) as [Y1 Y2].
      assert (Fs : far (real start) = 7/5 - 179/1000 * s).
      { rewrite Es. destruct (ends_far s dd O ltac:(lra) ltac:(lra)) as [I _]. rewrite I. apply Rabs_pos_eq. lra. }
      apply In_nth_error in Hp as (j & Hj). revert p Hj. induction j as [|j IH]; intros p Hj.
      + rewrite Ep in Hj. injection Hj as <-. unfold ring. rewrite Fs, box_half. split; lra.
      + destruct (nth_error path j) as [q|] eqn:Q.
        * specialize (IH q eq_refl). apply (corner_motion_stays s dd e (real q) (real p) O E (Legs j q p Q Hj)). destruct IH. lra.
        * exfalso. apply nth_error_None in Q. assert (j < length path)%nat; [|lia]. assert (Datatypes.S j < length path)%nat by (apply nth_error_Some; congruence). lia.
    - injection Run as <-. split; [split; auto; intros _ H; apply X1 in H; discriminate|]. split; [discriminate|]. intros; discriminate.
  Qed.
End Stream.
Print Assumptions corner_stream.

(** ** C148: the gap dd *)
(** The robot fits between box and walls exactly when its side is below 2 r + 0.05 + dd / 2, and then
    it can drive all the way round. *)
Theorem corner_fits_exact s dd e : corner_ok s dd -> 1/1000 <= e ->
  ((exists p, far p <= 31/20 /\ clear_of (corner_obstacles s dd) (e / 2) (e / 2) p) <-> e < 2 * (179/1000 * s) + 1/20 + dd / 2) /\
  (e < 2 * (179/1000 * s) + 1/20 + dd / 2 -> exists c, 0 < c /\ forall p, far p = c -> clear_of (corner_obstacles s dd) (e / 2) (e / 2) p).
Proof.
  intros O E. pose proof O as (S0 & W).
  assert (B : e < 2 * (179/1000 * s) + 1/20 + dd / 2 -> exists c, 0 < c /\ forall p, far p = c -> clear_of (corner_obstacles s dd) (e / 2) (e / 2) p).
  { intro H. pose proof (box_half s dd). exists ((29/20 + box_width s dd / 2) / 2). split; [lra|]. intros p P. apply (free_here s dd e p O E); [lra|]. unfold ring. rewrite P. lra. }
  split; auto. split.
  - intros (p & P & C). apply (free_here s dd e p O E P) in C. unfold ring in C. rewrite box_half in C. lra.
  - intro H. destruct (B H) as (c & C0 & C). pose proof (box_half s dd).
    exists ((29/20 + box_width s dd / 2) / 2, 0). assert (F : far ((29/20 + box_width s dd / 2) / 2, 0) = (29/20 + box_width s dd / 2) / 2) by (apply far_is; lra).
    rewrite F. split; [lra|]. apply (free_here s dd e _ O E); [lra|]. unfold ring. rewrite F. lra.
Qed.
Print Assumptions corner_fits_exact.

(** ** Examples: scale 0.2 *)
Lemma corner_dflt dd : -1/10 <= dd <= 1/10 -> corner_ok (1/5) dd.
Proof. intro H. unfold corner_ok. pose proof (box_half (1/5) dd). lra. Qed.

(** The defaults, dd = 0.1, and a robot as wide as twice the radius: start and goal are free. *)
Example corner_default : corner_ok (1/5) (1/10) /\ box_width (1/5) (1/10) = 25568/10000 /\
  conf_free (corner_obstacles (1/5) (1/10)) (716/10000) (716/10000) (corner_init (1/5)) = Some true /\
  body_free (corner_walls (1/5) (1/10)) (358/10000) (358/10000) (135/100, 7/10) /\
  ~ body_free (corner_walls (1/5) (1/10)) (358/10000) (358/10000) (13/10, 7/10) /\
  always_accepted (corner_obstacles (1/5) (1/10)) (716/10000) (716/10000) (corner_init (1/5), over (1/5) 1) /\
  ~ accepted_by (corner_obstacles (1/5) (1/10)) (716/10000) (716/10000) (corner_init (1/5), corner_goal (1/5)).
Proof.
  assert (O : corner_ok (1/5) (1/10)) by (apply corner_dflt; lra). pose proof (box_half (1/5) (1/10)) as B. split; auto. split; [lra|]. split.
  - destruct (corner_ends_exact (1/5) (1/10) (716/10000) (corner_init (1/5)) O ltac:(lra) ltac:(lra) ltac:(auto)) as (v & -> & F). f_equal. apply F. lra.
  - split; [|split; [|split]].
    + apply corner_free_exact; [lra|lra|]. left. unfold ring. unfold far. cbn [fst snd]. rewrite !Rabs_pos_eq by lra. rewrite Rmax_left by lra. lra.
    + intro H. apply corner_free_exact in H; [|lra|lra]. unfold ring, far in H. cbn [fst snd] in H. rewrite !Rabs_pos_eq in H by lra. rewrite Rmax_left in H by lra. lra.
    + apply (corner_ways_round (1/5) (1/10) (716/10000) 1); auto; lra.
    + apply (corner_straight_rejected (1/5) (1/10) (716/10000) _ _ (1/2)); auto; try lra. apply straight_centre.
Qed.

(** The robot fits and can drive round, but the start is in collision: "dd is the slack of the
    passage, and the problem can be solved whenever the robot fits" is false. *)
Theorem corner_fits_solvable_refuted : exists s dd e, corner_ok s dd /\ e = 2 * (179/1000 * s) /\
  (exists c, 0 < c /\ forall p, far p = c -> clear_of (corner_obstacles s dd) (e / 2) (e / 2) p) /\
  conf_free (corner_obstacles s dd) e e (corner_init s) = Some false /\
  forall dist smp ann sp max_samples factor start goal k pos min_samples fuel, real start = corner_init s ->
    motion_stream dist (bag_verdicts (corner_obstacles s dd) e e) smp ann sp max_samples factor start goal k fuel pos min_samples = Some StartInCollision.
Proof.
  exists (1/5), (-1/20), (716/10000). assert (O : corner_ok (1/5) (-1/20)) by (apply corner_dflt; lra). split; auto. split; [lra|].
  split; [apply corner_fits_exact; auto; lra|].
  assert (C : conf_free (corner_obstacles (1/5) (-1/20)) (716/10000) (716/10000) (corner_init (1/5)) = Some false).
  { destruct (corner_ends_exact (1/5) (-1/20) (716/10000) (corner_init (1/5)) O ltac:(lra) ltac:(lra) ltac:(auto)) as (v & -> & F). f_equal.
    destruct v; auto. exfalso. destruct (proj1 F eq_refl). lra. }
  split; auto. intros. unfold motion_stream. rewrite (corner_conf_ok (1/5) (-1/20) (716/10000) start false); auto; [lra|]. now rewrite H.
Qed.
Print Assumptions corner_fits_solvable_refuted.

(** A run of the stream in the default world: the samples are the two other corners. *)
Definition q_init : qpt := (13642 # 10000, - (13642 # 10000))%Q.
Definition q_goal : qpt := (- (13642 # 10000), 13642 # 10000)%Q.
Definition q_over : qpt := (13642 # 10000, 13642 # 10000)%Q.
Definition q_back : qpt := (- (13642 # 10000), - (13642 # 10000))%Q.
Definition at_corner (p : qpt) : Prop := p = q_init \/ p = q_goal \/ p = q_over \/ p = q_back.
Definition other_corners (i : nat) : qpt := if Nat.even i then q_over else q_back.
Lemma other_at i : at_corner (other_corners i).
Proof. unfold other_corners, at_corner. destruct (Nat.even i); auto. Qed.
Definition qeq (p q : qpt) : bool := Qeq_bool (fst p) (fst q) && Qeq_bool (snd p) (snd q).
Definition straight (m : qpt * qpt) : bool := (qeq (fst m) q_init && qeq (snd m) q_goal) || (qeq (fst m) q_goal && qeq (snd m) q_init) ||
  (qeq (fst m) q_over && qeq (snd m) q_back) || (qeq (fst m) q_back && qeq (snd m) q_over).
Definition round_check (b : list (qpt * qpt)) : option (list bool) :=
  match b with [] => None | _ => Some (map (fun m => negb (straight m)) b) end.

Lemma at_corner_real : real q_init = corner_init (1/5) /\ real q_goal = corner_goal (1/5) /\ real q_over = over (1/5) 1 /\ real q_back = over (1/5) (-1).
Proof.
  unfold real, q_init, q_goal, q_over, q_back, corner_init, corner_goal, over, corner_offset, robot_width, base_extent, mound_height, BOT_RADIUS, Q2R; cbn.
  repeat split; f_equal; lra.
Qed.
Lemma stay_along p t : along (p, p) t = p.
Proof. destruct p. unfold along. cbn [fst snd]. f_equal; ring. Qed.
Lemma back_along p q t : along (q, p) t = along (p, q) (1 - t).
Proof. unfold along. cbn [fst snd]. f_equal; ring. Qed.

Lemma round_agrees b : (forall m, In m b -> at_corner (fst m) /\ at_corner (snd m)) ->
  bag_verdicts (corner_obstacles (1/5) (1/10)) (716/10000) (716/10000) b = round_check b.
Proof.
  intro H. assert (O : corner_ok (1/5) (1/10)) by (apply corner_dflt; lra). pose proof (box_half (1/5) (1/10)) as Bh.
  destruct (corner_boxes (1/5) (1/10) ltac:(lra)) as [K T].
  destruct (box_array_checker _ (716/10000) (716/10000) K T ltac:(lra) ltac:(lra)) as [E0 E1].
  destruct b as [|m0 b0] eqn:Eb; [exact E0|]. rewrite <- Eb in *. destruct (E1 b ltac:(now rewrite Eb)) as (c & Ec). rewrite Ec.
  replace (round_check b) with (Some (map (fun m => negb (straight m)) b)) by now rewrite Eb. f_equal. apply map_ext_in. intros m Hm.
  pose proof at_corner_real as (R1 & R2 & R3 & R4).
  destruct (In_nth_error _ _ Hm) as (i & Hi).
  assert (Hi' : nth_error (map (fun m => (real (fst m), real (snd m))) b) i = Some (real (fst m), real (snd m))) by (rewrite nth_error_map, Hi; reflexivity).
  assert (Yes : (forall t, 0 <= t <= 1 -> ring (box_width (1/5) (1/10)) (716/10000 / 2) (along (real (fst m), real (snd m)) t)) -> c m = true).
  { intro G. destruct (ring_accepted _ _ (716/10000) _ O ltac:(lra) G _ _ Hi') as (vs & Ev & Ei). unfold bag_verdicts in Ec. rewrite Ev in Ec. injection Ec as ->.
    rewrite nth_error_map, Hi in Ei. now injection Ei. }
  assert (No : along (real (fst m), real (snd m)) (1/2) = (0, 0) -> c m = false).
  { intro G. destruct (c m) eqn:Ecm; auto. exfalso. apply (corner_straight_rejected (1/5) (1/10) (716/10000) _ _ (1/2) O ltac:(lra) ltac:(lra) ltac:(lra) G).
    exists (map (fun m => (real (fst m), real (snd m))) b), (map c b), i. split; [exact Ec|]. split; auto. now rewrite nth_error_map, Hi, <- Ecm. }
  assert (Wy : forall sign, sign = 1 \/ sign = -1 -> forall t, 0 <= t <= 1 -> ring (box_width (1/5) (1/10)) (716/10000 / 2) (along (corner_init (1/5), over (1/5) sign) t) /\
    ring (box_width (1/5) (1/10)) (716/10000 / 2) (along (over (1/5) sign, corner_goal (1/5)) t)) by (intros sign Sg; apply ways_ring; auto; lra).
  assert (Cn : forall sign, along (over (1/5) sign, over (1/5) (- sign)) (1/2) = (0, 0)) by (intro; unfold along, over; cbn [fst snd]; f_equal; lra).
  assert (Z0 : forall p q : rpt, along (p, q) 0 = p) by (intros [? ?] [? ?]; unfold along; cbn [fst snd]; f_equal; ring).
  assert (Z1 : forall p q : rpt, along (p, q) 1 = q) by (intros [? ?] [? ?]; unfold along; cbn [fst snd]; f_equal; ring).
  destruct (Wy 1 ltac:(auto) 0 ltac:(lra)) as [Wi Wo]. destruct (Wy 1 ltac:(auto) 1 ltac:(lra)) as [_ Wg]. destruct (Wy (-1) ltac:(auto) 0 ltac:(lra)) as [_ Wb].
  rewrite Z0 in Wi, Wo, Wb. rewrite Z1 in Wg.
  destruct m as [p q]. destruct (H _ Hm) as [Hp Hq]. cbn [fst snd] in *.
  destruct Hp as [-> | [-> | [-> | ->]]]; destruct Hq as [-> | [-> | [-> | ->]]]; rewrite ?R1, ?R2, ?R3, ?R4 in *.
  all: match goal with |- _ = negb (straight ?m) => let v := eval vm_compute in (negb (straight m)) in change (negb (straight m)) with v end.
  all: match goal with
    | |- _ = false => apply No; first [apply straight_centre | apply (Cn 1) | rewrite back_along; replace (1 - 1/2) with (1/2) by lra; first [apply straight_centre | apply (Cn 1)]
        | replace (over (1/5) 1) with (over (1/5) (- -1)) by (f_equal; lra); apply (Cn (-1))]
    | |- _ = true => apply Yes; intros t Ht; rewrite ?stay_along; auto;
        first [apply (Wy 1); auto; fail | apply (Wy (-1)); auto; fail | rewrite back_along; apply (Wy 1); auto; lra | rewrite back_along; apply (Wy (-1)); auto; lra]
    end.
Qed.

Example corner_stream_case :
  motion_stream qdist (bag_verdicts (corner_obstacles (1/5) (1/10)) (716/10000) (716/10000)) other_corners qann sp_enum 10 (3 # 2)%Q q_init q_goal 32 5 0 2 =
    Some (Found [2%Z] [q_init; q_back; q_goal]) /\
  ring (box_width (1/5) (1/10)) (716/10000 / 2) (real q_back).
Proof.
  assert (E : motion_stream qdist (bag_verdicts (corner_obstacles (1/5) (1/10)) (716/10000) (716/10000)) other_corners qann sp_enum 10 (3 # 2)%Q q_init q_goal 32 5 0 2 =
    Some (Found [2%Z] [q_init; q_back; q_goal])).
  { rewrite (motion_stream_ext qdist _ round_check other_corners qann sp_enum at_corner round_agrees other_at); [vm_compute; reflexivity|now left|right; now left]. }
  split; auto. destruct at_corner_real as (R1 & R2 & _).
  eapply (corner_stream qdist other_corners qann sp_enum 10 (3 # 2)%Q q_init q_goal 32 0 2 (1/5) (1/10) (716/10000) 5); eauto using qdist_nonneg, qdist_sym, qann_shape, sp_enum_correct; try lra; try lia.
  - apply corner_dflt. lra.
  - cbn. auto.
Qed.
