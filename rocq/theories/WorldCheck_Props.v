(** Properties of the collision check over the turtlebot world
    (exps/tamp_environment/turtlebot_move/streams.py, BagOfBoundingBoxes): the constructor's
    polygons, what the check decides, and that accepted motions stay inside the walls. *)
From Coq Require Import Reals List Bool Arith ZArith Lra Lia Psatz Classical.
From Verif Require Import Plane Sat_Model Sat_Props Bag_Model Bag_Props World_Model World_Props.
From Verif Require Import Search_Model Bound_Model Bound_Props.
Import ListNotations.
Open Scope R_scope.

(** ** Specification *)
(** the points of an oriented box *)
Definition obox_has (o : obox) (p : rpt) : Prop := exists x y, o_lx o <= x <= o_ux o /\ o_ly o <= y <= o_uy o /\
  p = (o_c o * x - o_s o * y + fst (o_t o), o_s o * x + o_c o * y + snd (o_t o)).
(** corners in order, not turned inside out, turned by an angle *)
Definition obox_ok (o : obox) : Prop := o_lx o <= o_ux o /\ o_ly o <= o_uy o /\ o_c o * o_c o + o_s o * o_s o = 1.
(** no side is shorter than a millimetre *)
Definition thick (o : obox) : Prop := 1/1000 <= o_ux o - o_lx o /\ 1/1000 <= o_uy o - o_ly o.
(** an upright body with half extents a, b, centred at p, touches no box *)
Definition clear_of (obstacles : list obox) (a b : R) (p : rpt) : Prop :=
  forall o v, In o obstacles -> Rabs (fst v - fst p) <= a -> Rabs (snd v - snd p) <= b -> ~ obox_has o v.

(** ** Flat vertices *)
Definition corners (o : obox) : list rpt := [(o_lx o, o_ly o); (o_lx o, o_uy o); (o_ux o, o_ly o); (o_ux o, o_uy o)].

Lemma norm2_turn c s t v w : c * c + s * s = 1 -> norm2 (vsub (turn c s t v) (turn c s t w)) = norm2 (vsub v w).
Proof.
  intro H. unfold norm2, vsub, turn. cbn [fst snd]. f_equal.
  transitivity ((c * c + s * s) * ((fst v - fst w) * (fst v - fst w) + (snd v - snd w) * (snd v - snd w))); [ring|rewrite H; ring].
Qed.

Lemma add_unique_turn c s t acc v : c * c + s * s = 1 ->
  add_unique (map (turn c s t) acc) (turn c s t v) = map (turn c s t) (add_unique acc v).
Proof.
  intro H. unfold add_unique.
  assert (E : existsb (fun w => if Rlt_dec (norm2 (vsub (turn c s t v) w)) diff_thresh then true else false) (map (turn c s t) acc) =
              existsb (fun w => if Rlt_dec (norm2 (vsub v w)) diff_thresh then true else false) acc).
  { induction acc as [|w acc IH]; cbn [map existsb]; auto. rewrite IH, norm2_turn by auto. reflexivity. }
  rewrite E. destruct (existsb _ acc); auto. now rewrite map_app.
Qed.
Lemma fold_unique_turn c s t l : c * c + s * s = 1 -> forall acc,
  fold_left add_unique (map (turn c s t) l) (map (turn c s t) acc) = map (turn c s t) (fold_left add_unique l acc).
Proof.
  intro H. induction l as [|v l IH]; intro acc; cbn [map fold_left]; auto. rewrite add_unique_turn by auto. apply IH.
Qed.

Lemma add_near acc v w : In w acc -> norm2 (vsub v w) < 1/1000 -> add_unique acc v = acc.
Proof.
  intros I N. unfold add_unique, diff_thresh. destruct (existsb _ acc) eqn:E; auto. exfalso.
  apply not_true_iff_false in E. apply E, existsb_exists. exists w. split; auto. destruct (Rlt_dec _ _); auto.
Qed.
Lemma add_far acc v : (forall w, In w acc -> 1/1000 <= norm2 (vsub v w)) -> add_unique acc v = acc ++ [v].
Proof.
  intros F. unfold add_unique, diff_thresh. destruct (existsb _ acc) eqn:E; auto. exfalso.
  apply existsb_exists in E as (w & I & E). specialize (F w I). destruct (Rlt_dec _ _); [lra|discriminate].
Qed.
Lemma norm2_ge v d : d <= Rabs (fst v) \/ d <= Rabs (snd v) -> d <= norm2 v.
Proof.
  unfold norm2. intros [H|H]; (eapply Rle_trans; [exact H|]); rewrite <- sqrt_Rsqr_abs; unfold Rsqr; apply sqrt_le_1_alt; nra.
Qed.
Lemma norm2_x x : norm2 (x, 0) = Rabs x.
Proof. unfold norm2. cbn [fst snd]. replace (x * x + 0 * 0) with (Rsqr x) by (unfold Rsqr; ring). apply sqrt_Rsqr_abs. Qed.
Lemma norm2_y y : norm2 (0, y) = Rabs y.
Proof. unfold norm2. cbn [fst snd]. replace (0 * 0 + y * y) with (Rsqr y) by (unfold Rsqr; ring). apply sqrt_Rsqr_abs. Qed.

Section Flat.
  Variables lx ly ux uy : R.
  Hypotheses (Hx : lx <= ux) (Hy : ly <= uy).
  Let l8 := [(lx, ly); (lx, ly); (lx, uy); (lx, uy); (ux, ly); (ux, ly); (ux, uy); (ux, uy)].

  Lemma near_self (v : rpt) : norm2 (vsub v v) < 1/1000.
  Proof. unfold vsub. replace (fst v - fst v) with 0 by ring. replace (snd v - snd v) with 0 by ring. rewrite norm2_x, Rabs_R0. lra. Qed.
  Lemma near_x x y x' : Rabs (x - x') < 1/1000 -> norm2 (vsub (x, y) (x', y)) < 1/1000.
  Proof. intro H. unfold vsub. cbn [fst snd]. replace (y - y) with 0 by ring. rewrite norm2_x. exact H. Qed.
  Lemma near_y x y y' : Rabs (y - y') < 1/1000 -> norm2 (vsub (x, y) (x, y')) < 1/1000.
  Proof. intro H. unfold vsub. cbn [fst snd]. replace (x - x) with 0 by ring. rewrite norm2_y. exact H. Qed.

  Lemma flat_thick : 1/1000 <= ux - lx -> 1/1000 <= uy - ly ->
    fold_left add_unique l8 [] = [(lx, ly); (lx, uy); (ux, ly); (ux, uy)].
  Proof.
    intros W L. unfold l8. cbn [fold_left].
    assert (FX : forall a b, 1/1000 <= norm2 (vsub (ux, a) (lx, b))) by (intros; apply norm2_ge; left; cbn; rewrite Rabs_pos_eq; lra).
    assert (FY : forall a b, 1/1000 <= norm2 (vsub (a, uy) (b, ly))) by (intros; apply norm2_ge; right; cbn; rewrite Rabs_pos_eq; lra).
    rewrite (add_far [] (lx, ly)) by (intros w []). cbn [app].
    rewrite (add_near [(lx, ly)] (lx, ly) (lx, ly)) by (cbn; auto using near_self).
    rewrite (add_far [(lx, ly)] (lx, uy)) by (intros w [<-|[]]; auto). cbn [app].
    rewrite (add_near [(lx, ly); (lx, uy)] (lx, uy) (lx, uy)) by (cbn; auto using near_self).
    rewrite (add_far [(lx, ly); (lx, uy)] (ux, ly)) by (intros w [<-|[<-|[]]]; auto). cbn [app].
    rewrite (add_near [(lx, ly); (lx, uy); (ux, ly)] (ux, ly) (ux, ly)) by (cbn; auto using near_self).
    rewrite (add_far [(lx, ly); (lx, uy); (ux, ly)] (ux, uy)) by (intros w [<-|[<-|[<-|[]]]]; auto). cbn [app].
    rewrite (add_near [(lx, ly); (lx, uy); (ux, ly); (ux, uy)] (ux, uy) (ux, uy)) by (cbn; auto using near_self). reflexivity.
  Qed.

  Lemma add_unique_len acc v : (length (add_unique acc v) <= S (length acc))%nat.
  Proof. unfold add_unique. destruct (existsb _ acc); rewrite ?app_length; cbn; lia. Qed.
  Lemma add_unique_incl acc v w : In w acc -> In w (add_unique acc v).
  Proof. intro I. unfold add_unique. destruct (existsb _ acc); auto. apply in_or_app. auto. Qed.

  Lemma flat_thin : ux - lx < 1/1000 \/ uy - ly < 1/1000 -> (length (fold_left add_unique l8 []) < 4)%nat.
  Proof.
    intro T. unfold l8. cbn [fold_left].
    rewrite (add_far [] (lx, ly)) by (intros w []). cbn [app].
    rewrite (add_near [(lx, ly)] (lx, ly) (lx, ly)) by (cbn; auto using near_self).
    destruct (Rlt_le_dec (uy - ly) (1/1000)) as [L|L].
    - assert (NY : forall x, norm2 (vsub (x, uy) (x, ly)) < 1/1000) by (intro; apply near_y; rewrite Rabs_pos_eq; lra).
      rewrite !(add_near [(lx, ly)] (lx, uy) (lx, ly)) by (cbn; auto).
      set (a := add_unique (add_unique [(lx, ly)] (ux, ly)) (ux, ly)).
      assert (La : (length a <= 2)%nat).
      { unfold a. destruct (Rlt_le_dec (ux - lx) (1/1000)) as [W|W].
        - rewrite !(add_near [(lx, ly)] (ux, ly) (lx, ly)); try (cbn; auto; fail); try lia; apply near_x; rewrite Rabs_pos_eq; lra.
        - rewrite (add_far [(lx, ly)] (ux, ly)) by (intros w [<-|[]]; apply norm2_ge; left; cbn; rewrite Rabs_pos_eq; lra). cbn [app].
          rewrite (add_near [(lx, ly); (ux, ly)] (ux, ly) (ux, ly)) by (cbn; auto using near_self). cbn. lia. }
      pose proof (add_unique_len a (ux, uy)).
      destruct (Rlt_le_dec (ux - lx) (1/1000)) as [W|W].
      + assert (Ea : a = [(lx, ly)]) by (unfold a; rewrite !(add_near [(lx, ly)] (ux, ly) (lx, ly)); try (cbn; auto; fail); auto; apply near_x; rewrite Rabs_pos_eq; lra).
        rewrite Ea. pose proof (add_unique_len [(lx, ly)] (ux, uy)). pose proof (add_unique_len (add_unique [(lx, ly)] (ux, uy)) (ux, uy)). cbn in *. lia.
      + assert (I : In (ux, ly) a).
        { unfold a. apply add_unique_incl. rewrite (add_far [(lx, ly)] (ux, ly)) by (intros w [<-|[]]; apply norm2_ge; left; cbn; rewrite Rabs_pos_eq; lra). cbn. auto. }
        rewrite !(add_near a (ux, uy) (ux, ly)) by auto. lia.
    - destruct T as [W|W]; [|lra].
      assert (NX : forall y, norm2 (vsub (ux, y) (lx, y)) < 1/1000) by (intro; apply near_x; rewrite Rabs_pos_eq; lra).
      rewrite (add_far [(lx, ly)] (lx, uy)) by (intros w [<-|[]]; apply norm2_ge; right; cbn; rewrite Rabs_pos_eq; lra). cbn [app].
      rewrite (add_near [(lx, ly); (lx, uy)] (lx, uy) (lx, uy)) by (cbn; auto using near_self).
      rewrite !(add_near [(lx, ly); (lx, uy)] (ux, ly) (lx, ly)) by (cbn; auto).
      rewrite !(add_near [(lx, ly); (lx, uy)] (ux, uy) (lx, uy)) by (cbn; auto). cbn. lia.
  Qed.
End Flat.

(** The constructor's vertices of an oriented box are its four corners when no side is below a
    millimetre; otherwise the assertion fails. *)
Theorem flat_vertices_exact o : obox_ok o ->
  (thick o -> oobb_flat_vertices (get_oobb_vertices o) = Some (map (turn (o_c o) (o_s o) (o_t o)) (corners o))) /\
  (~ thick o -> oobb_flat_vertices (get_oobb_vertices o) = None).
Proof.
  intros (X & Y & U).
  assert (E : fold_left add_unique (get_oobb_vertices o) [] = map (turn (o_c o) (o_s o) (o_t o))
    (fold_left add_unique [(o_lx o, o_ly o); (o_lx o, o_ly o); (o_lx o, o_uy o); (o_lx o, o_uy o); (o_ux o, o_ly o); (o_ux o, o_ly o); (o_ux o, o_uy o); (o_ux o, o_uy o)] [])).
  { unfold get_oobb_vertices, oobb_vertices2. rewrite <- fold_unique_turn by auto. reflexivity. }
  split.
  - intros [W L]. unfold oobb_flat_vertices. cbv zeta. rewrite E, flat_thick by lra. reflexivity.
  - intro T. unfold oobb_flat_vertices. cbv zeta. rewrite E, map_length.
    pose proof (flat_thin (o_lx o) (o_ly o) (o_ux o) (o_uy o) X Y) as F.
    destruct (Nat.eqb_spec (length (fold_left add_unique [(o_lx o, o_ly o); (o_lx o, o_ly o); (o_lx o, o_uy o); (o_lx o, o_uy o); (o_ux o, o_ly o); (o_ux o, o_ly o); (o_ux o, o_uy o); (o_ux o, o_uy o)] [])) 4) as [Q|Q]; auto.
    exfalso. unfold thick in T. destruct (Rlt_le_dec (o_ux o - o_lx o) (1/1000)); [assert (K := F ltac:(left; lra)); lia|].
    assert (K := F ltac:(right; destruct (Rlt_le_dec (o_uy o - o_ly o) (1/1000)); auto; exfalso; apply T; lra)). lia.
Qed.
Print Assumptions flat_vertices_exact.

(** ** Polygons *)
Definition outline4 (o : obox) : list rpt :=
  map (turn (o_c o) (o_s o) (o_t o)) [(o_lx o, o_ly o); (o_ux o, o_ly o); (o_ux o, o_uy o); (o_lx o, o_uy o)].

Lemma box_hull_thick o : obox_ok o -> thick o -> box_hull o = Some (outline4 o).
Proof. intros K T. unfold box_hull. rewrite (proj1 (flat_vertices_exact o K) T). reflexivity. Qed.
Lemma box_hull_thin o : obox_ok o -> ~ thick o -> box_hull o = None.
Proof. intros K T. unfold box_hull. rewrite (proj2 (flat_vertices_exact o K) T). reflexivity. Qed.

Lemma outline4_convex o : obox_ok o -> thick o -> strictly_convex (outline4 o).
Proof.
  intros (_ & _ & U) [W L]. split; [simpl; lia|]. intros i j Hi Hj N1 N2. simpl in Hi, Hj.
  set (w := o_ux o - o_lx o) in *. set (l := o_uy o - o_ly o) in *. set (c := o_c o) in *. set (s := o_s o) in *.
  assert (Wl : 0 < w * l) by (apply Rmult_lt_0_compat; lra).
  assert (Ci : (i = 0 \/ i = 1 \/ i = 2 \/ i = 3)%nat) by lia. assert (Cj : (j = 0 \/ j = 1 \/ j = 2 \/ j = 3)%nat) by lia.
  assert (Val : forall z, z = (c * c + s * s) * (w * l) -> 0 < z) by (intros z ->; rewrite U; lra).
  destruct Ci as [->|[->|[->| ->]]]; destruct Cj as [->|[->|[->| ->]]]; simpl in *; try lia; apply Val;
    unfold vertex, outline4; simpl; unfold cross, vsub, turn; simpl; fold c s; unfold w, l; ring.
Qed.

Lemma outline4_hull o p : obox_ok o -> thick o -> (hull (outline4 o) p <-> obox_has o p).
Proof.
  intros (X & Y & U) [W L]. set (w := o_ux o - o_lx o) in *. set (l := o_uy o - o_ly o) in *. split.
  - intros (ws & Len & Nn & S1 & SX & SY). destruct ws as [|a [|b [|c [|d [|e ws]]]]]; try discriminate.
    assert (A : 0 <= a) by (apply Nn; cbn; auto). assert (B : 0 <= b) by (apply Nn; cbn; auto).
    assert (C : 0 <= c) by (apply Nn; cbn; auto). assert (D : 0 <= d) by (apply Nn; cbn; auto 6).
    unfold wsum, wx, wy, outline4, turn in S1, SX, SY. cbn [map combine fold_right fst snd] in S1, SX, SY.
    exists (o_lx o + (b + c) * w), (o_ly o + (c + d) * l). split; [unfold w; nra|]. split; [unfold l; nra|].
    rewrite (surjective_pairing p). assert (a = 1 - b - c - d) by lra. subst a. rewrite <- SX, <- SY. unfold w, l. f_equal; ring.
  - intros (x & y & HX & HY & ->). set (u := (x - o_lx o) / w). set (v := (y - o_ly o) / l).
    assert (U0 : 0 <= u <= 1).
    { unfold u. split; [apply Rmult_le_pos; [lra|apply Rlt_le, Rinv_0_lt_compat; lra]|]. apply Rmult_le_reg_r with w; [lra|]. unfold Rdiv. rewrite Rmult_assoc, Rinv_l by lra. unfold w. lra. }
    assert (V0 : 0 <= v <= 1).
    { unfold v. split; [apply Rmult_le_pos; [lra|apply Rlt_le, Rinv_0_lt_compat; lra]|]. apply Rmult_le_reg_r with l; [lra|]. unfold Rdiv. rewrite Rmult_assoc, Rinv_l by lra. unfold l. lra. }
    assert (Ex : x = o_lx o + u * w) by (unfold u; field; lra). assert (Ey : y = o_ly o + v * l) by (unfold v; field; lra).
    exists [(1 - u) * (1 - v); u * (1 - v); u * v; (1 - u) * v]. split; [reflexivity|]. split.
    { intros z [<-|[<-|[<-|[<-|[]]]]]; apply Rmult_le_pos; lra. }
    unfold wsum, wx, wy, outline4, turn. cbn [map combine fold_right fst snd].
    split; [ring|]. rewrite Ex, Ey. unfold w, l. split; ring.
Qed.

Lemma robot_ok ex ey : 0 <= ex -> 0 <= ey -> obox_ok (robot_oobb ex ey).
Proof. intros A B. unfold obox_ok, robot_oobb. cbn. lra. Qed.
Lemma moved_outline ex ey p : moved (outline4 (robot_oobb ex ey)) p = outline4 (mkObox (- ex / 2) (- ey / 2) (ex / 2) (ey / 2) 1 0 p).
Proof.
  unfold moved, outline4, turn, robot_oobb. cbn [map fst snd o_lx o_ly o_ux o_uy o_c o_s o_t].
  apply f_equal2; [f_equal; ring|]. apply f_equal2; [f_equal; ring|]. apply f_equal2; [f_equal; ring|]. apply f_equal2; [f_equal; ring|reflexivity].
Qed.
Lemma robot_at_has ex ey p v : 0 <= ex -> 0 <= ey ->
  (obox_has (mkObox (- ex / 2) (- ey / 2) (ex / 2) (ey / 2) 1 0 p) v <-> Rabs (fst v - fst p) <= ex / 2 /\ Rabs (snd v - snd p) <= ey / 2).
Proof.
  intros A B. unfold obox_has. cbn [o_lx o_ly o_ux o_uy o_c o_s o_t]. split.
  - intros (x & y & HX & HY & ->). cbn [fst snd]. split; apply Rabs_le; lra.
  - intros [HX HY]. assert (Ab : forall z k, Rabs z <= k -> - k <= z <= k) by (intros z k Hz; pose proof (Rle_abs z); pose proof (Rle_abs (- z)); rewrite Rabs_Ropp in *; lra).
    apply Ab in HX. apply Ab in HY. exists (fst v - fst p), (snd v - snd p). split; [lra|]. split; [lra|].
    rewrite (surjective_pairing v) at 1. f_equal; ring.
Qed.

Lemma sequence_hulls obstacles : Forall obox_ok obstacles ->
  (Forall thick obstacles -> sequence (map box_hull obstacles) = Some (map outline4 obstacles)) /\
  (~ Forall thick obstacles -> sequence (map box_hull obstacles) = None).
Proof.
  induction 1 as [|o l Ho Hl [IH1 IH2]]; cbn [map sequence]; [split; [auto|intros []; constructor]|]. split.
  - intro T. inversion T; subst. rewrite box_hull_thick, IH1 by auto. reflexivity.
  - intro T. destruct (classic (thick o)) as [To|To]; [|now rewrite box_hull_thin].
    rewrite box_hull_thick by auto. rewrite IH2; [reflexivity|]. intro K. apply T. now constructor.
Qed.

Lemma shapes obstacles ex ey : Forall obox_ok obstacles -> Forall thick obstacles -> 1/1000 <= ex -> 1/1000 <= ey ->
  shapes_ok (outline4 (robot_oobb ex ey)) (map outline4 obstacles).
Proof.
  intros K T A B. split.
  - apply outline4_convex; [apply robot_ok; lra|]. unfold thick, robot_oobb. cbn. lra.
  - intros h Hh. apply in_map_iff in Hh as (o & <- & Io). split; [|reflexivity].
    rewrite Forall_forall in K, T. apply outline4_convex; auto.
Qed.
Lemma free_iff obstacles ex ey p : Forall obox_ok obstacles -> Forall thick obstacles -> 1/1000 <= ex -> 1/1000 <= ey ->
  (free_at (outline4 (robot_oobb ex ey)) (map outline4 obstacles) p <-> clear_of obstacles (ex / 2) (ey / 2) p).
Proof.
  intros K T A B. unfold free_at, clear_of. rewrite moved_outline. set (r := mkObox _ _ _ _ _ _ _).
  assert (Kr : obox_ok r) by (unfold r, obox_ok; cbn; lra). assert (Tr : thick r) by (unfold r, thick; cbn; lra).
  rewrite Forall_forall in K, T. split.
  - intros H o v Io VX VY Hv. apply (H (outline4 o)); [now apply in_map|]. exists v. split.
    + apply outline4_hull; auto. apply robot_at_has; auto; lra.
    + apply outline4_hull; auto.
  - intros H h Hh (v & V1 & V2). apply in_map_iff in Hh as (o & <- & Io).
    apply outline4_hull in V1; auto. apply outline4_hull in V2; auto. apply robot_at_has in V1; [|lra|lra]. exact (H o v Io (proj1 V1) (proj2 V1) V2).
Qed.

(** ** C110 *)

(** The check of a non-empty batch of motions answers exactly when no box, the robot's included, has
    a side below a millimetre.  Then each verdict says whether the robot, an upright rectangle of
    the given extents, is clear of all boxes at n equally spaced points of the motion. *)
Theorem box_check_exact obstacles ex ey batch : Forall obox_ok obstacles -> 0 <= ex -> 0 <= ey -> batch <> [] ->
  (Forall thick obstacles /\ 1/1000 <= ex /\ 1/1000 <= ey -> exists verdicts n,
     check_motions obstacles ex ey batch = Some verdicts /\ length verdicts = length batch /\ (2 <= n)%nat /\
     forall i m, nth_error batch i = Some m -> exists v, nth_error verdicts i = Some v /\
       (v = true <-> forall k, (k < n)%nat -> clear_of obstacles (ex / 2) (ey / 2) (along m (INR k / INR (n - 1)))) /\
       Rabs (fst (fst m) - fst (snd m)) / INR (n - 1) < 8/100 /\ Rabs (snd (fst m) - snd (snd m)) / INR (n - 1) < 8/100) /\
  (~ (Forall thick obstacles /\ 1/1000 <= ex /\ 1/1000 <= ey) -> check_motions obstacles ex ey batch = None).
Proof.
  intros K A B N. pose proof (robot_ok ex ey A B) as Kr.
  assert (Tr : thick (robot_oobb ex ey) <-> 1/1000 <= ex /\ 1/1000 <= ey) by (unfold thick, robot_oobb; cbn; lra).
  unfold check_motions. split.
  - intros (T & Ex & Ey). rewrite box_hull_thick by (auto; apply Tr; auto). rewrite (proj1 (sequence_hulls _ K) T).
    destruct (motion_checked_exactly _ _ batch (shapes obstacles ex ey K T Ex Ey) N) as (vs & n & E & Len & Hn & H).
    exists vs, n. split; auto. split; auto. split; auto. intros i m Hm. destruct (H i m Hm) as (v & Hv & F & S). exists v. split; auto. split; auto.
    rewrite F. split; intros G k Hk; apply (free_iff obstacles ex ey _ K T Ex Ey); auto.
  - intro T. destruct (classic (thick (robot_oobb ex ey))) as [Hr|Hr]; [|now rewrite box_hull_thin].
    rewrite box_hull_thick by auto. rewrite (proj2 (sequence_hulls _ K)); auto. intro Q. apply T. split; auto. apply Tr. auto.
Qed.
Print Assumptions box_check_exact.

(** The assertions on start and goal hold exactly for configurations clear of all boxes. *)
Theorem conf_check_exact obstacles ex ey p : Forall obox_ok obstacles -> Forall thick obstacles -> 1/1000 <= ex -> 1/1000 <= ey ->
  exists v, conf_free obstacles ex ey p = Some v /\ (v = true <-> clear_of obstacles (ex / 2) (ey / 2) p).
Proof.
  intros K T A B. destruct (proj1 (box_check_exact obstacles ex ey [(p, p)] K ltac:(lra) ltac:(lra) ltac:(discriminate)) (conj T (conj A B)))
    as (vs & n & E & Len & Hn & H). destruct (H 0%nat (p, p) eq_refl) as (v & Hv & F & _).
  unfold conf_free. rewrite E. destruct vs as [|v' vs]; [discriminate|]. cbn [option_map hd]. injection Hv as ->. exists v. split; auto.
  assert (S : forall t, along (p, p) t = p) by (intro t; destruct p; unfold along; cbn [fst snd]; f_equal; ring).
  rewrite F. split; [intro G; rewrite <- (S (INR 0 / INR (n - 1))); apply G; lia|]. intros G k Hk. rewrite S. exact G.
Qed.
Print Assumptions conf_check_exact.

(** ** The walls *)
Lemma wall_has o p : 0 <= r_w o -> 0 <= r_l o -> (obox_has (wall_oobb o) p <-> rect_has o p).
Proof.
  intros A B. unfold obox_has, wall_oobb, rect_has. cbn [o_lx o_ly o_ux o_uy o_c o_s o_t fst snd]. split.
  - intros (x & y & HX & HY & ->). cbn [fst snd]. lra.
  - intros [HX HY]. exists (fst p - r_x o), (snd p - r_y o). split; [lra|]. split; [lra|]. rewrite (surjective_pairing p) at 1. f_equal; ring.
Qed.
Lemma walls_thick rl hl gap o : world_ok rl hl gap -> In o (hallway_walls rl hl gap) -> 1/10 <= r_w o /\ 1/10 <= r_l o.
Proof.
  intros (G & W & L) I. unfold hallway_walls, wall_thickness, mound_height in I. cbn [In] in I.
  repeat destruct I as [<-|I]; cbn [r_w r_l]; try lra.
Qed.
Lemma walls_boxes rl hl gap : world_ok rl hl gap ->
  Forall obox_ok (map wall_oobb (hallway_walls rl hl gap)) /\ Forall thick (map wall_oobb (hallway_walls rl hl gap)).
Proof.
  intro W. split; apply Forall_forall; intros b Hb; apply in_map_iff in Hb as (o & <- & Io); destruct (walls_thick rl hl gap o W Io) as [A B];
    unfold obox_ok, thick, wall_oobb; cbn; lra.
Qed.
Lemma walls_clear rl hl gap a b p : world_ok rl hl gap ->
  (clear_of (map wall_oobb (hallway_walls rl hl gap)) a b p <-> body_free (hallway_walls rl hl gap) a b p).
Proof.
  intro W. unfold clear_of, body_free, in_walls. split.
  - intros H v VX VY (o & Io & Hv). destruct (walls_thick rl hl gap o W Io). apply (H (wall_oobb o) v); auto; [now apply in_map|]. apply wall_has; auto; lra.
  - intros H b' v Hb VX VY Hv. apply in_map_iff in Hb as (o & <- & Io). destruct (walls_thick rl hl gap o W Io). apply (H v VX VY). exists o. split; auto.
    apply wall_has in Hv; auto; lra.
Qed.

(** In the hallway worlds the start and goal assertions hold exactly when the body touches no wall. *)
Theorem hallway_conf_exact rl hl gap ex ey p : world_ok rl hl gap -> 1/1000 <= ex -> 1/1000 <= ey ->
  exists v, conf_free (map wall_oobb (hallway_walls rl hl gap)) ex ey p = Some v /\
    (v = true <-> body_free (hallway_walls rl hl gap) (ex / 2) (ey / 2) p).
Proof.
  intros W A B. destruct (walls_boxes rl hl gap W) as [K T]. destruct (conf_check_exact _ ex ey p K T A B) as (v & E & F).
  exists v. split; auto. rewrite F. now apply walls_clear.
Qed.
Print Assumptions hallway_conf_exact.

(** ** C111 *)

(** two free points less than 0.08 apart in either coordinate are on the same side of the walls *)
Lemma no_tunnel rl hl gap p q : world_ok rl hl gap -> inner rl hl gap p -> ~ in_walls (hallway_walls rl hl gap) q ->
  Rabs (fst q - fst p) < 8/100 -> Rabs (snd q - snd p) < 8/100 -> inner rl hl gap q.
Proof.
  intros W I N DX DY. apply Rabs_def2 in DX. apply Rabs_def2 in DY. pose proof W as (G & Wd & L).
  assert (O : outline rl hl q) by (unfold outline; destruct I as [[A B]|[[A B]|[A B]]]; lra).
  destruct (proj1 (hallway_free_exact rl hl gap q W O) N) as [H|[PX PY]]; auto. exfalso.
  destruct I as [[A B]|[[A B]|[A B]]]; [lra|lra|]. destruct PY; lra.
Qed.

(** An accepted motion that starts in the rooms or the hallway stays there: every checked point, the
    end included, is on the inside of the walls, although the check only samples the motion. *)
Theorem accepted_motion_stays rl hl gap ex ey batch verdicts i m : world_ok rl hl gap -> 1/1000 <= ex -> 1/1000 <= ey ->
  check_motions (map wall_oobb (hallway_walls rl hl gap)) ex ey batch = Some verdicts ->
  nth_error batch i = Some m -> nth_error verdicts i = Some true -> inner rl hl gap (fst m) ->
  inner rl hl gap (snd m) /\
  forall t, 0 <= t <= 1 -> exists p, inner rl hl gap p /\ body_free (hallway_walls rl hl gap) (ex / 2) (ey / 2) p /\
    Rabs (fst (along m t) - fst p) < 4/100 /\ Rabs (snd (along m t) - snd p) < 4/100.
Proof.
  intros W A B E Hm Ht I0. destruct (walls_boxes rl hl gap W) as [K T].
  assert (N : batch <> []) by (intros ->; destruct i; discriminate).
  destruct (proj1 (box_check_exact _ ex ey batch K ltac:(lra) ltac:(lra) N) (conj T (conj A B))) as (vs & n & E' & _ & Hn & H).
  rewrite E in E'. injection E' as <-. destruct (H i m Hm) as (v & Hv & [F _] & SX & SY). rewrite Ht in Hv. injection Hv as <-. specialize (F eq_refl).
  set (d := INR (n - 1)) in *. assert (D : 0 < d) by (apply lt_0_INR; lia).
  assert (Fr : forall k, (k < n)%nat -> body_free (hallway_walls rl hl gap) (ex / 2) (ey / 2) (along m (INR k / d))).
  { intros k Hk. apply walls_clear; auto. }
  assert (In_ : forall k, (k < n)%nat -> inner rl hl gap (along m (INR k / d))).
  { induction k as [|k IH]; intro Hk.
    - replace (along m (INR 0 / d)) with (fst m); auto. cbn [INR]. destruct m as [[x y] q]. unfold along. cbn [fst snd]. replace (0 / d) with 0 by (field; lra). f_equal; ring.
    - apply (no_tunnel rl hl gap (along m (INR k / d))); auto; [apply IH; lia| | |].
      + apply (Fr (S k) Hk); rewrite Rminus_eq_0, Rabs_R0; lra.
      + unfold along. cbn [fst snd]. rewrite S_INR. replace (_ - _) with (- ((fst (fst m) - fst (snd m)) / d)) by (field; lra).
        rewrite Rabs_Ropp. unfold Rdiv. rewrite Rabs_mult, (Rabs_pos_eq (/ d)) by (apply Rlt_le, Rinv_0_lt_compat; auto). exact SX.
      + unfold along. cbn [fst snd]. rewrite S_INR. replace (_ - _) with (- ((snd (fst m) - snd (snd m)) / d)) by (field; lra).
        rewrite Rabs_Ropp. unfold Rdiv. rewrite Rabs_mult, (Rabs_pos_eq (/ d)) by (apply Rlt_le, Rinv_0_lt_compat; auto). exact SY. }
  split.
  - replace (snd m) with (along m (INR (n - 1) / d)); [apply In_; lia|]. fold d. destruct m as [p [x y]]. unfold along. cbn [fst snd]. replace (d / d) with 1 by (field; lra). f_equal; ring.
  - intros t Ht'.
    assert (Nr : exists k, (k < n)%nat /\ Rabs (t - INR k / d) <= 1 / 2 / d).
    { set (z := Int_part (t * d + 1/2)). destruct (base_Int_part (t * d + 1/2)) as [Z1 Z2]. fold z in Z1, Z2.
      assert (Td : 0 <= t * d <= d) by nra.
      assert (Z0 : (-1 < z)%Z) by (apply lt_IZR; lra). assert (Zn : (z < Z.of_nat n)%Z).
      { apply lt_IZR. rewrite <- INR_IZR_INZ. replace (INR n) with (d + 1); [lra|]. unfold d. rewrite minus_INR by lia. cbn [INR]. lra. }
      exists (Z.to_nat z). split; [lia|]. rewrite INR_IZR_INZ, Z2Nat.id by lia.
      apply Rmult_le_reg_r with d; auto. rewrite <- (Rabs_pos_eq d) at 2 by lra. rewrite <- Rabs_mult.
      replace ((t - IZR z / d) * d) with (t * d - IZR z) by (field; lra). replace (1 / 2 / d * d) with (1/2) by (field; lra). apply Rabs_le. lra. }
    destruct Nr as (k & Hk & Nr). exists (along m (INR k / d)). split; [auto|]. split; [auto|].
    assert (Sc : forall u w : R, Rabs (u - w) / d < 8/100 -> Rabs ((t - INR k / d) * (w - u)) < 4/100).
    { intros u w Huw. rewrite Rabs_mult, (Rabs_minus_sym w u). apply Rle_lt_trans with (1 / 2 / d * Rabs (u - w)).
      - apply Rmult_le_compat_r; auto using Rabs_pos.
      - replace (1 / 2 / d * Rabs (u - w)) with (1/2 * (Rabs (u - w) / d)) by (field; lra). lra. }
    unfold along. cbn [fst snd]. split.
    + replace (_ - _) with ((t - INR k / d) * (fst (snd m) - fst (fst m))) by ring. now apply Sc.
    + replace (_ - _) with ((t - INR k / d) * (snd (snd m) - snd (fst m))) by ring. now apply Sc.
Qed.
Print Assumptions accepted_motion_stays.

(** So do paths whose motions were each accepted in some batch. *)
Definition accepted_by (obstacles : list obox) (ex ey : R) (m : rpt * rpt) : Prop := exists batch verdicts i,
  check_motions obstacles ex ey batch = Some verdicts /\ nth_error batch i = Some m /\ nth_error verdicts i = Some true.

Theorem accepted_path_stays rl hl gap ex ey path : world_ok rl hl gap -> 1/1000 <= ex -> 1/1000 <= ey ->
  (forall j p q, nth_error path j = Some p -> nth_error path (S j) = Some q ->
     accepted_by (map wall_oobb (hallway_walls rl hl gap)) ex ey (p, q)) ->
  (forall p, nth_error path 0 = Some p -> inner rl hl gap p) ->
  forall p, In p path -> inner rl hl gap p.
Proof.
  intros W A B H H0 p Hp. apply In_nth_error in Hp as (j & Hj). revert p Hj. induction j as [|j IH]; intros p Hj; auto.
  destruct (nth_error path j) as [q|] eqn:Q.
  - destruct (H j q p Q Hj) as (batch & vs & i & E & Em & Et).
    exact (proj1 (accepted_motion_stays rl hl gap ex ey batch vs i (q, p) W A B E Em Et (IH q eq_refl))).
  - exfalso. apply nth_error_None in Q. assert (S j < length path)%nat by (apply nth_error_Some; congruence). lia.
Qed.
Print Assumptions accepted_path_stays.

(** ** C112: the sampling region *)
Lemma lmin_char l x : In x l -> (forall y, In y l -> x <= y) -> lmin l = x.
Proof. intros I H. apply Rle_antisym; [now apply lmin_le|]. apply H, lmin_In. intros ->. destruct I. Qed.
Lemma lmax_char l x : In x l -> (forall y, In y l -> y <= x) -> lmax l = x.
Proof. intros I H. apply Rle_antisym; [|now apply lmax_ge]. apply H, lmax_In. intros ->. destruct I. Qed.
Lemma wall_vertices o v : In v (get_oobb_vertices (wall_oobb o)) <->
  (fst v = r_x o - r_w o / 2 \/ fst v = r_x o + r_w o / 2) /\ (snd v = r_y o - r_l o / 2 \/ snd v = r_y o + r_l o / 2).
Proof.
  unfold get_oobb_vertices, oobb_vertices2, wall_oobb, turn. cbn [map In o_lx o_ly o_ux o_uy o_c o_s o_t fst snd]. split.
  - intros [<-|[<-|[<-|[<-|[<-|[<-|[<-|[<-|[]]]]]]]]]; cbn [fst snd]; (split; [first [left; lra|right; lra]|first [left; lra|right; lra]]).
  - destruct v as [x y]. cbn [fst snd]. intros [[->| ->] [->| ->]].
    + left. f_equal; lra.
    + do 2 right; left. f_equal; lra.
    + do 4 right; left. f_equal; lra.
    + do 6 right; left. f_equal; lra.
Qed.

(** Samples are drawn from the bounding rectangle of the walls. *)
Theorem sampling_region rl hl gap : world_ok rl hl gap ->
  env_bounds (map wall_oobb (hallway_walls rl hl gap)) = ((- hl / 2 - rl - 1/10, hl / 2 + rl + 1/10), (- (5/100), rl + 5/100)) /\
  forall q, outline rl hl q <-> exists u v, 0 <= u <= 1 /\ 0 <= v <= 1 /\
    q = sample_from_env (env_bounds (map wall_oobb (hallway_walls rl hl gap))) u v.
Proof.
  intro W. pose proof W as (G & Wd & L).
  assert (E : env_bounds (map wall_oobb (hallway_walls rl hl gap)) = ((- hl / 2 - rl - 1/10, hl / 2 + rl + 1/10), (- (5/100), rl + 5/100))).
  { unfold env_bounds, extents.
    assert (All : forall v, In v (flat_map get_oobb_vertices (map wall_oobb (hallway_walls rl hl gap))) <->
      exists o, In o (hallway_walls rl hl gap) /\ In v (get_oobb_vertices (wall_oobb o))).
    { intro v. rewrite in_flat_map. split.
      - intros (b & Hb & Hv). apply in_map_iff in Hb as (o & <- & Io). eauto.
      - intros (o & Io & Hv). exists (wall_oobb o). split; [now apply in_map|auto]. }
    assert (Bd : forall v, In v (flat_map get_oobb_vertices (map wall_oobb (hallway_walls rl hl gap))) ->
      (- hl / 2 - rl - 1/10 <= fst v <= hl / 2 + rl + 1/10) /\ (- (5/100) <= snd v <= rl + 5/100)).
    { intros v Hv. apply All in Hv as (o & Io & Hv). apply wall_vertices in Hv as [X Y].
      unfold hallway_walls, wall_thickness, mound_height in Io. cbn [In] in Io.
      split; [destruct X as [->| ->]|destruct Y as [->| ->]]; repeat destruct Io as [<-|Io]; try destruct Io; cbn [r_x r_y r_w r_l]; lra. }
    assert (P1 : In (- hl / 2 - rl - 1/10, - (5/100)) (flat_map get_oobb_vertices (map wall_oobb (hallway_walls rl hl gap)))).
    { apply All. eexists. split; [do 2 right; left; reflexivity|]. apply wall_vertices. unfold wall_thickness, mound_height. cbn [r_x r_y r_w r_l fst snd]. split; left; lra. }
    assert (P2 : In (hl / 2 + rl + 1/10, rl + 5/100) (flat_map get_oobb_vertices (map wall_oobb (hallway_walls rl hl gap)))).
    { apply All. eexists. split; [do 7 right; left; reflexivity|]. apply wall_vertices. unfold wall_thickness, mound_height. cbn [r_x r_y r_w r_l fst snd]. split; right; lra. }
    f_equal; f_equal.
    - apply lmin_char; [apply (in_map fst _ _ P1)|]. intros y Hy. apply in_map_iff in Hy as (v & <- & Hv). apply Bd in Hv. lra.
    - apply lmax_char; [apply (in_map fst _ _ P2)|]. intros y Hy. apply in_map_iff in Hy as (v & <- & Hv). apply Bd in Hv. lra.
    - apply lmin_char; [apply (in_map snd _ _ P1)|]. intros y Hy. apply in_map_iff in Hy as (v & <- & Hv). apply Bd in Hv. lra.
    - apply lmax_char; [apply (in_map snd _ _ P2)|]. intros y Hy. apply in_map_iff in Hy as (v & <- & Hv). apply Bd in Hv. lra. }
  split; [exact E|]. intro q. rewrite E. unfold outline, sample_from_env. cbn [fst snd]. split.
  - intros [X Y]. set (w := hl + 2 * rl + 2/10). set (h := rl + 1/10).
    assert (Pw : 0 < w) by (unfold w; lra). assert (Ph : 0 < h) by (unfold h; lra).
    assert (Fr : forall x k, 0 < k -> 0 <= x <= k -> 0 <= x / k <= 1).
    { intros x k Hk Hx. split; [apply Rmult_le_pos; [lra|apply Rlt_le, Rinv_0_lt_compat; auto]|]. apply Rmult_le_reg_r with k; auto. unfold Rdiv. rewrite Rmult_assoc, Rinv_l by lra. lra. }
    exists ((fst q - (- hl / 2 - rl - 1/10)) / w), ((snd q + 5/100) / h).
    split; [apply Fr; unfold w; lra|]. split; [apply Fr; unfold h; lra|].
    rewrite (surjective_pairing q) at 1. unfold w, h. f_equal; field; lra.
  - intros (u & v & U & V & ->). cbn [fst snd]. split; split; nra.
Qed.
Print Assumptions sampling_region.

(** The volume 16 used for the sample count exceeds that of the sampled region of hallway_manip();
    the count is at least the one for the true volume. *)
Theorem volume_overestimated delta p dim fuel fuel' z r : 0 <= delta -> 0 < p -> (1000 <= fuel')%nat ->
  let b := env_bounds (map wall_oobb (hallway_walls (3/2) 3 (3716/10000))) in
  let volume := (snd (fst b) - fst (fst b)) * (snd (snd b) - fst (snd b)) in
  volume = 992/100 /\
  (compute_numerical_bound delta p 16 dim None fuel = Some (Ret z, r) ->
   exists z' r', compute_numerical_bound delta p volume dim None fuel' = Some (Ret z', r') /\ (z' <= z)%Z).
Proof.
  intros D P F b volume. pose proof manip_ok as W. rewrite manip_gap in W.
  assert (V : volume = 992/100) by (unfold volume, b; rewrite (proj1 (sampling_region _ _ _ W)); cbn [fst snd]; lra).
  split; auto. intro H. rewrite V. apply (numerical_bound_monotone delta delta p p 16 (992/100) None None dim fuel fuel' z r); auto; try lra. exact I.
Qed.
Print Assumptions volume_overestimated.

(** ** Examples *)
(** a wall turned by a quarter, and one that is too thin *)
Example flat_vertices_case :
  oobb_flat_vertices (get_oobb_vertices (mkObox (-1) (-2) 1 2 0 1 (5, 5))) = Some [(7, 4); (3, 4); (7, 6); (3, 6)] /\
  oobb_flat_vertices (get_oobb_vertices (mkObox (-1) 0 1 (1/2000) 0 1 (5, 5))) = None.
Proof.
  split.
  - rewrite (proj1 (flat_vertices_exact (mkObox (-1) (-2) 1 2 0 1 (5, 5)) ltac:(unfold obox_ok; cbn; lra))) by (unfold thick; cbn; lra).
    unfold corners, turn. cbn. f_equal. repeat (apply f_equal2; [f_equal; lra|]). reflexivity.
  - apply flat_vertices_exact; [unfold obox_ok; cbn; lra|]. unfold thick. cbn. lra.
Qed.

(** the robot of hallway_manip() drives from room to room; a motion out through the front wall is rejected *)
Definition manip_walls : list obox := map wall_oobb (hallway_walls (3/2) 3 (3716/10000)).
Example manip_motions : exists v, check_motions manip_walls (716/10000) (716/10000)
  [((-9/4, 3/4), (9/4, 3/4)); ((-9/4, 3/4), (-9/4, -1))] = Some [true; v] /\ v = false.
Proof.
  pose proof manip_ok as W. rewrite manip_gap in W. destruct (walls_boxes _ _ _ W) as [K T].
  set (batch := [((-9/4, 3/4), (9/4, 3/4)); ((-9/4, 3/4), (-9/4, -1))]).
  assert (X : 1/1000 <= 716/10000) by lra.
  destruct (proj1 (box_check_exact _ (716/10000) (716/10000) batch K ltac:(lra) ltac:(lra) ltac:(discriminate)) (conj T (conj X X)))
    as (vs & n & E & Len & Hn & H).
  destruct vs as [|v1 [|v2 [|]]]; try discriminate. fold manip_walls in E.
  destruct (H 0%nat _ eq_refl) as (u1 & H1 & F & _). injection H1 as <-.
  assert (V1 : v1 = true).
  { apply F. intros k Hk. apply (walls_clear _ _ _ _ _ _ W). intros v VX VY. apply inner_free; auto. right; right.
    set (t := INR k / INR (n - 1)) in *. assert (D : 0 < INR (n - 1)) by (apply lt_0_INR; lia).
    assert (T0 : 0 <= t <= 1).
    { unfold t. split; [apply Rmult_le_pos; [apply pos_INR|apply Rlt_le, Rinv_0_lt_compat; auto]|].
      apply Rmult_le_reg_r with (INR (n - 1)); auto. unfold Rdiv. rewrite Rmult_assoc, Rinv_l, Rmult_1_r, Rmult_1_l by lra. apply le_INR. lia. }
    unfold along in VX, VY. cbn [fst snd] in VX, VY.
    assert (Ab : forall z k, Rabs z <= k -> - k <= z <= k) by (intros z k' Hz; pose proof (Rle_abs z); pose proof (Rle_abs (- z)); rewrite Rabs_Ropp in *; lra).
    apply Ab in VX. apply Ab in VY. lra. }
  subst v1. exists v2. split; auto. destruct v2; auto. exfalso.
  destruct (accepted_motion_stays _ _ _ _ _ batch [true; true] 1 _ W X X E eq_refl eq_refl) as [S _].
  - left. cbn. lra.
  - destruct S as [[A B]|[[A B]|[A B]]]; cbn in *; lra.
Qed.

Example accepted_path_case : accepted_by manip_walls (716/10000) (716/10000) ((-9/4, 3/4), (9/4, 3/4)) /\
  forall p, In p [(-9/4, 3/4); (9/4, 3/4)] -> inner (3/2) 3 (3716/10000) p.
Proof.
  pose proof manip_ok as W. rewrite manip_gap in W. destruct manip_motions as (v & E & _).
  assert (A : accepted_by manip_walls (716/10000) (716/10000) ((-9/4, 3/4), (9/4, 3/4))) by (eexists _, _, 0%nat; split; [exact E|split; reflexivity]).
  split; auto. apply (accepted_path_stays _ _ _ (716/10000) (716/10000)); auto; try lra.
  - intros [|[|j]] p q Hp Hq; try discriminate. injection Hp as <-. injection Hq as <-. exact A.
  - intros p Hp. injection Hp as <-. left. cbn. lra.
Qed.
