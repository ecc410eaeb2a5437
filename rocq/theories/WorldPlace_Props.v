(** Properties of the placements and target sizes of the turtlebot world
    (exps/tamp_environment/turtlebot_move/problems.py). *)
From Coq Require Import Reals List Bool Arith ZArith Lra Lia Psatz Classical.
From Verif Require Import Plane Sat_Model Sat_Props World_Model World_Props WorldCheck_Props.
Import ListNotations.
Open Scope R_scope.

(** ** Specification *)
Definition unit_pair (u : R * R) : Prop := 0 <= fst u <= 1 /\ 0 <= snd u <= 1.
(** the body whose point is at p lies on the surface *)
Definition on_surface (surface : rect) (b : body) (p : rpt) : Prop :=
  forall v, Rabs (fst v - (fst p - fst (b_off b))) <= b_ex b / 2 -> Rabs (snd v - (snd p - snd (b_off b))) <= b_ey b / 2 ->
    rect_has surface v.
Definition body_ok (b : body) : Prop := 0 <= b_ex b /\ 0 <= b_ey b.

Lemma abs_between z k : Rabs z <= k -> - k <= z <= k.
Proof. intro Hz. pose proof (Rle_abs z). pose proof (Rle_abs (- z)). rewrite Rabs_Ropp in *. lra. Qed.

Lemma on_surface_iff surface b p : body_ok b ->
  (on_surface surface b p <->
   (r_x surface - r_w surface / 2 + b_ex b / 2 <= fst p - fst (b_off b) <= r_x surface + r_w surface / 2 - b_ex b / 2) /\
   (r_y surface - r_l surface / 2 + b_ey b / 2 <= snd p - snd (b_off b) <= r_y surface + r_l surface / 2 - b_ey b / 2)).
Proof.
  intros [A B]. unfold on_surface, rect_has. split.
  - intro H. set (c := (fst p - fst (b_off b), snd p - snd (b_off b))).
    pose proof (H (fst c - b_ex b / 2, snd c - b_ey b / 2)) as H1. pose proof (H (fst c + b_ex b / 2, snd c + b_ey b / 2)) as H2.
    unfold c in *. cbn [fst snd] in *.
    specialize (H1 ltac:(rewrite Rabs_left1; lra) ltac:(rewrite Rabs_left1; lra)).
    specialize (H2 ltac:(rewrite Rabs_pos_eq; lra) ltac:(rewrite Rabs_pos_eq; lra)). lra.
  - intros [X Y] v VX VY. apply abs_between in VX. apply abs_between in VY. lra.
Qed.

(** ** C113, C114: placements *)

(** A body gets no pose exactly when it is larger than the surface; otherwise every pose it may get
    lies on the surface and every pose on the surface is one it may get. *)
Theorem placement_exact surface b : body_ok b ->
  let place u := sample_placement surface (b_ex b) (b_ey b) (b_off b) (fst u) (snd u) in
  (forall u, place u = None <-> r_w surface < b_ex b \/ r_l surface < b_ey b) /\
  (forall u p, unit_pair u -> place u = Some p -> on_surface surface b p) /\
  (forall p, on_surface surface b p -> exists u, unit_pair u /\ place u = Some p).
Proof.
  intros Bk place. unfold place, sample_placement. cbn [fst snd]. split; [|split].
  - intro u. destruct (Rlt_dec _ _); [split; auto; intros _; left; lra|]. destruct (Rlt_dec _ _); [split; auto; intros _; right; lra|].
    split; [discriminate|]. intros [H|H]; lra.
  - intros u p [U V] H. apply on_surface_iff; auto. destruct (Rlt_dec _ _) as [N|N]; [discriminate|]. destruct (Rlt_dec _ _) as [M|M]; [discriminate|].
    injection H as <-. cbn [fst snd]. split; split; nra.
  - intros p H. apply on_surface_iff in H; auto. destruct H as [X Y].
    destruct (Rlt_dec _ _) as [N|N]; [exfalso; lra|]. destruct (Rlt_dec _ _) as [M|M]; [exfalso; lra|].
    assert (Pick : forall lo hi x, lo <= x <= hi -> exists t, 0 <= t <= 1 /\ lo + t * (hi - lo) = x).
    { intros lo hi x Hx. destruct (Req_dec hi lo) as [E|E]; [exists 0; split; [lra|]; nra|].
      exists ((x - lo) / (hi - lo)). assert (P : 0 < hi - lo) by lra. split; [|field; lra].
      split; [apply Rmult_le_pos; [lra|apply Rlt_le, Rinv_0_lt_compat; auto]|]. apply Rmult_le_reg_r with (hi - lo); auto. unfold Rdiv. rewrite Rmult_assoc, Rinv_l by lra. lra. }
    destruct (Pick _ _ _ X) as (t & T & Et). destruct (Pick _ _ _ Y) as (s & S & Es).
    exists (t, s). split; [split; auto|]. cbn [fst snd]. rewrite (surjective_pairing p). do 2 f_equal; lra.
Qed.
Print Assumptions placement_exact.

Example placement_case :
  sample_placement (room1_floor (3/2) 3) (1/2) (1/2) (0, 0) 0 1 = Some (-11/4, 5/4) /\
  sample_placement (room1_floor (3/2) 3) (1/2) 2 (0, 0) 0 1 = None.
Proof.
  split.
  - unfold sample_placement, room1_floor. cbn [fst snd r_x r_y r_w r_l].
    destruct (Rlt_dec _ _); [exfalso; lra|]. destruct (Rlt_dec _ _); [exfalso; lra|]. do 2 f_equal; lra.
  - apply (placement_exact (room1_floor (3/2) 3) (mkBody (1/2) 2 (0, 0)) ltac:(unfold body_ok; cbn; lra)) with (u := (0, 1)). right. cbn. lra.
Qed.

Section Place.
  Variable Obst : Type.
  Variable hits_obstacle : body -> rpt -> Obst -> bool.
  Variable hits_body : body -> rpt -> body -> rpt -> bool.
  Notation place_one := (place_one Obst hits_obstacle hits_body).
  Notation sample_placements := (sample_placements Obst hits_obstacle hits_body).

  (** what the poses of a successful run satisfy *)
  Definition well_placed (surface : rect) (obstacles : list Obst) (l : list (body * rpt)) : Prop :=
    (forall b p, In (b, p) l -> on_surface surface b p /\ forall o, In o obstacles -> hits_obstacle b p o = false) /\
    forall i j b p b' p', (i < j)%nat -> nth_error l i = Some (b, p) -> nth_error l j = Some (b', p') -> hits_body b' p' b p = false.

  Lemma place_one_sound draws surface obstacles placed b : body_ok b -> (forall n, unit_pair (draws n)) ->
    forall fuel n r n', place_one fuel n draws surface obstacles placed b = Some (r, n') ->
    match r with
    | Some p => on_surface surface b p /\ (forall o, In o obstacles -> hits_obstacle b p o = false) /\
                forall q, In q placed -> hits_body b p (fst q) (snd q) = false
    | None => r_w surface < b_ex b \/ r_l surface < b_ey b
    end.
  Proof.
    intros Bk U. induction fuel as [|fuel IH]; intros n r n' H; cbn [World_Model.place_one] in H; [discriminate|].
    destruct (sample_placement _ _ _ _ _ _) as [p|] eqn:E.
    - destruct (existsb (hits_obstacle b p) obstacles || existsb (fun q => hits_body b p (fst q) (snd q)) placed) eqn:K; [now apply (IH (S n) r n')|].
      injection H as <- <-. apply orb_false_iff in K. destruct K as [K1 K2].
      split; [exact (proj1 (proj2 (placement_exact surface b Bk)) (draws n) p (U n) E)|].
      split; intros z Hz.
      + destruct (hits_obstacle b p z) eqn:Q; auto. rewrite <- K1. symmetry. apply existsb_exists. eauto.
      + destruct (hits_body b p (fst z) (snd z)) eqn:Q; auto. rewrite <- K2. symmetry. apply existsb_exists. eauto.
    - injection H as <- <-. exact (proj1 (proj1 (placement_exact surface b Bk) (draws n)) E).
  Qed.

  Lemma well_placed_app surface obstacles l b p : well_placed surface obstacles l -> on_surface surface b p ->
    (forall o, In o obstacles -> hits_obstacle b p o = false) -> (forall q, In q l -> hits_body b p (fst q) (snd q) = false) ->
    well_placed surface obstacles (l ++ [(b, p)]).
  Proof.
    intros [W1 W2] S O Q. split.
    - intros b' p' H. apply in_app_or in H as [H|[H|[]]]; auto. injection H as <- <-. auto.
    - intros i j b1 p1 b2 p2 Lt Hi Hj.
      assert (j < length (l ++ [(b, p)]))%nat by (apply nth_error_Some; congruence). rewrite app_length in H. cbn in H.
      rewrite nth_error_app1 in Hi by lia.
      destruct (Nat.eq_dec j (length l)) as [->|N].
      + rewrite nth_error_app2, Nat.sub_diag in Hj by lia. injection Hj as <- <-. apply (Q (b1, p1)). now apply nth_error_In in Hi.
      + rewrite nth_error_app1 in Hj by lia. eauto.
  Qed.

  Lemma placements_inv draws surface obstacles fuel : (forall n, unit_pair (draws n)) -> forall bodies placed n,
    Forall body_ok bodies -> well_placed surface obstacles placed ->
    match sample_placements fuel n draws surface obstacles placed bodies with
    | Placed l => map fst l = map fst placed ++ bodies /\ well_placed surface obstacles l
    | NoRoom => exists b, In b bodies /\ (r_w surface < b_ex b \/ r_l surface < b_ey b)
    | OutOfFuel => True
    end.
  Proof.
    intro U. induction bodies as [|b rest IH]; intros placed n Bk W; cbn [World_Model.sample_placements]; [rewrite app_nil_r; auto|].
    inversion Bk as [|? ? Bb Br]; subst.
    destruct (place_one fuel n draws surface obstacles placed b) as [[[p|] n']|] eqn:E; auto.
    - pose proof (place_one_sound draws surface obstacles placed b Bb U fuel n _ _ E) as (S & O & Q).
      specialize (IH (placed ++ [(b, p)]) n' Br (well_placed_app _ _ _ _ _ W S O Q)).
      destruct (World_Model.sample_placements _ _ _ _ _ _ _ _ _ _); auto.
      + rewrite map_app, <- app_assoc in IH. exact IH.
      + destruct IH as (b' & I & H). exists b'. split; [now right|auto].
    - pose proof (place_one_sound draws surface obstacles placed b Bb U fuel n _ _ E) as H. exists b. split; [now left|auto].
  Qed.

  (** Whatever is drawn: on success all bodies lie on the surface, none hits an obstacle or a body
      placed before it; False means that some body is larger than the surface. *)
  Theorem placements_sound draws surface obstacles fuel bodies : (forall n, unit_pair (draws n)) -> Forall body_ok bodies ->
    match sample_placements fuel 0 draws surface obstacles [] bodies with
    | Placed l => map fst l = bodies /\ well_placed surface obstacles l
    | NoRoom => exists b, In b bodies /\ (r_w surface < b_ex b \/ r_l surface < b_ey b)
    | OutOfFuel => True
    end.
  Proof.
    intros U Bk. apply (placements_inv draws surface obstacles fuel U bodies [] 0%nat Bk). split.
    - intros b p [].
    - intros [|i] j b p b' p' _ H; discriminate.
  Qed.

  (** A first body that fits is placed by the first draw that hits nothing; without one the loop
      does not end. *)
  Theorem placement_terminates draws surface obstacles placed b n : body_ok b -> (forall n, unit_pair (draws n)) ->
    b_ex b <= r_w surface -> b_ey b <= r_l surface ->
    ((exists fuel r, place_one fuel n draws surface obstacles placed b = Some r) <->
     exists k p, (n <= k)%nat /\ sample_placement surface (b_ex b) (b_ey b) (b_off b) (fst (draws k)) (snd (draws k)) = Some p /\
       (forall o, In o obstacles -> hits_obstacle b p o = false) /\ (forall q, In q placed -> hits_body b p (fst q) (snd q) = false)).
  Proof.
    intros Bk U Fx Fy.
    assert (Fit : forall u, sample_placement surface (b_ex b) (b_ey b) (b_off b) (fst u) (snd u) <> None).
    { intros u H. apply (proj1 (placement_exact surface b Bk)) in H. destruct H; lra. }
    split.
    - intros (fuel & r & H). revert n r H. induction fuel as [|fuel IH]; intros n r H; cbn [World_Model.place_one] in H; [discriminate|].
      destruct (sample_placement _ _ _ _ _ _) as [p|] eqn:E; [|exfalso; exact (Fit _ E)].
      destruct (existsb (hits_obstacle b p) obstacles || existsb (fun q => hits_body b p (fst q) (snd q)) placed) eqn:K.
      + destruct (IH (S n) r H) as (k & p' & Hk & R). exists k, p'. split; [lia|exact R].
      + apply orb_false_iff in K. destruct K as [K1 K2]. exists n, p. split; auto. split; auto. split; intros z Hz.
        * destruct (hits_obstacle b p z) eqn:Q; auto. rewrite <- K1. symmetry. apply existsb_exists. eauto.
        * destruct (hits_body b p (fst z) (snd z)) eqn:Q; auto. rewrite <- K2. symmetry. apply existsb_exists. eauto.
    - intros (k & p & Hk & E & O & Q).
      assert (G : forall d n, (n + d = k)%nat -> exists fuel r, place_one fuel n draws surface obstacles placed b = Some r).
      { induction d as [|d IH]; intros m Hm.
        - exists 1%nat, (Some p, S m). cbn [World_Model.place_one]. replace m with k by lia. rewrite E.
          replace (existsb (hits_obstacle b p) obstacles) with false; [replace (existsb (fun q => hits_body b p (fst q) (snd q)) placed) with false; auto|].
          + symmetry. apply not_true_iff_false. intro K. apply existsb_exists in K as (z & Hz & K). rewrite Q in K by auto. discriminate.
          + symmetry. apply not_true_iff_false. intro K. apply existsb_exists in K as (z & Hz & K). rewrite O in K by auto. discriminate.
        - destruct (IH (S m) ltac:(lia)) as (fuel & r & R).
          destruct (sample_placement surface (b_ex b) (b_ey b) (b_off b) (fst (draws m)) (snd (draws m))) as [p'|] eqn:E'; [|exfalso; exact (Fit _ E')].
          destruct (existsb (hits_obstacle b p') obstacles || existsb (fun q => hits_body b p' (fst q) (snd q)) placed) eqn:K.
          + exists (S fuel), r. cbn [World_Model.place_one]. rewrite E', K. exact R.
          + exists 1%nat, (Some p', S m). cbn [World_Model.place_one]. rewrite E', K. reflexivity. }
      apply (G (k - n)%nat n). lia.
  Qed.
End Place.
Print Assumptions placements_sound.
Print Assumptions placement_terminates.

(** ** Instances: rectangles that touch *)
Definition overlap (a b : body) (p q : rpt) : Prop :=
  Rabs (fst p - fst (b_off a) - (fst q - fst (b_off b))) <= (b_ex a + b_ex b) / 2 /\
  Rabs (snd p - snd (b_off a) - (snd q - snd (b_off b))) <= (b_ey a + b_ey b) / 2.
Definition touch_body (a : body) (p : rpt) (b : body) (q : rpt) : bool :=
  if Rle_dec (Rabs (fst p - fst (b_off a) - (fst q - fst (b_off b)))) ((b_ex a + b_ex b) / 2)
  then if Rle_dec (Rabs (snd p - snd (b_off a) - (snd q - snd (b_off b)))) ((b_ey a + b_ey b) / 2) then true else false
  else false.
Definition touch_rect (a : body) (p : rpt) (o : rect) : bool := touch_body a p (mkBody (r_w o) (r_l o) (0, 0)) (r_x o, r_y o).
Lemma touch_body_iff a p b q : touch_body a p b q = true <-> overlap a b p q.
Proof. unfold touch_body, overlap. destruct (Rle_dec _ _); [destruct (Rle_dec _ _)|]; split; intros H; try tauto; discriminate. Qed.

(** Two targets that each fit a surface but not beside each other: the loop never ends, whatever is drawn. *)
Theorem placements_terminate_refuted : exists surface bodies, Forall body_ok bodies /\
  (forall b, In b bodies -> b_ex b <= r_w surface /\ b_ey b <= r_l surface) /\
  forall draws fuel, (forall n, unit_pair (draws n)) ->
    sample_placements rect touch_rect touch_body fuel 0 draws surface [] [] bodies = OutOfFuel.
Proof.
  set (b := mkBody 1 1 (0, 0)). set (S := room1_floor (3/2) 3). assert (Bk : body_ok b) by (unfold body_ok; cbn; lra).
  assert (Bs : Forall body_ok [b; b]) by (constructor; [auto|constructor; [auto|constructor]]).
  exists S, [b; b]. split; [auto|]. split; [intros ? [<-|[<-|[]]]; cbn; lra|].
  intros draws fuel U. destruct (sample_placements rect touch_rect touch_body fuel 0 draws S [] [] [b; b]) as [l| |] eqn:E; auto; exfalso.
  - pose proof (placements_sound rect touch_rect touch_body draws S [] fuel [b; b] U Bs) as P. rewrite E in P.
    destruct P as [M [W1 W2]]. destruct l as [|[b1 p1] [|[b2 p2] [|]]]; try discriminate. cbn in M. injection M as -> ->.
    destruct (W1 b p1) as [S1 _]; [cbn; auto|]. destruct (W1 b p2) as [S2 _]; [cbn; auto|].
    apply on_surface_iff in S1; auto. apply on_surface_iff in S2; auto.
    specialize (W2 0%nat 1%nat b p1 b p2 ltac:(lia) eq_refl eq_refl). apply not_true_iff_false in W2. apply W2, touch_body_iff. unfold overlap.
    cbn in *. split; apply Rabs_le; lra.
  - pose proof (placements_sound rect touch_rect touch_body draws S [] fuel [b; b] U Bs) as P. rewrite E in P.
    destruct P as (b' & [<-|[<-|[]]] & H); cbn in H; destruct H; lra.
Qed.
Print Assumptions placements_terminate_refuted.

(** two small bodies are placed in room 1 of hallway_manip(), the second at its second attempt *)
Example placements_case : exists l, sample_placements rect touch_rect touch_body 5 0
    (fun n => match n with 0%nat => (0, 1/2) | 1%nat => (0, 1/2) | _ => (1/2, 1/2) end)
    (room1_floor (3/2) 3) [] [] [mkBody (1/2) (1/2) (0, 0); mkBody (1/4) (1/4) (0, 0)] = Placed l /\
  map snd l = [(-11/4, 3/4); (-9/4, 3/4)].
Proof.
  set (b1 := mkBody (1/2) (1/2) (0, 0)). set (b2 := mkBody (1/4) (1/4) (0, 0)).
  assert (E1 : sample_placement (room1_floor (3/2) 3) (1/2) (1/2) (0, 0) 0 (1/2) = Some (-11/4, 3/4)).
  { unfold sample_placement, room1_floor. cbn [fst snd r_x r_y r_w r_l]. destruct (Rlt_dec _ _); [exfalso; lra|]. destruct (Rlt_dec _ _); [exfalso; lra|]. do 2 f_equal; lra. }
  assert (E2 : sample_placement (room1_floor (3/2) 3) (1/4) (1/4) (0, 0) 0 (1/2) = Some (-23/8, 3/4)).
  { unfold sample_placement, room1_floor. cbn [fst snd r_x r_y r_w r_l]. destruct (Rlt_dec _ _); [exfalso; lra|]. destruct (Rlt_dec _ _); [exfalso; lra|]. do 2 f_equal; lra. }
  assert (E3 : sample_placement (room1_floor (3/2) 3) (1/4) (1/4) (0, 0) (1/2) (1/2) = Some (-9/4, 3/4)).
  { unfold sample_placement, room1_floor. cbn [fst snd r_x r_y r_w r_l]. destruct (Rlt_dec _ _); [exfalso; lra|]. destruct (Rlt_dec _ _); [exfalso; lra|]. do 2 f_equal; lra. }
  assert (T1 : touch_body b2 (-23/8, 3/4) b1 (-11/4, 3/4) = true) by (apply touch_body_iff; unfold overlap; cbn; split; apply Rabs_le; lra).
  assert (T2 : touch_body b2 (-9/4, 3/4) b1 (-11/4, 3/4) = false).
  { apply not_true_iff_false. rewrite touch_body_iff. unfold overlap. cbn. intros [H _]. apply abs_between in H. lra. }
  eexists. split.
  - Ltac go := cbn [sample_placements place_one existsb orb fst snd app b_ex b_ey b_off].
    unfold b1, b2 in *. go. rewrite E1. go. rewrite E2. go. rewrite T1. go. rewrite E3. go. rewrite T2. go. reflexivity.
  - reflexivity.
Qed.

(** ** C113, C116: placed targets *)

(** A target placed without touching a wall on the floor of a room is a valid start or goal for the body with its
    extents, and lies in the rooms. *)
Theorem placed_target_valid rl hl gap ex ey p floor : world_ok rl hl gap -> 1/1000 <= ex -> 1/1000 <= ey ->
  floor = room1_floor rl hl \/ floor = room2_floor rl hl ->
  on_surface floor (mkBody ex ey (0, 0)) p ->
  (forall o, In o (hallway_walls rl hl gap) -> touch_rect (mkBody ex ey (0, 0)) p o = false) ->
  conf_free (map wall_oobb (hallway_walls rl hl gap)) ex ey (ik p) = Some true /\ inner rl hl gap (ik p).
Proof.
  intros W A B Fl S H. unfold ik.
  assert (F : body_free (hallway_walls rl hl gap) (ex / 2) (ey / 2) p).
  { intros v VX VY (o & Io & OX & OY). specialize (H o Io). apply not_true_iff_false in H. apply H. unfold touch_rect. apply touch_body_iff.
    unfold overlap. cbn [b_ex b_ey b_off fst snd]. apply abs_between in VX. apply abs_between in VY. split; apply Rabs_le; lra. }
  split.
  - destruct (hallway_conf_exact rl hl gap ex ey p W A B) as (v & E & Q). rewrite E. f_equal. now apply Q.
  - apply on_surface_iff in S; [|unfold body_ok; cbn; lra]. cbn [b_ex b_ey b_off fst snd] in S. pose proof W as (G & Wd & L).
    assert (N : ~ in_walls (hallway_walls rl hl gap) p) by (apply F; rewrite Rminus_eq_0, Rabs_R0; lra).
    assert (O : outline rl hl p) by (unfold outline; destruct Fl as [->| ->]; unfold room1_floor, room2_floor in S; cbn [r_x r_y r_w r_l] in S; lra).
    destruct (proj1 (hallway_free_exact rl hl gap p W O) N) as [I|[PX PY]]; auto. exfalso.
    destruct Fl as [->| ->]; unfold room1_floor, room2_floor in S; cbn [r_x r_y r_w r_l] in S; lra.
Qed.
Print Assumptions placed_target_valid.

Example placed_target_case : conf_free manip_walls (2716/10000) (2716/10000) (-9/4, 3/4) = Some true /\ inner (3/2) 3 (3716/10000) (-9/4, 3/4).
Proof.
  pose proof manip_ok as W. rewrite manip_gap in W.
  apply (placed_target_valid (3/2) 3 (3716/10000) _ _ (-9/4, 3/4) (room1_floor (3/2) 3) W); try lra; auto.
  - apply on_surface_iff; [unfold body_ok; cbn; lra|]. cbn. lra.
  - intros o Io. apply not_true_iff_false. unfold touch_rect. rewrite touch_body_iff. unfold overlap. cbn [b_ex b_ey b_off fst snd]. intros [X Y].
    apply abs_between in X. apply abs_between in Y. unfold hallway_walls, wall_thickness, mound_height in Io. cbn [In] in Io.
    repeat destruct Io as [<-|Io]; try destruct Io; cbn [r_x r_y r_w r_l] in *; lra.
Qed.

(** ** C115: sizes *)

(** Drawn radii lie between the smallest and the largest size; a quarter-power law decides which
    draws give a radius up to a given fraction of the range. *)
Theorem target_radius_quantile scale u x : 0 <= u < 1 -> 0 <= x <= 1 ->
  min_object_size scale <= target_radius scale u < max_object_size scale /\
  (target_radius scale u <= min_object_size scale + x * (max_object_size scale - min_object_size scale) <-> u <= 1 - (1 - x) ^ 4).
Proof.
  intros U X. unfold target_radius, max_object_size. set (m := min_object_size scale). replace (m + 1/10 - m) with (1/10) by ring.
  set (r := Rpower (1 - u) (1 / 4)).
  assert (R0 : 0 < r) by (unfold r, Rpower; apply exp_pos).
  assert (R4 : r ^ 4 = 1 - u).
  { unfold r. rewrite <- Rpower_pow by (unfold Rpower; apply exp_pos). rewrite Rpower_mult. replace (1 / 4 * INR 4) with 1 by (cbn [INR]; lra). apply Rpower_1. lra. }
  assert (R1 : r <= 1).
  { destruct (Rle_lt_dec r 1) as [|H]; auto. exfalso. assert (1 < r ^ 4); [|lra]. apply Rlt_pow_R1; [auto|lia]. }
  split; [lra|].
  assert (Mono : forall a b, 0 <= a -> 0 <= b -> (a <= b <-> a ^ 4 <= b ^ 4)).
  { intros a b Ha Hb. split; [intro H; apply pow_incr; lra|]. intro H. destruct (Rle_lt_dec a b) as [|L]; auto. exfalso.
    assert (b ^ 4 < a ^ 4); [|lra]. assert (b * b < a * a) by nra. assert (0 <= b * b) by nra. replace (b ^ 4) with ((b * b) * (b * b)) by ring. replace (a ^ 4) with ((a * a) * (a * a)) by ring. nra. }
  pose proof (Mono (1 - x) r ltac:(lra) ltac:(lra)) as Q. rewrite R4 in Q. split.
  - intro H. assert (1 - x <= r) by lra. apply Q in H0. lra.
  - intro H. assert (1 - x <= r) by (apply Q; lra). lra.
Qed.
Print Assumptions target_radius_quantile.

Example target_radius_case : target_radius (1/5) (15/16) = min_object_size (1/5) + 1/20.
Proof.
  destruct (target_radius_quantile (1/5) (15/16) (1/2) ltac:(lra) ltac:(lra)) as [_ [_ H]].
  apply Rle_antisym; [unfold max_object_size in H; apply Rle_trans with (1 := H ltac:(lra)); lra|].
  unfold target_radius, max_object_size. replace (1 - 15/16) with (Rpower (1/2) 4).
  - rewrite Rpower_mult. replace (4 * (1 / 4)) with 1 by lra. rewrite Rpower_1 by lra. lra.
  - replace 4 with (INR 4) by (cbn [INR]; lra). rewrite Rpower_pow by lra. lra.
Qed.

(** The hallway's gap exceeds the largest target's diameter by dd and leaves at least dd for every
    target, whatever is drawn. *)
Theorem hallway_gap_exact scale us dd : Forall (fun u => 0 <= u < 1) us ->
  hallway_gap (target_sizes scale us) dd = 2 * max_object_size scale + dd /\
  forall r, In r (target_sizes scale us) -> dd <= hallway_gap (target_sizes scale us) dd - 2 * r.
Proof.
  intro U. assert (M : forall r, In r (target_sizes scale us) -> r <= max_object_size scale).
  { intros r [<-|H]; [lra|]. apply in_map_iff in H as (u & <- & Iu). rewrite Forall_forall in U.
    pose proof (proj1 (target_radius_quantile scale u 1 (U u Iu) ltac:(lra))). lra. }
  assert (E : lmax (target_sizes scale us) = max_object_size scale) by (apply lmax_char; [left; reflexivity|auto]).
  unfold hallway_gap. rewrite E. split; [ring|]. intros r Hr. specialize (M r Hr). lra.
Qed.
Print Assumptions hallway_gap_exact.

Example hallway_gap_case : hallway_gap (target_sizes (1/5) [15/16; 0]) (1/10) = 3716/10000.
Proof. rewrite (proj1 (hallway_gap_exact (1/5) [15/16; 0] (1/10) ltac:(constructor; [lra|constructor; [lra|constructor]]))). unfold max_object_size, min_object_size, BOT_RADIUS. lra. Qed.

(** The initial configuration lies in the first room, clear of the walls, but outside the limits
    that are handed to the planner as the problem's limits. *)
Theorem init_conf_limits_refuted : exists rl hl gap ex, world_ok rl hl gap /\ 1/1000 <= ex /\
  conf_free (map wall_oobb (hallway_walls rl hl gap)) ex ex (init_conf rl hl) = Some true /\
  ~ (fst base_limits <= fst (init_conf rl hl) <= snd base_limits).
Proof.
  pose proof manip_ok as W. rewrite manip_gap in W. exists (3/2), 3, (3716/10000), (2716/10000).
  split; auto. split; [lra|]. split.
  - replace (init_conf (3/2) 3) with (-9/4, 3/4) by (unfold init_conf; f_equal; lra). apply placed_target_case.
  - unfold init_conf, base_limits. cbn. lra.
Qed.
Print Assumptions init_conf_limits_refuted.
