(** Properties of the coverage check of the straight line environment (nonasymptotic/envs.py
    101-357). *)
From Coq Require Import Reals List Bool Arith Permutation Lra Lia Psatz R_sqrt Rgeom.
From Verif Require Import Plane Geom_Model Geom_Spec Geom_Proofs Cover_Model.
Import ListNotations.
Open Scope R_scope.

(** ** Specification *)

(** the point of the curve at a fraction of its length *)
Definition on_curve (dim : nat) (len t : R) : list R := len * t :: repeat 0 (dim - 1).

(** The graph answers a query through a row: the entry sample is within the radius of the start,
    the exit sample within the radius of the goal, and the path through them is at most (1 + tol)
    times the curve between start and goal. *)
Definition serves (dim : nat) (len tol r : R) (s : sol) (q : rpt) : Prop :=
  dist (on_curve dim len (fst q)) (s_in s) <= r /\
  dist (on_curve dim len (snd q)) (s_out s) <= r /\
  dist (on_curve dim len (fst q)) (s_in s) + s_dist s + dist (on_curve dim len (snd q)) (s_out s)
    <= (1 + tol) * (len * (snd q - fst q)).

Definition answered (dim : nat) (len tol r : R) (rows : list sol) (q : rpt) : Prop :=
  exists s, In s rows /\ serves dim len tol r s q.

(** queries of length at least r between two points of the curve *)
Definition query (r : R) (q : rpt) : Prop := 0 <= fst q /\ snd q <= 1 /\ r <= snd q - fst q.

(** rows name samples of the environment's dimension, and an id names one row *)
Definition rows_ok (dim : nat) (rows : list sol) : Prop :=
  (forall s, In s rows -> length (s_in s) = dim /\ length (s_out s) = dim) /\
  (forall s s', In s rows -> In s' rows -> s_id s = s_id s' -> s = s').

(** ** The plane of queries *)
Definition hyp (x c : R) : R := sqrt (x * x + c * c).

(** queries that a row with entry (u1, u2), exit (v1, v2) and distance d answers within tol *)
Definition adm (tol : R) (s : sol) (q : rpt) : Prop :=
  s_dist s + hyp (fst q - u_1 s) (u_2 s) + hyp (snd q - v_1 s) (v_2 s) <= (1 + tol) * (snd q - fst q).

Lemma hyp_triangle x y c e : hyp (x + y) (c + e) <= hyp x c + hyp y e.
Proof.
  pose proof (triangle 0 0 (x + y) (c + e) x c) as T. unfold dist_euc, Rsqr, hyp in *.
  replace ((0 - (x + y)) * (0 - (x + y)) + (0 - (c + e)) * (0 - (c + e))) with ((x + y) * (x + y) + (c + e) * (c + e)) in T by ring.
  replace ((0 - x) * (0 - x) + (0 - c) * (0 - c)) with (x * x + c * c) in T by ring.
  replace ((x - (x + y)) * (x - (x + y)) + (c - (c + e)) * (c - (c + e))) with (y * y + e * e) in T by ring. exact T.
Qed.
Lemma hyp_scale t x c : 0 <= t -> hyp (t * x) (t * c) = t * hyp x c.
Proof.
  intro T. unfold hyp. replace (t * x * (t * x) + t * c * (t * c)) with (t * t * (x * x + c * c)) by ring.
  rewrite sqrt_mult; [|nra|nra]. rewrite sqrt_square; auto.
Qed.
Lemma hyp_abs x : hyp x 0 = Rabs x.
Proof. unfold hyp. replace (x * x + 0 * 0) with (Rsqr x) by (unfold Rsqr; ring). apply sqrt_Rsqr_abs. Qed.
Lemma hyp_l1 x c : 0 <= c -> hyp x c <= Rabs x + c.
Proof.
  intro C. pose proof (hyp_triangle x 0 0 c) as T. rewrite Rplus_0_r, Rplus_0_l, hyp_abs in T.
  assert (hyp 0 c = c); [|lra]. unfold hyp. replace (0 * 0 + c * c) with (c * c) by ring. now apply sqrt_square.
Qed.
Lemma hyp_lip x y c : hyp (x + y) c <= hyp x c + Rabs y.
Proof. pose proof (hyp_triangle x y c 0) as T. rewrite Rplus_0_r, hyp_abs in T. exact T. Qed.
Lemma hyp_convex x y c t : 0 <= t <= 1 -> hyp (x + t * (y - x)) c <= hyp x c + t * (hyp y c - hyp x c).
Proof.
  intro T. replace (x + t * (y - x)) with ((1 - t) * x + t * y) by ring.
  replace c with ((1 - t) * c + t * c) at 1 by ring.
  eapply Rle_trans; [apply hyp_triangle|]. rewrite !hyp_scale by lra. lra.
Qed.
Lemma hyp_le x c r : 0 <= r -> (hyp x c <= r <-> x * x + c * c <= r * r).
Proof.
  intro P. unfold hyp. split; intro H.
  - rewrite <- (sqrt_sqrt (x * x + c * c)) by nra. apply Rmult_le_compat; auto; apply sqrt_pos.
  - rewrite <- (sqrt_square r) by lra. now apply sqrt_le_1_alt.
Qed.

Lemma adm_convex tol s : convex (adm tol s).
Proof.
  intros p q t T Hp Hq. unfold adm in *. cbn [fst snd].
  replace (fst p + t * (fst q - fst p) - u_1 s) with ((fst p - u_1 s) + t * ((fst q - u_1 s) - (fst p - u_1 s))) by ring.
  replace (snd p + t * (snd q - snd p) - v_1 s) with ((snd p - v_1 s) + t * ((snd q - v_1 s) - (snd p - v_1 s))) by ring.
  pose proof (hyp_convex (fst p - u_1 s) (fst q - u_1 s) (u_2 s) t T).
  pose proof (hyp_convex (snd p - v_1 s) (snd q - v_1 s) (v_2 s) t T). nra.
Qed.

Lemma norm_nonneg p : 0 <= norm p. Proof. apply sqrt_pos. Qed.

(** what the two rays are multiples of *)
Lemma ray_norm tol : 0 < tol -> 0 < norm [2 + tol; tol].
Proof. intro T. unfold norm. cbn. apply sqrt_lt_R0. nra. Qed.
Definition ray_len (tol : R) : R := 2 / norm [2 + tol; tol].
Lemma ray_len_pos tol : 0 < tol -> 0 < ray_len tol.
Proof. intro T. apply Rdiv_lt_0_compat; [lra|now apply ray_norm]. Qed.
Lemma ray1_eq tol : ray_slope1 tol = (- (ray_len tol * (2 + tol)), - (ray_len tol * tol)).
Proof.
  unfold ray_slope1, ray_len, pscale, norm. cbn.
  replace (- (2 + tol) * - (2 + tol) + (- tol * - tol + 0)) with ((2 + tol) * (2 + tol) + (tol * tol + 0)) by ring. f_equal; ring.
Qed.
Lemma ray2_eq tol : ray_slope2 tol = (ray_len tol * tol, ray_len tol * (2 + tol)).
Proof.
  unfold ray_slope2, ray_len, pscale, norm. cbn.
  replace (tol * tol + ((2 + tol) * (2 + tol) + 0)) with ((2 + tol) * (2 + tol) + (tol * tol + 0)) by ring. f_equal; ring.
Qed.

Lemma adm_ray tol s q a b k : 0 < tol -> 0 <= k -> adm tol s q ->
  (a = - (k * (2 + tol)) /\ b = - (k * tol)) \/ (a = k * tol /\ b = k * (2 + tol)) ->
  adm tol s (fst q + a, snd q + b).
Proof.
  intros T K A H. unfold adm in *. cbn [fst snd].
  replace (fst q + a - u_1 s) with ((fst q - u_1 s) + a) by ring. replace (snd q + b - v_1 s) with ((snd q - v_1 s) + b) by ring.
  pose proof (hyp_lip (fst q - u_1 s) a (u_2 s)). pose proof (hyp_lip (snd q - v_1 s) b (v_2 s)).
  assert (0 <= k * (2 + tol)) by nra. assert (0 <= k * tol) by nra.
  destruct H as [[-> ->]|[-> ->]]; rewrite ?Rabs_Ropp, !Rabs_pos_eq in * by lra; nra.
Qed.
Lemma adm_ray1 tol s q : 0 < tol -> adm tol s q -> adm tol s (padd q (ray_slope1 tol)).
Proof. intros T A. rewrite ray1_eq. apply (adm_ray tol s q _ _ (ray_len tol)); auto. apply Rlt_le, ray_len_pos, T. Qed.
Lemma adm_ray2 tol s q : 0 < tol -> adm tol s q -> adm tol s (padd q (ray_slope2 tol)).
Proof. intros T A. rewrite ray2_eq. apply (adm_ray tol s q _ _ (ray_len tol)); auto. apply Rlt_le, ray_len_pos, T. Qed.

(** ** Convex hulls *)
Lemma hull_in C (A : region) p : convex C -> (forall x, A x -> C x) -> convex_hull A p -> C p.
Proof. intros HC HA H. now apply H. Qed.
Lemma hull_sub (A : region) p : A p -> convex_hull A p.
Proof. intros H C _ HA. now apply HA. Qed.
Lemma hull_convex A : convex (convex_hull A).
Proof. intros p q t T Hp Hq C HC HA. apply HC; auto; [now apply Hp|now apply Hq]. Qed.
Lemma inter_convex A B : convex A -> convex B -> convex (inter A B).
Proof. intros HA HB p q t T [P1 P2] [Q1 Q2]. split; auto. Qed.

Lemma shadow_adm tol s q p : 0 < tol -> adm tol s q -> query_shadow tol q p -> adm tol s p.
Proof.
  intros T A. apply hull_in; [apply adm_convex|]. cbn. intros x [<-|[<-|[<-|[]]]]; auto using adm_ray1, adm_ray2.
Qed.

Lemma l1_adm tol s t1 t2 : s_dist s + (Rabs (t1 - u_1 s) + u_2 s) + (Rabs (t2 - v_1 s) + v_2 s) <= (1 + tol) * (t2 - t1) ->
  adm tol s (t1, t2).
Proof.
  intro H. unfold adm. cbn [fst snd]. pose proof (hyp_l1 (t1 - u_1 s) (u_2 s) (norm_nonneg _)).
  pose proof (hyp_l1 (t2 - v_1 s) (v_2 s) (norm_nonneg _)). lra.
Qed.

(** every point of the inner approximation is admissible *)
Lemma inner_adm tol s p : 0 < tol -> inner_approx tol s p -> adm tol s p.
Proof.
  intros T. unfold inner_approx. destruct (Rle_dec _ _) as [H|H].
  - set (D := (1 + tol) * (v_1 s - u_1 s) - (s_dist s + u_2 s + v_2 s)).
    assert (Dp : 0 <= D / (tol + 2)) by (apply Rmult_le_pos; [unfold D; lra|apply Rlt_le, Rinv_0_lt_compat; lra]).
    replace ((u_2 s + (1 + tol) * u_1 s + v_2 s + s_dist s + v_1 s) / (tol + 2)) with (v_1 s - D / (tol + 2)) by (unfold D; field; lra).
    replace ((u_2 s + v_2 s + s_dist s - (1 + tol) * v_1 s - u_1 s) / - (2 + tol)) with (u_1 s + D / (tol + 2)) by (unfold D; field; lra).
    assert (E : D = (tol + 2) * (D / (tol + 2))) by (field; lra).
    assert (A1 : adm tol s (u_1 s, v_1 s - D / (tol + 2))).
    { apply l1_adm. replace (u_1 s - u_1 s) with 0 by ring. replace (v_1 s - D / (tol + 2) - v_1 s) with (- (D / (tol + 2))) by ring.
      rewrite Rabs_R0, Rabs_Ropp, Rabs_pos_eq by lra. unfold D in *. nra. }
    assert (A2 : adm tol s (u_1 s + D / (tol + 2), v_1 s)).
    { apply l1_adm. replace (v_1 s - v_1 s) with 0 by ring. replace (u_1 s + D / (tol + 2) - u_1 s) with (D / (tol + 2)) by ring.
      rewrite Rabs_R0, Rabs_pos_eq by lra. unfold D in *. nra. }
    apply hull_in; [apply adm_convex|]. cbn [In]. intros x [<-|[<-|[<-|[<-|[]]]]]; auto using adm_ray1, adm_ray2.
  - set (D := s_dist s + u_2 s + v_2 s - (1 + tol) * (v_1 s - u_1 s)).
    assert (Dp : 0 <= D / tol) by (apply Rmult_le_pos; [unfold D; lra|apply Rlt_le, Rinv_0_lt_compat; lra]).
    replace ((u_2 s + (1 + tol) * u_1 s + v_2 s + s_dist s - v_1 s) / tol) with (v_1 s + D / tol) by (unfold D; field; lra).
    replace ((u_2 s + v_2 s + s_dist s - (1 + tol) * v_1 s + u_1 s) / - tol) with (u_1 s - D / tol) by (unfold D; field; lra).
    assert (E : D = tol * (D / tol)) by (field; lra).
    assert (A1 : adm tol s (u_1 s, v_1 s + D / tol)).
    { apply l1_adm. replace (u_1 s - u_1 s) with 0 by ring. replace (v_1 s + D / tol - v_1 s) with (D / tol) by ring.
      rewrite Rabs_R0, Rabs_pos_eq by lra. unfold D in *. nra. }
    assert (A2 : adm tol s (u_1 s - D / tol, v_1 s)).
    { apply l1_adm. replace (v_1 s - v_1 s) with 0 by ring. replace (u_1 s - D / tol - u_1 s) with (- (D / tol)) by ring.
      rewrite Rabs_R0, Rabs_Ropp, Rabs_pos_eq by lra. unfold D in *. nra. }
    apply hull_in; [apply adm_convex|]. cbn [In]. intros x [<-|[<-|[<-|[<-|[]]]]]; auto using adm_ray1, adm_ray2.
Qed.

(** ** The bounding box *)
Definition near (r : R) (s : sol) (q : rpt) : Prop :=
  hyp (fst q - u_1 s) (u_2 s) <= r /\ hyp (snd q - v_1 s) (v_2 s) <= r.

Lemma box_coord x u c r : 0 <= r -> c * c <= r * r ->
  (hyp (x - u) c <= r <-> u - sqrt (r * r - c * c) <= x <= u + sqrt (r * r - c * c)).
Proof.
  intros P C. rewrite hyp_le by auto. pose proof (sqrt_pos (r * r - c * c)) as S.
  assert (Q : sqrt (r * r - c * c) * sqrt (r * r - c * c) = r * r - c * c) by (apply sqrt_sqrt; lra).
  set (w := sqrt _) in *. split; [intro H|intros [H1 H2]; nra].
  assert ((x - u) * (x - u) <= w * w) by lra. split; nra.
Qed.

Lemma box_exact r s q : 0 <= r -> u_2 s <= r -> v_2 s <= r -> (bounding_box r s q <-> near r s q).
Proof.
  intros P U V. assert (U' : u_2 s * u_2 s <= r * r) by (pose proof (norm_nonneg (tl (s_in s))); unfold u_2 in *; nra).
  assert (V' : v_2 s * v_2 s <= r * r) by (pose proof (norm_nonneg (tl (s_out s))); unfold v_2 in *; nra).
  unfold near. rewrite (box_coord _ _ _ r P U'), (box_coord _ _ _ r P V'). unfold bounding_box.
  set (a := sqrt (r * r - u_2 s * u_2 s)). set (b := sqrt (r * r - v_2 s * v_2 s)).
  assert (0 <= a) by apply sqrt_pos. assert (0 <= b) by apply sqrt_pos. split.
  - apply (hull_in (fun q => (u_1 s - a <= fst q <= u_1 s + a) /\ (v_1 s - b <= snd q <= v_1 s + b))).
    + intros x y t T [X1 X2] [Y1 Y2]. cbn [fst snd]. nra.
    + cbn. intros x [<-|[<-|[<-|[<-|[]]]]]; cbn; lra.
  - intros [H1 H2] C HC HA.
    assert (Bet : forall lo hi x, lo <= x <= hi -> exists t, 0 <= t <= 1 /\ x = lo + t * (hi - lo)).
    { intros lo hi x Hx. destruct (Req_dec lo hi) as [E|E]; [exists 0; split; [lra|nra]|].
      exists ((x - lo) / (hi - lo)). split; [|field; lra].
      split; [apply Rmult_le_pos; [lra|apply Rlt_le, Rinv_0_lt_compat; lra]|].
      apply Rmult_le_reg_r with (hi - lo); [lra|]. unfold Rdiv. rewrite Rmult_assoc, Rinv_l; lra. }
    destruct (Bet _ _ _ H1) as (t & T & E1). destruct (Bet _ _ _ H2) as (w & W & E2).
    assert (L : C (fst q, v_1 s - b)).
    { pose proof (HC (u_1 s - a, v_1 s - b) (u_1 s + a, v_1 s - b) t T) as G. cbn [fst snd] in G.
      rewrite <- E1 in G. replace (v_1 s - b + t * (v_1 s - b - (v_1 s - b))) with (v_1 s - b) in G by ring. apply G; apply HA; cbn; auto. }
    assert (U1 : C (fst q, v_1 s + b)).
    { pose proof (HC (u_1 s - a, v_1 s + b) (u_1 s + a, v_1 s + b) t T) as G. cbn [fst snd] in G.
      rewrite <- E1 in G. replace (v_1 s + b + t * (v_1 s + b - (v_1 s + b))) with (v_1 s + b) in G by ring. apply G; apply HA; cbn; auto 6. }
    pose proof (HC _ _ w W L U1) as G. cbn [fst snd] in G. rewrite <- E2 in G.
    replace (fst q + w * (fst q - fst q)) with (fst q) in G by ring. now destruct q.
Qed.

Lemma near_offsets r s q : 0 <= r -> near r s q -> u_2 s <= r /\ v_2 s <= r.
Proof.
  intros P [N1 N2]. apply hyp_le in N1; [|lra]. apply hyp_le in N2; [|lra].
  pose proof (Rle_0_sqr (fst q - u_1 s)). pose proof (Rle_0_sqr (snd q - v_1 s)).
  split; apply Rsqr_incr_0_var; auto; unfold Rsqr in *; lra.
Qed.

Lemma near_convex r s : convex (near r s).
Proof.
  intros p q t T [P1 P2] [Q1 Q2]. unfold near. cbn [fst snd].
  pose proof (hyp_convex (fst p - u_1 s) (fst q - u_1 s) (u_2 s) t T).
  pose proof (hyp_convex (snd p - v_1 s) (snd q - v_1 s) (v_2 s) t T).
  replace (fst p + t * (fst q - fst p) - u_1 s) with ((fst p - u_1 s) + t * ((fst q - u_1 s) - (fst p - u_1 s))) by ring.
  replace (snd p + t * (snd q - snd p) - v_1 s) with ((snd p - v_1 s) + t * ((snd q - v_1 s) - (snd p - v_1 s))) by ring.
  split; nra.
Qed.

(** ** From vectors to the plane *)
Lemma fold_sq_repeat0 : forall (p : list R) n, length p = n ->
  fold_right (fun x s => x * x + s) 0 (vzip Rminus (repeat 0 n) p) = fold_right (fun x s => x * x + s) 0 p.
Proof.
  unfold vzip. induction p as [|a p IH]; intros [|n] H; cbn in H; try discriminate; auto.
  cbn [repeat combine map fold_right fst snd]. rewrite IH by lia. ring.
Qed.
Lemma fold_sq_nonneg (p : list R) : 0 <= fold_right (fun x s => x * x + s) 0 p.
Proof. induction p; cbn; nra. Qed.
Lemma norm_axis dim x p : (1 <= dim)%nat -> length p = dim ->
  norm (vzip Rminus (x :: repeat 0 (dim - 1)) p) = hyp (x - hd 0 p) (norm (tl p)).
Proof.
  intros D L. destruct p as [|a p]; cbn in L; [lia|]. unfold hyp, norm. cbn [hd tl].
  rewrite sqrt_sqrt by apply fold_sq_nonneg. unfold vzip. cbn [combine map fold_right fst snd].
  pose proof (fold_sq_repeat0 p (dim - 1) ltac:(lia)) as F. unfold vzip in F. now rewrite F.
Qed.
Lemma dist_axis dim x p : (1 <= dim)%nat -> length p = dim ->
  dist (x :: repeat 0 (dim - 1)) p = hyp (x - hd 0 p) (norm (tl p)).
Proof.
  intros D L. rewrite <- (norm_axis dim) by auto. symmetry. apply norm_vzip. cbn. rewrite repeat_length. lia.
Qed.
Lemma curve_on dim len t : 0 <= t <= 1 -> curve_point dim len t = on_curve dim len t.
Proof. intro T. unfold curve_point, line_curve, on_curve. rewrite clip_id by auto. f_equal. ring. Qed.

Lemma serves_plane dim tol r s q : (1 <= dim)%nat -> length (s_in s) = dim -> length (s_out s) = dim ->
  (serves dim 1 tol r s q <-> near r s q /\ adm tol s q).
Proof.
  intros D L1 L2. unfold serves, near, adm, on_curve. rewrite !(dist_axis dim) by auto. fold (u_1 s) (u_2 s) (v_1 s) (v_2 s).
  rewrite !Rmult_1_l. split; intros H; decompose [and] H; repeat split; lra.
Qed.

Lemma find_valid_iff dim len tol r rows s q : (1 <= dim)%nat -> rows_ok dim rows -> 0 <= fst q <= 1 -> 0 <= snd q <= 1 -> len = 1 ->
  (In s (find_valid dim len tol r rows q) <-> In s rows /\ serves dim len tol r s q).
Proof.
  intros D [Ok _] Q1 Q2 ->. unfold find_valid, query_all_connections. rewrite filter_In, filter_In.
  unfold valid_pair. rewrite andb_true_iff, !Rleb_iff. rewrite !curve_on by auto.
  split.
  - intros [[I [A B]] V]. split; auto. destruct (Ok s I) as [O1 O2].
    rewrite !norm_vzip in * by (unfold on_curve; cbn; rewrite repeat_length; lia). unfold serves. repeat split; auto. lra.
  - intros [I (A & B & V)]. destruct (Ok s I) as [O1 O2].
    rewrite !norm_vzip in * by (unfold on_curve; cbn; rewrite repeat_length; lia). repeat split; auto. lra.
Qed.

(** ** The queries to be covered *)
Lemma length_space_iff r q : 0 <= r < 1 -> (length_space r q <-> query r q).
Proof.
  intro P. unfold query. split.
  - apply (hull_in (fun q => 0 <= fst q /\ snd q <= 1 /\ r <= snd q - fst q)).
    + intros x y t T X Y. cbn [fst snd]. repeat split; nra.
    + cbn. intros x [<-|[<-|[<-|[]]]]; cbn; lra.
  - intros (H1 & H2 & H3) C HC HA.
    assert (A0 : C (0, r)) by (apply HA; cbn; auto). assert (A1 : C (0, 1)) by (apply HA; cbn; auto).
    assert (A2 : C (1 - r, 1)) by (apply HA; cbn; auto).
    (* q lies on the segment from (0, 1) to a point of the long edge *)
    set (m := snd q - fst q). set (t := (1 - m) / (1 - r)).
    assert (T : 0 <= t <= 1).
    { unfold t, m. split; [apply Rmult_le_pos; [lra|apply Rlt_le, Rinv_0_lt_compat; lra]|].
      apply Rmult_le_reg_r with (1 - r); [lra|]. unfold Rdiv. rewrite Rmult_assoc, Rinv_l; lra. }
    assert (E : 1 - m = t * (1 - r)) by (unfold t; field; lra).
    destruct (Req_dec t 0) as [Z|Z].
    + assert (m = 1) by nra. unfold m in *. replace q with (0, 1); auto. destruct q; cbn in *. f_equal; lra.
    + assert (Tp : 0 < t) by lra.
      set (w := fst q / t / (1 - r)).
      assert (W : 0 <= w <= 1).
      { unfold w. split; [repeat apply Rmult_le_pos; try lra; apply Rlt_le, Rinv_0_lt_compat; lra|].
        apply Rmult_le_reg_r with (t * (1 - r)); [nra|].
        replace (fst q / t / (1 - r) * (t * (1 - r))) with (fst q) by (field; lra). unfold m in *. lra. }
      assert (E2 : fst q = w * (t * (1 - r))) by (unfold w; field; lra).
      pose proof (HC _ _ w W A0 A2) as G. cbn [fst snd] in G.
      pose proof (HC _ _ t T A1 G) as G2. cbn [fst snd] in G2.
      replace q with (0 + t * (0 + w * (1 - r - 0) - 0), 1 + t * (r + w * (1 - r) - 1)); auto.
      destruct q as [x y]; cbn [fst snd] in *. unfold m in *. f_equal; nra.
Qed.

Lemma query_range r q : 0 <= r -> query r q -> 0 <= fst q <= 1 /\ 0 <= snd q <= 1.
Proof. unfold query. lra. Qed.

(** ** Invariant of the dictionary *)
Section Sound.
  Variable covers : region -> rpt -> bool.
  Variables (dim : nat) (tol r : R) (rows : list sol).
  Hypothesis Dim : (1 <= dim)%nat.
  Hypothesis Tol : 0 < tol.
  Hypothesis Rr : 0 <= r < 1.
  Hypothesis Ok : rows_ok dim rows.

  Definition good (s : sol) (A B : region) : Prop :=
    (forall q, A q -> near r s q /\ adm tol s q) /\ (forall q, B q <-> near r s q).
  Definition hulls_ok (h : hulls) : Prop :=
    forall i A B, lookup i h = Some (A, B) -> exists s, In s rows /\ s_id s = i /\ good s A B.

  Lemma lookup_cons i j x h : lookup i ((j, x) :: h) = if ((fst i =? fst j) && (snd i =? snd j))%nat then Some x else lookup i h.
  Proof. reflexivity. Qed.
  Lemma ids_eq (i j : nat * nat) : ((fst i =? fst j) && (snd i =? snd j))%nat = true <-> i = j.
  Proof. rewrite andb_true_iff, !Nat.eqb_eq. destruct i, j. cbn. split; [intros [-> ->]; auto|intros [= -> ->]; auto]. Qed.

  Definition plane_answered (p : rpt) : Prop := exists s, In s rows /\ near r s p /\ adm tol s p.
  Definition new_ok (new : list region) : Prop := forall A p, In A new -> A p -> plane_answered p.

  Lemma add_row_ok q st s : In s rows -> near r s q -> adm tol s q -> hulls_ok (fst st) -> new_ok (snd st) ->
    hulls_ok (fst (add_row covers tol r q st s)) /\ new_ok (snd (add_row covers tol r q st s)).
  Proof.
    intros I N Ad H Hn. destruct st as [h new]. cbn [fst snd] in *. unfold add_row.
    assert (Step : forall A B, good s A B -> hulls_ok ((s_id s, (A, B)) :: h) /\ new_ok (new ++ [A])).
    { intros A B G. split.
      - intros i A' B'. rewrite lookup_cons. destruct (_ && _) eqn:Ei; [|apply H].
        apply ids_eq in Ei. subst i. intros [= <- <-]. exists s. auto.
      - intros A' p Hin HA. apply in_app_or in Hin. destruct Hin as [Hin|[<-|[]]]; [now apply (Hn A')|]. exists s. split; auto. now apply G. }
    destruct (lookup (s_id s) h) as [[A B]|] eqn:E.
    - destruct (H _ _ _ E) as (s' & I' & Id & G1 & G2).
      assert (s' = s) by (apply Ok; auto). subst s'.
      destruct (covers A q); [cbn; auto|]. apply Step.
      split; auto. intros p Hp.
      apply (hull_in (fun p => near r s p /\ adm tol s p)) in Hp; auto.
      + apply inter_convex; [apply near_convex|apply adm_convex].
      + intros x [[Hx|Hx] Bx]; [now apply G1|]. split; [exact (proj1 (G2 x) Bx)|]. now apply (shadow_adm tol s q).
    - destruct (near_offsets r s q ltac:(lra) N) as [U V].
      assert (Bx : forall p, bounding_box r s p <-> near r s p) by (intro p; apply box_exact; auto; lra).
      apply Step. split; auto. intros p. destruct (covers _ q).
      + intros [Hi Hb]. split; [exact (proj1 (Bx p) Hb)|now apply inner_adm].
      + apply (hull_in (fun p => near r s p /\ adm tol s p)).
        * apply inter_convex; [apply near_convex|apply adm_convex].
        * intros x [[Hx|Hx] Hb]; (split; [exact (proj1 (Bx x) Hb)|]); [now apply inner_adm|now apply (shadow_adm tol s q)].
  Qed.

  Lemma add_rows_ok q : forall l st, (forall s, In s l -> In s rows /\ near r s q /\ adm tol s q) ->
    hulls_ok (fst st) -> new_ok (snd st) ->
    hulls_ok (fst (fold_left (add_row covers tol r q) l st)) /\ new_ok (snd (fold_left (add_row covers tol r q) l st)).
  Proof.
    induction l as [|s l IH]; intros st Hl H Hn; cbn [fold_left]; auto.
    destruct (Hl s ltac:(cbn; auto)) as (I & N & A).
    destruct (add_row_ok q st s I N A H Hn) as [H1 H2]. apply IH; auto. intros s' Hs'. apply Hl. cbn. auto.
  Qed.

  Lemma valid_plane q s : query r q -> In s (find_valid dim 1 tol r rows q) -> In s rows /\ near r s q /\ adm tol s q.
  Proof.
    intros Q I. destruct (query_range r q ltac:(lra) Q). apply find_valid_iff in I; auto. destruct I as [I S].
    split; auto. apply serves_plane with (dim := dim) in S; auto; now apply Ok.
  Qed.

  (** invariant of the loop *)
  Definition inv (st : cstate) : Prop :=
    (forall q, In q (c_heap st) -> query r q) /\ hulls_ok (c_hulls st) /\
    (forall q, c_cover st q -> plane_answered q).

  Lemma inv_init : inv (cover_init r).
  Proof.
    split; [|split; [intros i A B [=]|intros q []]].
    intros q Hq. apply length_space_iff; auto. apply hull_sub. exact Hq.
  Qed.

  Lemma heap_rest (heap : list rpt) q heap' x : Permutation heap (q :: heap') -> In x (q :: heap') -> In x heap.
  Proof. intros P. apply Permutation_in. now symmetry. Qed.

  Lemma step_inv st v : inv st -> cover_step covers dim 1 tol r rows st v ->
    match v with
    | Going st' | Covered st' => inv st'
    | FailedQuery q => query r q /\ find_valid dim 1 tol r rows q = []
    | TimedOut => True
    end.
  Proof.
    intros (I1 & I2 & I3) S. destruct S; cbn [c_heap c_cover c_hulls] in *; auto.
    - split; [|split]; cbn; auto. intros q [<-|[<-|[]]]; now apply length_space_iff.
    - split; [|split]; cbn; auto. intros q' Hq'. apply I1. apply (heap_rest heap q heap' q'); cbn; auto.
    - split; auto. apply I1. apply (heap_rest heap q heap' q); cbn; auto.
    - assert (Q : query r q) by (apply I1; apply (heap_rest heap q heap' q); cbn; auto).
      destruct (add_rows_ok q (find_valid dim 1 tol r rows q) (h, []) (fun s => valid_plane q s Q) I2 ltac:(intros ? ? [])) as [H1' _].
      unfold add_rows in H1. rewrite H1 in H1'.
      split; [|split]; cbn; auto. intros q' Hq'. apply I1. apply (heap_rest heap q heap' q'); cbn; auto.
    - assert (Q : query r q) by (apply I1; apply (heap_rest heap q heap' q); cbn; auto).
      destruct (add_rows_ok q (find_valid dim 1 tol r rows q) (h, []) (fun s => valid_plane q s Q) I2 ltac:(intros ? ? [])) as [H1' H2'].
      unfold add_rows in H1. rewrite H1 in H1', H2'.
      split; [|split]; cbn [c_heap c_cover c_hulls]; auto.
      + intros q' Hq'. apply in_app_or in Hq'. destruct Hq' as [Hq'|Hq']; [|now apply length_space_iff; auto].
        apply I1. apply (heap_rest heap q heap' q'); cbn; auto.
      + intros p [Hp|(A & HA & Hp)]; auto. now apply (H2' A).
    - split; [|split]; auto.
  Qed.

  Lemma run_inv v : cover_run covers dim 1 tol r rows v ->
    match v with
    | Going st' | Covered st' => inv st'
    | FailedQuery q => query r q /\ find_valid dim 1 tol r rows q = []
    | TimedOut => True
    end.
  Proof. induction 1; [apply inv_init|]. now apply step_inv with (st := st). Qed.
End Sound.

(** ** C103: the sets of the cover *)

(** Every set recorded for a pair of samples, at any time in any run and whatever the geometry
    library answers, holds only queries that this very pair answers within the tolerance. *)
Theorem recorded_sets_sound covers dim tol r rows st i A B q :
  (1 <= dim)%nat -> 0 < tol -> 0 <= r < 1 -> rows_ok dim rows ->
  cover_run covers dim 1 tol r rows (Going st) -> lookup i (c_hulls st) = Some (A, B) -> A q ->
  exists s, In s rows /\ s_id s = i /\ serves dim 1 tol r s q.
Proof.
  intros D T P Ok Run L HA. destruct (run_inv covers dim tol r rows D T P Ok _ Run) as (_ & H & _).
  destruct (H _ _ _ L) as (s & I & Id & G & _). exists s. repeat split; auto;
    apply (serves_plane dim tol r s q D); auto; now apply Ok.
Qed.

(** The bounding box is exactly the queries whose start and goal are within the radius of the pair. *)
Theorem bounding_box_exact dim r s q : (1 <= dim)%nat -> 0 <= r -> length (s_in s) = dim -> length (s_out s) = dim ->
  u_2 s <= r -> v_2 s <= r ->
  (bounding_box r s q <-> dist (on_curve dim 1 (fst q)) (s_in s) <= r /\ dist (on_curve dim 1 (snd q)) (s_out s) <= r).
Proof.
  intros D P L1 L2 U V. rewrite box_exact by auto. unfold near, on_curve. rewrite !(dist_axis dim) by auto. rewrite !Rmult_1_l. tauto.
Qed.

(** After a query is processed the sets of all the pairs that answer it contain it. *)
Lemma shadow_self tol q : query_shadow tol q q. Proof. apply hull_sub. cbn. auto. Qed.

Lemma add_row_keeps covers tol r q i : forall l st A B, lookup i (fst st) = Some (A, B) -> A q -> B q ->
  exists A' B', lookup i (fst (fold_left (add_row covers tol r q) l st)) = Some (A', B') /\ A' q /\ B' q.
Proof.
  induction l as [|s l IH]; intros st A B L HA HB; cbn [fold_left]; [eauto|].
  destruct st as [h new]. cbn [fst] in L. unfold add_row at 2.
  destruct (lookup (s_id s) h) as [[A1 B1]|] eqn:E.
  - destruct (covers A1 q); [now apply (IH (h, new) A B)|].
    destruct ((fst i =? fst (s_id s)) && (snd i =? snd (s_id s)))%nat eqn:Ei.
    + apply ids_eq in Ei. subst i. rewrite L in E. injection E as <- <-.
      eapply IH; [cbn [fst]; rewrite lookup_cons, !Nat.eqb_refl; reflexivity| |exact HB].
      apply hull_sub. split; [now left|auto].
    + eapply IH; [cbn [fst]; rewrite lookup_cons, Ei; eassumption|auto|auto].
  - destruct ((fst i =? fst (s_id s)) && (snd i =? snd (s_id s)))%nat eqn:Ei.
    + apply ids_eq in Ei. subst i. congruence.
    + eapply IH; [cbn [fst]; rewrite lookup_cons, Ei; eassumption|auto|auto].
Qed.

Theorem processed_query_covered (covers : region -> rpt -> bool) dim tol r rows st h' new s q :
  (1 <= dim)%nat -> 0 < tol -> 0 <= r < 1 -> rows_ok dim rows ->
  (forall (A : region) p, covers A p = true -> A p) ->
  cover_run covers dim 1 tol r rows (Going st) -> query r q ->
  add_rows covers tol r q (c_hulls st) (find_valid dim 1 tol r rows q) = (h', new) ->
  In s rows -> serves dim 1 tol r s q ->
  exists A B, lookup (s_id s) h' = Some (A, B) /\ A q.
Proof.
  intros D T P Ok Cov Run Q E I S.
  destruct (run_inv covers dim tol r rows D T P Ok _ Run) as (_ & H & _).
  destruct (query_range r q ltac:(lra) Q) as [Q1 Q2].
  assert (Hs : In s (find_valid dim 1 tol r rows q)) by (apply find_valid_iff; auto).
  pose proof (fun s => valid_plane dim tol r rows D P Ok q s Q) as V.
  assert (Gen : forall l st0, (forall s, In s l -> In s rows /\ near r s q /\ adm tol s q) -> hulls_ok tol r rows (fst st0) -> new_ok tol r rows (snd st0) -> In s l ->
     exists A B, lookup (s_id s) (fst (fold_left (add_row covers tol r q) l st0)) = Some (A, B) /\ A q).
  { induction l as [|s1 l IH]; intros st0 Vl H0 N0 Il; [destruct Il|]. cbn [fold_left].
    destruct (Vl s1 ltac:(cbn; auto)) as (I1 & Nr & Ad).
    destruct (add_row_ok covers dim tol r rows T P Ok q st0 s1 I1 Nr Ad H0 N0) as [H1 N1].
    destruct Il as [->|Il]; [|apply IH; auto; intros; apply Vl; cbn; auto]. clear IH.
    assert (K : exists A B, lookup (s_id s) (fst (add_row covers tol r q st0 s)) = Some (A, B) /\ A q /\ B q).
    { destruct st0 as [h n0]. cbn [fst] in *. unfold add_row.
      destruct (lookup (s_id s) h) as [[A B]|] eqn:L.
      - destruct (H0 _ _ _ L) as (s' & I' & Id & G1 & G2). assert (s' = s) by (apply Ok; auto). subst s'.
        destruct (covers A q) eqn:C; cbn [fst].
        + exists A, B. rewrite L. split; [reflexivity|]. split; [now apply Cov|exact (proj2 (G2 q) Nr)].
        + rewrite lookup_cons, !Nat.eqb_refl. cbn. do 2 eexists. split; [reflexivity|]. split; [|exact (proj2 (G2 q) Nr)].
          apply hull_sub. split; [right; apply shadow_self|exact (proj2 (G2 q) Nr)].
      - cbn [fst]. rewrite lookup_cons, !Nat.eqb_refl. cbn. do 2 eexists. split; [reflexivity|].
        assert (Bq : bounding_box r s q).
        { destruct (near_offsets r s q ltac:(lra) Nr). now apply box_exact; [lra| | |]. }
        split; auto. destruct (covers _ q) eqn:C.
        + split; [now apply Cov|exact Bq].
        + apply hull_sub. split; auto. right. apply shadow_self. }
    destruct K as (A & B & L & HA & HB).
    destruct (add_row_keeps covers tol r q (s_id s) l _ A B L HA HB) as (A' & B' & L' & HA' & _). eauto. }
  destruct (Gen _ (c_hulls st, []) V H ltac:(intros ? ? []) Hs) as (A & B & L & HA).
  unfold add_rows in E. rewrite E in L. eauto.
Qed.

(** ** C104: the verdicts *)

(** Whatever the loop has covered is answered within the tolerance; in particular when it stops
    with "covered". *)
Theorem cover_sound covers dim tol r rows st q : (1 <= dim)%nat -> 0 < tol -> 0 <= r < 1 -> rows_ok dim rows ->
  cover_run covers dim 1 tol r rows (Covered st) \/ cover_run covers dim 1 tol r rows (Going st) ->
  c_cover st q -> answered dim 1 tol r rows q.
Proof.
  intros D T P Ok Run HA.
  assert (H : inv tol r rows st) by (destruct Run as [Run|Run]; exact (run_inv covers dim tol r rows D T P Ok _ Run)).
  destruct H as (_ & _ & H). destruct (H q HA) as (s & I & S). exists s. split; auto. apply serves_plane; auto; now apply Ok.
Qed.

(** A reported failing query is a query of the curve that no pair answers. *)
Theorem failed_query_honest covers dim tol r rows q : (1 <= dim)%nat -> 0 < tol -> 0 <= r < 1 -> rows_ok dim rows ->
  cover_run covers dim 1 tol r rows (FailedQuery q) -> query r q /\ ~ answered dim 1 tol r rows q.
Proof.
  intros D T P Ok Run. destruct (run_inv covers dim tol r rows D T P Ok _ Run) as [Q E]. split; auto.
  intros (s & I & S). destruct (query_range r q ltac:(lra) Q). assert (In s (find_valid dim 1 tol r rows q)) by (apply find_valid_iff; auto).
  rewrite E in H1. destruct H1.
Qed.

(** The queries to cover are exactly the queries of length at least the radius. *)
Theorem length_space_exact r q : 0 <= r < 1 -> (length_space r q <-> query r q).
Proof. apply length_space_iff. Qed.

(** The rows that pass the test at a query are exactly those that answer it. *)
Theorem valid_rows_exact dim tol r rows s q : (1 <= dim)%nat -> 0 <= r -> rows_ok dim rows -> query r q ->
  (In s (find_valid dim 1 tol r rows q) <-> In s rows /\ serves dim 1 tol r s q).
Proof. intros D P Ok Q. destruct (query_range r q P Q). now apply find_valid_iff. Qed.

(** ** C105: the inner approximation *)

(** the tolerance test with the L1 norm in place of the Euclidean one *)
Definition l1_adm_spec (tol : R) (s : sol) (q : rpt) : Prop :=
  s_dist s + (Rabs (fst q - u_1 s) + u_2 s) + (Rabs (snd q - v_1 s) + v_2 s) <= (1 + tol) * (snd q - fst q).

Lemma abs_convex x y t : 0 <= t <= 1 -> Rabs (x + t * (y - x)) <= Rabs x + t * (Rabs y - Rabs x).
Proof. intro T. pose proof (hyp_convex x y 0 t T) as H. now rewrite !hyp_abs in H. Qed.
Lemma l1_convex tol s : convex (l1_adm_spec tol s).
Proof.
  intros p q t T Hp Hq. unfold l1_adm_spec in *. cbn [fst snd].
  replace (fst p + t * (fst q - fst p) - u_1 s) with ((fst p - u_1 s) + t * ((fst q - u_1 s) - (fst p - u_1 s))) by ring.
  replace (snd p + t * (snd q - snd p) - v_1 s) with ((snd p - v_1 s) + t * ((snd q - v_1 s) - (snd p - v_1 s))) by ring.
  pose proof (abs_convex (fst p - u_1 s) (fst q - u_1 s) t T).
  pose proof (abs_convex (snd p - v_1 s) (snd q - v_1 s) t T). nra.
Qed.
Lemma l1_ray tol s q a b k : 0 < tol -> 0 <= k -> l1_adm_spec tol s q ->
  (a = - (k * (2 + tol)) /\ b = - (k * tol)) \/ (a = k * tol /\ b = k * (2 + tol)) ->
  l1_adm_spec tol s (fst q + a, snd q + b).
Proof.
  intros T K A H. unfold l1_adm_spec in *. cbn [fst snd].
  replace (fst q + a - u_1 s) with ((fst q - u_1 s) + a) by ring. replace (snd q + b - v_1 s) with ((snd q - v_1 s) + b) by ring.
  pose proof (Rabs_triang (fst q - u_1 s) a). pose proof (Rabs_triang (snd q - v_1 s) b).
  assert (0 <= k * (2 + tol)) by nra. assert (0 <= k * tol) by nra.
  assert (Rabs a + Rabs b <= 2 * k * (1 + tol)) by (destruct H as [[-> ->]|[-> ->]]; rewrite ?Rabs_Ropp, !Rabs_pos_eq by lra; lra).
  destruct H as [[-> ->]|[-> ->]]; nra.
Qed.

(** When the projections of the pair are not themselves within the tolerance the quadrilateral is
    exactly the queries that pass the L1 test, cut at a length; in the other case it holds only
    such queries. *)
Theorem inner_approx_exact_partial tol s q : 0 < tol ->
  (inner_approx tol s q -> l1_adm_spec tol s q) /\
  ((1 + tol) * (v_1 s - u_1 s) < s_dist s + u_2 s + v_2 s ->
   (inner_approx tol s q <-> l1_adm_spec tol s q /\
      snd q - fst q <= (s_dist s + u_2 s + v_2 s - (v_1 s - u_1 s)) / tol + 4 / norm [2 + tol; tol])).
Proof.
  intros T. assert (Cp := ray_len_pos tol T). unfold inner_approx. destruct (Rle_dec _ _) as [H|H].
  - split; [|lra].
    set (D := (1 + tol) * (v_1 s - u_1 s) - (s_dist s + u_2 s + v_2 s)).
    assert (Dp : 0 <= D / (tol + 2)) by (apply Rmult_le_pos; [unfold D; lra|apply Rlt_le, Rinv_0_lt_compat; lra]).
    replace ((u_2 s + (1 + tol) * u_1 s + v_2 s + s_dist s + v_1 s) / (tol + 2)) with (v_1 s - D / (tol + 2)) by (unfold D; field; lra).
    replace ((u_2 s + v_2 s + s_dist s - (1 + tol) * v_1 s - u_1 s) / - (2 + tol)) with (u_1 s + D / (tol + 2)) by (unfold D; field; lra).
    assert (E : D = (tol + 2) * (D / (tol + 2))) by (field; lra).
    assert (A1 : l1_adm_spec tol s (u_1 s, v_1 s - D / (tol + 2))).
    { unfold l1_adm_spec. cbn [fst snd]. replace (u_1 s - u_1 s) with 0 by ring. replace (v_1 s - D / (tol + 2) - v_1 s) with (- (D / (tol + 2))) by ring.
      rewrite Rabs_R0, Rabs_Ropp, Rabs_pos_eq by lra. unfold D in *. nra. }
    assert (A2 : l1_adm_spec tol s (u_1 s + D / (tol + 2), v_1 s)).
    { unfold l1_adm_spec. cbn [fst snd]. replace (v_1 s - v_1 s) with 0 by ring. replace (u_1 s + D / (tol + 2) - u_1 s) with (D / (tol + 2)) by ring.
      rewrite Rabs_R0, Rabs_pos_eq by lra. unfold D in *. nra. }
    rewrite ray1_eq, ray2_eq. apply hull_in; [apply l1_convex|]. cbn [In]. intros x [<-|[<-|[<-|[<-|[]]]]]; auto;
      apply l1_ray with (k := ray_len tol); auto; lra.
  - set (D := s_dist s + u_2 s + v_2 s - (1 + tol) * (v_1 s - u_1 s)).
    assert (Dp : 0 <= D / tol) by (apply Rmult_le_pos; [unfold D; lra|apply Rlt_le, Rinv_0_lt_compat; lra]).
    replace ((u_2 s + (1 + tol) * u_1 s + v_2 s + s_dist s - v_1 s) / tol) with (v_1 s + D / tol) by (unfold D; field; lra).
    replace ((u_2 s + v_2 s + s_dist s - (1 + tol) * v_1 s + u_1 s) / - tol) with (u_1 s - D / tol) by (unfold D; field; lra).
    replace ((s_dist s + u_2 s + v_2 s - (v_1 s - u_1 s)) / tol) with (v_1 s - u_1 s + D / tol) by (unfold D; field; lra).
    replace (4 / norm [2 + tol; tol]) with (2 * ray_len tol) by (unfold ray_len; field; apply Rgt_not_eq, ray_norm, T).
    assert (E : D = tol * (D / tol)) by (field; lra).
    set (d := D / tol) in *. rewrite ray1_eq, ray2_eq. set (c := ray_len tol) in *.
    assert (A1 : l1_adm_spec tol s (u_1 s, v_1 s + d)).
    { unfold l1_adm_spec. cbn [fst snd]. replace (u_1 s - u_1 s) with 0 by ring. replace (v_1 s + d - v_1 s) with d by ring.
      rewrite Rabs_R0, Rabs_pos_eq by lra. unfold D in *. nra. }
    assert (A2 : l1_adm_spec tol s (u_1 s - d, v_1 s)).
    { unfold l1_adm_spec. cbn [fst snd]. replace (v_1 s - v_1 s) with 0 by ring. replace (u_1 s - d - u_1 s) with (- d) by ring.
      rewrite Rabs_R0, Rabs_Ropp, Rabs_pos_eq by lra. unfold D in *. nra. }
    assert (Fwd : polygon [padd (u_1 s, v_1 s + d) (c * tol, c * (2 + tol)); (u_1 s, v_1 s + d); (u_1 s - d, v_1 s);
                           padd (u_1 s - d, v_1 s) (- (c * (2 + tol)), - (c * tol))] q ->
                  l1_adm_spec tol s q /\ snd q - fst q <= v_1 s - u_1 s + d + 2 * c).
    { apply (hull_in (fun q => l1_adm_spec tol s q /\ snd q - fst q <= v_1 s - u_1 s + d + 2 * c)).
      - intros x y t Ht [X1 X2] [Y1 Y2]. split; [now apply l1_convex|]. cbn [fst snd]. nra.
      - cbn [In]. intros x [<-|[<-|[<-|[<-|[]]]]]; (split; [auto; apply l1_ray with (k := c); auto; lra|cbn; lra]). }
    split; [intro Hq; now apply Fwd|]. intros _. split; [exact Fwd|]. intros [L Len].
    unfold l1_adm_spec in L. set (m := snd q - fst q) in *. set (k := (m - (v_1 s - u_1 s) - d) / 2).
    pose proof (Rle_abs (fst q - u_1 s)) as B1. pose proof (Rle_abs (snd q - v_1 s)) as B2.
    pose proof (Rle_abs (- (fst q - u_1 s))) as B3. pose proof (Rle_abs (- (snd q - v_1 s))) as B4. rewrite Rabs_Ropp in B3, B4.
    assert (Kp : 0 <= k). { unfold k, m, D in *. assert (0 <= tol * (m - (v_1 s - u_1 s) - d)) by (unfold m; nra). unfold m in *. nra. }
    assert (Kc : k <= c) by (unfold k; lra).
    assert (R1 : fst q <= u_1 s + k * tol) by (unfold k, m, D in *; nra).
    assert (R2 : u_1 s - d - k * (2 + tol) <= fst q) by (unfold k, m, D in *; nra).
    intros C HC HA.
    assert (Kt : 0 <= k / c <= 1).
    { split; [apply Rmult_le_pos; [auto|apply Rlt_le, Rinv_0_lt_compat; auto]|].
      apply Rmult_le_reg_r with c; auto. unfold Rdiv. rewrite Rmult_assoc, Rinv_l; lra. }
    assert (Kk : k = k / c * c) by (field; lra).
    assert (P1 : C (u_1 s + k * tol, v_1 s + d + k * (2 + tol))).
    { pose proof (HC (u_1 s, v_1 s + d) (padd (u_1 s, v_1 s + d) (c * tol, c * (2 + tol))) (k / c) Kt) as G.
      unfold padd in G, HA. cbn [fst snd] in G, HA.
      replace (u_1 s + k * tol) with (u_1 s + k / c * (u_1 s + c * tol - u_1 s)) by (rewrite Kk at 2; ring).
      replace (v_1 s + d + k * (2 + tol)) with (v_1 s + d + k / c * (v_1 s + d + c * (2 + tol) - (v_1 s + d))) by (rewrite Kk at 2; ring).
      apply G; apply HA; cbn; auto. }
    assert (P2 : C (u_1 s - d - k * (2 + tol), v_1 s - k * tol)).
    { pose proof (HC (u_1 s - d, v_1 s) (padd (u_1 s - d, v_1 s) (- (c * (2 + tol)), - (c * tol))) (k / c) Kt) as G.
      unfold padd in G, HA. cbn [fst snd] in G, HA.
      replace (u_1 s - d - k * (2 + tol)) with (u_1 s - d + k / c * (u_1 s - d + - (c * (2 + tol)) - (u_1 s - d))) by (rewrite Kk at 2; ring).
      replace (v_1 s - k * tol) with (v_1 s + k / c * (v_1 s + - (c * tol) - v_1 s)) by (rewrite Kk at 2; ring).
      apply G; apply HA; cbn; auto 6. }
    set (lo := u_1 s - d - k * (2 + tol)) in *. set (hi := u_1 s + k * tol) in *.
    assert (K2 : 2 * k = m - (v_1 s - u_1 s) - d) by (unfold k; lra).
    assert (Sq : snd q = fst q + m) by (unfold m; ring). clearbody k m.
    assert (Wd : hi - lo = d + k * (2 + 2 * tol)) by (unfold hi, lo; ring).
    destruct (Req_dec (hi - lo) 0) as [Z|Z].
    + assert (fst q = hi) by lra. replace q with (hi, v_1 s + d + k * (2 + tol)); auto.
      rewrite (surjective_pairing q). f_equal; auto. unfold hi in *. lra.
    + assert (Wp : 0 < hi - lo) by lra. set (w := (fst q - lo) / (hi - lo)).
      assert (W : 0 <= w <= 1).
      { unfold w. split; [apply Rmult_le_pos; [lra|apply Rlt_le, Rinv_0_lt_compat; lra]|].
        apply Rmult_le_reg_r with (hi - lo); [lra|]. unfold Rdiv. rewrite Rmult_assoc, Rinv_l; lra. }
      assert (We : w * (hi - lo) = fst q - lo) by (unfold w; field; lra).
      pose proof (HC _ _ w W P2 P1) as G. cbn [fst snd] in G.
      replace (v_1 s - k * tol + w * (v_1 s + d + k * (2 + tol) - (v_1 s - k * tol))) with (v_1 s - k * tol + w * (hi - lo)) in G by (rewrite Wd; ring).
      rewrite We in G. replace (lo + (fst q - lo)) with (fst q) in G by ring.
      replace q with (fst q, v_1 s - k * tol + (fst q - lo)); auto.
      transitivity (fst q, snd q); [f_equal; unfold lo in *; lra|symmetry; apply surjective_pairing].
Qed.

(** In the other case the quadrilateral is cut short, since line 202 takes the second ray from the
    first corner: a query that passes the L1 test, is no longer than the distance between the
    projections and is within the radius is outside it. *)
Theorem inner_approx_refuted : exists tol r s q,
  0 < tol /\ 0 < r < 1 /\ query r q /\ serves 2 1 tol r s q /\
  s_dist s + u_2 s + v_2 s <= (1 + tol) * (v_1 s - u_1 s) /\
  l1_adm_spec tol s q /\ snd q - fst q <= v_1 s - u_1 s /\ ~ inner_approx tol s q.
Proof.
  pose (s := {| s_id := (0, 1)%nat; s_in := [0; 0]; s_out := [1/2; 0]; s_dist := 1/2 |}).
  assert (N0 : norm [0] = 0) by (unfold norm; cbn; replace (0 * 0 + 0) with 0 by ring; apply sqrt_0).
  assert (U1 : u_1 s = 0) by reflexivity. assert (V1 : v_1 s = 1/2) by reflexivity.
  assert (U2 : u_2 s = 0) by exact N0. assert (V2 : v_2 s = 0) by exact N0. assert (Ds : s_dist s = 1/2) by reflexivity.
  exists 1, (1/4), s, (1/5, 3/5). cbn [fst snd].
  assert (L : l1_adm_spec 1 s (1/5, 3/5)).
  { unfold l1_adm_spec. rewrite U1, V1, U2, V2, Ds. cbn [fst snd]. rewrite !Rabs_pos_eq by lra. lra. }
  assert (Sv : serves 2 1 1 (1/4) s (1/5, 3/5)).
  { unfold serves, on_curve. rewrite !(dist_axis 2) by (cbn; auto with arith). fold (u_1 s) (u_2 s) (v_1 s) (v_2 s).
    rewrite U1, V1, U2, V2, Ds, !hyp_abs. cbn [fst snd]. rewrite !Rabs_pos_eq by lra. lra. }
  split; [lra|]. split; [lra|]. split; [unfold query; cbn; lra|]. split; [exact Sv|].
  split; [rewrite U2, V2, V1, U1, Ds; lra|]. split; [exact L|]. split; [rewrite V1, U1; lra|].
  unfold inner_approx. destruct (Rle_dec _ _) as [H|H]; [|rewrite U2, V2, V1, U1, Ds in H; lra].
  rewrite U1, U2, V1, V2, Ds, ray1_eq, ray2_eq. assert (Cp := ray_len_pos 1 ltac:(lra)). set (c := ray_len 1) in *.
  replace ((0 + (1 + 1) * 0 + 0 + 1/2 + 1/2) / (1 + 2)) with (1/3) by field.
  replace ((0 + 0 + 1/2 - (1 + 1) * (1/2) - 0) / - (2 + 1)) with (1/6) by field.
  assert (Cc : 0 < c * c) by nra.
  intro I. apply (hull_in (fun x => 0 <= (c - 1/6) * (snd x - 1/2) - (3 * c - 1/6) * (fst x - 1/6))) in I; [cbn [fst snd] in I; nra| |].
  - intros x y t Ht X Y. cbn [fst snd]. nra.
  - unfold padd. cbn [In]. intros x [<-|[<-|[<-|[<-|[]]]]]; cbn [fst snd]; nra.
Qed.

(** ** C106: environments of other lengths *)

(** In an environment longer than 1 + tol no query passes the test, whatever the graph. *)
Theorem long_environment_fails dim len tol r rows q : (1 <= dim)%nat -> 0 <= tol -> 1 + tol < len ->
  (forall s, In s rows -> length (s_in s) = dim /\ length (s_out s) = dim /\ dist (s_in s) (s_out s) <= s_dist s) ->
  0 <= fst q -> fst q < snd q -> snd q <= 1 -> find_valid dim len tol r rows q = [].
Proof.
  intros D T L Ok Q1 Q2 Q3. destruct (find_valid dim len tol r rows q) as [|s l] eqn:E; auto. exfalso.
  assert (I : In s (find_valid dim len tol r rows q)) by (rewrite E; cbn; auto).
  unfold find_valid, query_all_connections in I. rewrite filter_In, filter_In in I. destruct I as [[I _] V].
  destruct (Ok s I) as (L1 & L2 & M). unfold valid_pair in V. apply Rleb_iff in V.
  rewrite !curve_on in V by lra. rewrite !norm_vzip in V by (unfold on_curve; cbn; rewrite repeat_length; lia).
  fold (dist (on_curve dim len (fst q)) (s_in s)) in V. fold (dist (on_curve dim len (snd q)) (s_out s)) in V.
  assert (G : len * (snd q - fst q) <= s_dist s + dist (on_curve dim len (fst q)) (s_in s) + dist (on_curve dim len (snd q)) (s_out s)).
  { unfold on_curve. rewrite !(dist_axis dim) by auto.
    pose proof (Rle_abs (hd 0 (s_in s) - len * fst q)). pose proof (Rle_abs (len * snd q - hd 0 (s_out s))).
    assert (A : forall x c, Rabs x <= hyp x c).
    { intros x c. rewrite <- hyp_abs. unfold hyp. apply sqrt_le_1_alt. nra. }
    pose proof (A (len * fst q - hd 0 (s_in s)) (norm (tl (s_in s)))) as A1. rewrite Rabs_minus_sym in A1.
    pose proof (A (len * snd q - hd 0 (s_out s)) (norm (tl (s_out s)))) as A2.
    assert (A3 : hd 0 (s_out s) - hd 0 (s_in s) <= dist (s_in s) (s_out s)).
    { destruct (s_in s) as [|a p] eqn:Ep; [cbn in L1; lia|]. destruct (s_out s) as [|b p'] eqn:Ep'; [cbn in L2; lia|].
      pose proof (dist_coord (a :: p) (b :: p') 0 _ ltac:(cbn in *; lia) ltac:(cbn; lia) (Rle_refl _)) as K. cbn [nth hd] in *. lra. }
    lra. }
  nra.
Qed.

(** Two rows that show that the test compares lengths in different units unless the environment has
    length 1: in a longer one a row that answers the query within the tolerance is rejected, in a
    shorter one a row that does not is accepted. *)
Theorem length_scaling_refuted : exists len1 len2 s q,
  (serves 2 len1 (1/2) 1 s q /\ find_valid 2 len1 (1/2) 1 [s] q = []) /\
  (~ serves 2 len2 (1/2) 1 s q /\ find_valid 2 len2 (1/2) 1 [s] q = [s]) /\ query (1/2) q.
Proof.
  pose (s := {| s_id := (0, 1)%nat; s_in := [0; 0]; s_out := [1; 0]; s_dist := 1 |}).
  assert (N0 : norm [0] = 0) by (unfold norm; cbn; replace (0 * 0 + 0) with 0 by ring; apply sqrt_0).
  exists 2, (3/4), s, (0, 1).
  assert (H1 : forall len, dist (on_curve 2 len 0) [0; 0] = Rabs 0).
  { intro len. unfold on_curve. rewrite (dist_axis 2) by (cbn; auto with arith). cbn [hd tl]. rewrite N0, hyp_abs. f_equal. ring. }
  assert (H2 : forall len, dist (on_curve 2 len 1) [1; 0] = Rabs (len - 1)).
  { intro len. unfold on_curve. rewrite (dist_axis 2) by (cbn; auto with arith). cbn [hd tl]. rewrite N0, hyp_abs. f_equal. ring. }
  assert (F : forall len, find_valid 2 len (1/2) 1 [s] (0, 1) = [s] <->
    dist (on_curve 2 len 0) [0; 0] <= 1 /\ dist (on_curve 2 len 1) [1; 0] <= 1 /\
    1 + dist (on_curve 2 len 0) [0; 0] + dist (on_curve 2 len 1) [1; 0] <= (1 - 0) * (1 + 1/2)).
  { intro len. unfold find_valid, query_all_connections. cbn [filter s_in s_out s_dist s fst snd].
    rewrite !curve_on by lra. rewrite !norm_vzip by reflexivity.
    fold (dist (on_curve 2 len 0) [0; 0]) (dist (on_curve 2 len 1) [1; 0]).
    destruct (Rleb (dist (on_curve 2 len 0) [0; 0]) 1) eqn:E1, (Rleb (dist (on_curve 2 len 1) [1; 0]) 1) eqn:E2; cbn [andb filter].
    - rewrite Rleb_iff in E1, E2. unfold valid_pair. cbn [s_in s_out s_dist fst snd]. rewrite !curve_on by lra. rewrite !norm_vzip by reflexivity.
      fold (dist (on_curve 2 len 0) [0; 0]) (dist (on_curve 2 len 1) [1; 0]).
      destruct (Rleb _ ((1 - 0) * (1 + 1/2))) eqn:E3; [apply Rleb_iff in E3; tauto|]. split; [discriminate|].
      intros (_ & _ & H). apply not_true_iff_false in E3. exfalso. apply E3, Rleb_iff. exact H.
    - split; [discriminate|]. intros (_ & H & _). apply not_true_iff_false in E2. exfalso. apply E2, Rleb_iff. exact H.
    - split; [discriminate|]. intros (H & _). apply not_true_iff_false in E1. exfalso. apply E1, Rleb_iff. exact H.
    - split; [discriminate|]. intros (H & _). apply not_true_iff_false in E1. exfalso. apply E1, Rleb_iff. exact H. }
  split; [split|split; [split|]].
  - unfold serves. cbn [s_in s_out s_dist s fst snd]. rewrite H1, H2, Rabs_R0, Rabs_pos_eq by lra. lra.
  - apply long_environment_fails; cbn [fst snd]; try lra; auto with arith. intros x [<-|[]]. cbn [s_in s_out s_dist s]. repeat split; auto.
    unfold dist. cbn. replace ((0 - 1) * (0 - 1) + ((0 - 0) * (0 - 0) + 0)) with (1 * 1) by ring. rewrite sqrt_square; lra.
  - unfold serves. cbn [s_in s_out s_dist s fst snd]. rewrite H1, H2, Rabs_R0. replace (3/4 - 1) with (- (1/4)) by lra. rewrite Rabs_Ropp, Rabs_pos_eq by lra. lra.
  - apply F. rewrite H1, H2, Rabs_R0. replace (3/4 - 1) with (- (1/4)) by lra. rewrite Rabs_Ropp, Rabs_pos_eq by lra. lra.
  - unfold query. cbn. lra.
Qed.

(** ** Examples *)

(** one pair of samples at the ends of the curve; processing the query (0, 1) covers (1/6, 5/6) *)
Definition ends : sol := {| s_id := (0, 1)%nat; s_in := [0; 0]; s_out := [1; 0]; s_dist := 1 |}.
Definition never : region -> rpt -> bool := fun _ _ => false.

Lemma ends_plane : u_1 ends = 0 /\ u_2 ends = 0 /\ v_1 ends = 1 /\ v_2 ends = 0.
Proof.
  assert (N0 : norm [0] = 0) by (unfold norm; cbn; replace (0 * 0 + 0) with 0 by ring; apply sqrt_0).
  repeat split; exact N0.
Qed.
Example ends_ok : rows_ok 2 [ends].
Proof. split; [intros s [<-|[]]; auto|intros s s' [<-|[]] [<-|[]]; auto]. Qed.
Example ends_serve : serves 2 1 1 (1/2) ends (0, 1) /\ serves 2 1 1 (1/2) ends (1/6, 5/6).
Proof.
  destruct ends_plane as (U1 & U2 & V1 & V2).
  split; (apply serves_plane; [auto with arith|reflexivity|reflexivity|]); unfold near, adm; rewrite U1, U2, V1, V2, !hyp_abs;
    cbn [fst snd s_dist ends]; rewrite ?(Rabs_left1 (5/6 - 1)), ?Rabs_pos_eq by lra; lra.
Qed.
Example ends_find : find_valid 2 1 1 (1/2) [ends] (0, 1) = [ends].
Proof.
  assert (I : In ends (find_valid 2 1 1 (1/2) [ends] (0, 1))).
  { apply valid_rows_exact; [auto with arith|lra|apply ends_ok|unfold query; cbn; lra|]. split; [cbn; auto|apply ends_serve]. }
  unfold find_valid, query_all_connections in *. cbn [filter] in *.
  destruct (_ && _) in *; cbn [filter] in *; [destruct (valid_pair _ _ _ _ _) in *|]; auto; destruct I.
Qed.

(** a run that pops (0, 1), records a set for the pair and covers (1/6, 5/6) *)
Example ends_run : exists st A B, cover_run never 2 1 1 (1/2) [ends] (Going st) /\
  lookup (0, 1)%nat (c_hulls st) = Some (A, B) /\ A (1/6, 5/6) /\ c_cover st (1/6, 5/6).
Proof.
  destruct ends_plane as (U1 & U2 & V1 & V2).
  set (A := convex_hull (inter (union (inner_approx 1 ends) (query_shadow 1 (0, 1))) (bounding_box (1/2) ends))).
  assert (HA : A (1/6, 5/6)).
  { apply hull_sub. split.
    - left. unfold inner_approx. rewrite U1, U2, V1, V2. cbn [s_dist ends]. destruct (Rle_dec _ _) as [H|H]; [|lra].
      replace ((0 + (1 + 1) * 0 + 0 + 1 + 1) / (1 + 2)) with (2/3) by field.
      replace ((0 + 0 + 1 - (1 + 1) * 1 - 0) / - (2 + 1)) with (1/3) by field.
      intros C HC HI. pose proof (HC (0, 2/3) (1/3, 1) (1/2) ltac:(lra) (HI (0, 2/3) ltac:(cbn; auto)) (HI (1/3, 1) ltac:(cbn; auto))) as G. cbn [fst snd] in G.
      replace (1/6, 5/6) with (0 + 1/2 * (1/3 - 0), 2/3 + 1/2 * (1 - 2/3)); auto. f_equal; field.
    - apply box_exact; [lra|lra|lra|]. unfold near. rewrite U1, U2, V1, V2, !hyp_abs. cbn [fst snd].
      rewrite (Rabs_left1 (5/6 - 1)), Rabs_pos_eq by lra. lra. }
  pose (h := [((0, 1)%nat, (A, bounding_box (1/2) ends))]).
  exists {| c_heap := [(0, 1/2); (1 - 1/2, 1)] ++ []; c_cover := union empty (unary_union [A]); c_hulls := h |}, A, (bounding_box (1/2) ends).
  split; [|split; [reflexivity|split; [exact HA|right; exists A; cbn; auto]]].
  eapply run_step; [apply run_start|]. apply cv_grow with (q := (0, 1)).
  - apply perm_swap.
  - rewrite ends_find. discriminate.
  - rewrite ends_find. reflexivity.
  - intros p [].
Qed.

(** with no pair in the graph the first query popped is reported *)
Example empty_fails : cover_run never 2 1 1 (1/2) [] (FailedQuery (0, 1/2)).
Proof. eapply run_step; [apply run_start|]. eapply cv_fail; [apply Permutation_refl|reflexivity]. Qed.

(** a pair whose projections are not within the tolerance: the exact case of the approximation *)
Example outer_pair : exists q, inner_approx 1 {| s_id := (0, 1)%nat; s_in := [1/4; 1/5]; s_out := [1/2; 1/5]; s_dist := 1/4 |} q.
Proof.
  set (s := {| s_id := _; s_in := _; s_out := _; s_dist := _ |}).
  exists (u_1 s, (u_2 s + (1 + 1) * u_1 s + v_2 s + s_dist s - v_1 s) / 1).
  assert (N : norm [1/5] = 1/5) by (unfold norm; cbn; replace (1/5 * (1/5) + 0) with (1/5 * (1/5)) by ring; apply sqrt_square; lra).
  unfold inner_approx. destruct (Rle_dec _ _) as [H|H]; [|apply hull_sub; cbn; auto].
  exfalso. unfold u_2, v_2, u_1, v_1, s in H. cbn [s_in s_out s_dist hd tl] in H. rewrite N in H. lra.
Qed.

Print Assumptions recorded_sets_sound.
Print Assumptions bounding_box_exact.
Print Assumptions processed_query_covered.
Print Assumptions cover_sound.
Print Assumptions failed_query_honest.
Print Assumptions length_space_exact.
Print Assumptions valid_rows_exact.
Print Assumptions inner_approx_exact_partial.
Print Assumptions inner_approx_refuted.
Print Assumptions long_environment_fails.
Print Assumptions length_scaling_refuted.
