(** Properties of the box-box separating-axis test
    (exps/tamp_environment/kuka_carry/separating_axis.py). *)
From Coq Require Import Reals List Bool Arith Lra Lia Psatz.
From Verif Require Import Plane Space Sat_Model Sat_Props Box_Model.
Import ListNotations.
Open Scope R_scope.

(** ** Specification *)
(** points of an oriented box: centre plus a combination of the orientation's columns with
    coefficients up to the half extents *)
Definition in_box (b : box) (p : vec) : Prop :=
  exists t : vec, (forall j, (j < 3)%nat -> -1 <= t j <= 1) /\
    forall i, (i < 3)%nat -> p i = center b i + (orient b i 0%nat * (half b 0%nat * t 0%nat) + orient b i 1%nat * (half b 1%nat * t 1%nat) + orient b i 2%nat * (half b 2%nat * t 2%nat)).
Definition boxes_meet (b1 b2 : box) : Prop := exists p, in_box b1 p /\ in_box b2 p.

Definition orthonormal (b : box) : Prop :=
  forall i j, (i < 3)%nat -> (j < 3)%nat -> dot3 (column b i) (column b j) = if Nat.eq_dec i j then 1 else 0.
Definition extents_ok (b : box) : Prop := forall j, (j < 3)%nat -> 0 <= half b j.
(** the orientation mixes only coordinates with equal half extents: unrotated boxes, cubes, and
    rotations about an axis of boxes square in the other two directions *)
Definition aligned (b : box) : Prop :=
  forall i j, (i < 3)%nat -> (j < 3)%nat -> orient b i j <> 0 -> half b i = half b j.
Definition proper_box (b : box) : Prop := orthonormal b /\ extents_ok b /\ aligned b.

(** ** Projections *)
Lemma Rltb_iff x y : Rltb x y = true <-> x < y.
Proof. unfold Rltb. destruct (Rlt_dec x y); split; auto; discriminate. Qed.

Lemma box_test_iff b1 b2 : box_test b1 b2 = true <-> forall u, In u (box_axes b1 b2) -> not_separated (box_vertices b1) (box_vertices b2) u = true.
Proof.
  unfold box_test. set (f := not_separated _ _).
  assert (G : forall l acc, fold_left (fun s u => s && f u) l acc = acc && forallb f l).
  { induction l as [|u l IH]; intro acc; simpl; [now rewrite andb_true_r|]. now rewrite IH, andb_assoc. }
  rewrite G, andb_true_l. apply forallb_forall.
Qed.

Definition ends (vs : list vec) (u : vec) (lo hi : vec) : Prop :=
  In lo vs /\ In hi vs /\ forall v, In v vs -> dot3 lo u <= dot3 v u <= dot3 hi u.
Lemma ends_exist vs u : vs <> [] -> exists lo hi, ends vs u lo hi /\ lmin (map (fun v => dot3 v u) vs) = dot3 lo u /\ lmax (map (fun v => dot3 v u) vs) = dot3 hi u.
Proof.
  intro N. assert (N' : map (fun v => dot3 v u) vs <> []) by (destruct vs; [congruence|discriminate]).
  pose proof (lmin_In _ N') as I. pose proof (lmax_In _ N') as J.
  apply in_map_iff in I as (lo & El & Hl). apply in_map_iff in J as (hi & Eh & Hh). cbn beta in *.
  exists lo, hi. split; auto. split; auto. split; auto. intros v Hv. rewrite El, Eh. split.
  - apply lmin_le. now apply (in_map (fun v => dot3 v u)).
  - apply lmax_ge. now apply (in_map (fun v => dot3 v u)).
Qed.

Lemma vertices_nonempty b : box_vertices b <> [].
Proof. discriminate. Qed.

(** corner with given signs *)
Definition corner (b : box) (s : vec) : vec := fun i =>
  center b i + (orient b i 0%nat * (half b 0%nat * s 0%nat) + orient b i 1%nat * (half b 1%nat * s 1%nat) + orient b i 2%nat * (half b 2%nat * s 2%nat)).
Lemma vertex_corner b s i : aligned b -> (i < 3)%nat -> box_vertex b s i = corner b s i.
Proof.
  intros A Hi. unfold box_vertex, corner.
  assert (E : forall j, (j < 3)%nat -> half b i * s j * orient b i j = orient b i j * (half b j * s j)).
  { intros j Hj. destruct (Req_dec (orient b i j) 0) as [Z|N]; [rewrite Z; ring|]. rewrite (A i j Hi Hj N). ring. }
  rewrite !E by lia. reflexivity.
Qed.

Lemma sign_bounds s : In s sign_rows -> forall j, (j < 3)%nat -> -1 <= s j <= 1.
Proof.
  intros H j Hj. unfold sign_rows in H. cbn [map In] in H.
  assert (Cj : (j = 0 \/ j = 1 \/ j = 2)%nat) by lia.
  destruct H as [<-|[<-|[<-|[<-|[<-|[<-|[<-|[<-|[]]]]]]]]]; destruct Cj as [->|[->| ->]]; simpl; lra.
Qed.
Lemma sign_all (a b c : bool) : exists s, In s sign_rows /\ s 0%nat = (if a then 1 else -1) /\ s 1%nat = (if b then 1 else -1) /\ s 2%nat = (if c then 1 else -1).
Proof.
  unfold sign_rows. set (f := fun (s : list R) c => nth c s 0).
  exists (f [if a then 1 else -1; if b then 1 else -1; if c then 1 else -1]). split; [|auto].
  apply in_map. destruct a, b, c; simpl; tauto.
Qed.

Lemma vertex_in_box b v : aligned b -> In v (box_vertices b) -> in_box b v.
Proof.
  intros A H. apply in_map_iff in H as (s & <- & Hs). exists s. split; [now apply sign_bounds|].
  intros i Hi. now rewrite vertex_corner.
Qed.

Lemma dot3_ext u v w : (forall i, (i < 3)%nat -> u i = v i) -> dot3 u w = dot3 v w.
Proof. intro H. unfold dot3. now rewrite !H by lia. Qed.

Lemma corner_dot b s u : dot3 (corner b s) u = dot3 (center b) u +
  (dot3 (column b 0) u * half b 0%nat * s 0%nat + dot3 (column b 1) u * half b 1%nat * s 1%nat + dot3 (column b 2) u * half b 2%nat * s 2%nat).
Proof. unfold dot3, corner, column. ring. Qed.

Definition nonneg (x : R) : bool := if Rle_dec 0 x then true else false.
Lemma sign_best x t : -1 <= t <= 1 -> x * t <= x * (if nonneg x then 1 else -1) .
Proof. unfold nonneg. destruct (Rle_dec 0 x); intros; nra. Qed.
Lemma sign_worst x t : -1 <= t <= 1 -> x * (if negb (nonneg x) then 1 else -1) <= x * t.
Proof. unfold nonneg. destruct (Rle_dec 0 x); simpl; intros; nra. Qed.

Lemma box_reach b p u : aligned b -> in_box b p ->
  (exists v, In v (box_vertices b) /\ dot3 v u <= dot3 p u) /\ (exists v, In v (box_vertices b) /\ dot3 p u <= dot3 v u).
Proof.
  intros A (t & Ht & Hp).
  assert (Ep : dot3 p u = dot3 (corner b t) u) by (apply dot3_ext; auto).
  set (x j := dot3 (column b j) u * half b j).
  assert (Ev : forall s, dot3 (box_vertex b s) u = dot3 (corner b s) u) by (intro s; apply dot3_ext; intros; now apply vertex_corner).
  split.
  - destruct (sign_all (negb (nonneg (x 0%nat))) (negb (nonneg (x 1%nat))) (negb (nonneg (x 2%nat)))) as (s & Hs & E0 & E1 & E2).
    exists (box_vertex b s). split; [now apply in_map|]. rewrite Ep, Ev, !corner_dot, E0, E1, E2.
    pose proof (sign_worst (x 0%nat) (t 0%nat) (Ht 0%nat ltac:(lia))). pose proof (sign_worst (x 1%nat) (t 1%nat) (Ht 1%nat ltac:(lia))).
    pose proof (sign_worst (x 2%nat) (t 2%nat) (Ht 2%nat ltac:(lia))). unfold x in *. lra.
  - destruct (sign_all (nonneg (x 0%nat)) (nonneg (x 1%nat)) (nonneg (x 2%nat))) as (s & Hs & E0 & E1 & E2).
    exists (box_vertex b s). split; [now apply in_map|]. rewrite Ep, Ev, !corner_dot, E0, E1, E2.
    pose proof (sign_best (x 0%nat) (t 0%nat) (Ht 0%nat ltac:(lia))). pose proof (sign_best (x 1%nat) (t 1%nat) (Ht 1%nat ltac:(lia))).
    pose proof (sign_best (x 2%nat) (t 2%nat) (Ht 2%nat ltac:(lia))). unfold x in *. lra.
Qed.

(** No collision of aligned boxes is missed; the orientations need not even be orthonormal. *)
Theorem box_test_never_misses b1 b2 : aligned b1 -> aligned b2 -> boxes_meet b1 b2 -> box_test b1 b2 = true.
Proof.
  intros A1 A2 (p & P1 & P2). apply box_test_iff. intros u _. unfold not_separated.
  destruct (ends_exist (box_vertices b1) u (vertices_nonempty b1)) as (lo1 & hi1 & (_ & _ & B1) & -> & ->).
  destruct (ends_exist (box_vertices b2) u (vertices_nonempty b2)) as (lo2 & hi2 & (_ & _ & B2) & -> & ->).
  destruct (box_reach b1 p u A1 P1) as [(v1 & I1 & D1) (w1 & J1 & F1)].
  destruct (box_reach b2 p u A2 P2) as [(v2 & I2 & D2) (w2 & J2 & F2)].
  apply B1 in I1, J1. apply B2 in I2, J2.
  apply negb_true_iff, orb_false_iff. split; apply not_true_iff_false; rewrite Rltb_iff; lra.
Qed.

(** ** Exactness *)
Definition vlerp (p q : vec) (t : R) : vec := fun i => p i + t * (q i - p i).
Lemma in_box_convex b p q t : 0 <= t <= 1 -> in_box b p -> in_box b q -> in_box b (vlerp p q t).
Proof.
  intros Ht (s & Hs & Es) (r & Hr & Er). exists (vlerp s r t). split.
  - intros j Hj. specialize (Hs j Hj). specialize (Hr j Hj). unfold vlerp. split; nra.
  - intros i Hi. unfold vlerp. rewrite (Es i Hi), (Er i Hi). ring.
Qed.

(** projections that overlap contain points of the boxes at the same height *)
Lemma overlap_common b1 b2 u : aligned b1 -> aligned b2 -> not_separated (box_vertices b1) (box_vertices b2) u = true ->
  exists p q, in_box b1 p /\ in_box b2 q /\ dot3 p u = dot3 q u.
Proof.
  intros A1 A2 H. unfold not_separated in H.
  destruct (ends_exist (box_vertices b1) u (vertices_nonempty b1)) as (lo1 & hi1 & (L1 & H1 & B1) & E1 & E1').
  destruct (ends_exist (box_vertices b2) u (vertices_nonempty b2)) as (lo2 & hi2 & (L2 & H2 & B2) & E2 & E2').
  rewrite E1, E1', E2, E2' in H. apply negb_true_iff, orb_false_iff in H as [N1 N2].
  apply not_true_iff_false in N1, N2. rewrite Rltb_iff in N1, N2.
  pose proof (proj2 (B1 lo1 L1)) as R1. pose proof (proj2 (B2 lo2 L2)) as R2.
  assert (G : forall b lo hi y, aligned b -> In lo (box_vertices b) -> In hi (box_vertices b) -> dot3 lo u <= y <= dot3 hi u -> exists p, in_box b p /\ dot3 p u = y).
  { intros b lo hi y A Hlo Hhi Hy. destruct (Req_dec (dot3 lo u) (dot3 hi u)) as [E|N].
    - exists lo. split; [now apply vertex_in_box|lra].
    - exists (vlerp lo hi ((y - dot3 lo u) / (dot3 hi u - dot3 lo u))). split.
      + apply in_box_convex; try (now apply vertex_in_box). split.
        * apply Rmult_le_pos; [lra|apply Rlt_le, Rinv_0_lt_compat; lra].
        * apply Rmult_le_reg_r with (dot3 hi u - dot3 lo u); [lra|]. unfold Rdiv. rewrite Rmult_assoc, Rinv_l; lra.
      + transitivity (dot3 lo u + (y - dot3 lo u) / (dot3 hi u - dot3 lo u) * (dot3 hi u - dot3 lo u)); [|field; lra].
        generalize ((y - dot3 lo u) / (dot3 hi u - dot3 lo u)). intro k. unfold dot3, vlerp. ring. }
  set (y := Rmax (dot3 lo1 u) (dot3 lo2 u)).
  assert (Y : dot3 lo1 u <= y <= dot3 hi1 u /\ dot3 lo2 u <= y <= dot3 hi2 u) by (unfold y, Rmax; destruct (Rle_dec (dot3 lo1 u) (dot3 lo2 u)); lra).
  destruct (G b1 lo1 hi1 y A1 L1 H1 ltac:(tauto)) as (p & Hp & Ep). destruct (G b2 lo2 hi2 y A2 L2 H2 ltac:(tauto)) as (q & Hq & Eq).
  exists p, q. split; auto. split; auto. lra.
Qed.

(** coordinates in an orthonormal frame *)
Definition ip (b : box) (j : nat) (v : vec) : R := dot3 (column b j) v.
Lemma frame b v i : orthonormal b -> (i < 3)%nat ->
  v i = orient b i 0%nat * ip b 0 v + orient b i 1%nat * ip b 1 v + orient b i 2%nat * ip b 2 v.
Proof.
  intros O Hi. destruct (dependent 3 [v; column b 0; column b 1; column b 2]) as (ws & L & (w & Hw & Nw) & C); [simpl; lia|].
  destruct ws as [|a [|w0 [|w1 [|w2 [|]]]]]; simpl in L; try lia.
  assert (D : forall c, (c < 3)%nat -> a * v c + w0 * orient b c 0%nat + w1 * orient b c 1%nat + w2 * orient b c 2%nat = 0).
  { intros c Hc. specialize (C c Hc). unfold comb, column in C. simpl in C. lra. }
  assert (O' : forall j k, (j < 3)%nat -> (k < 3)%nat -> orient b 0 j * orient b 0 k + orient b 1 j * orient b 1 k + orient b 2 j * orient b 2 k = if Nat.eq_dec j k then 1 else 0) by exact O.
  assert (P : forall j, (j < 3)%nat -> a * ip b j v + (if Nat.eq_dec j 0 then w0 else if Nat.eq_dec j 1 then w1 else w2) = 0).
  { intros j Hj. pose proof (D 0%nat ltac:(lia)) as D0. pose proof (D 1%nat ltac:(lia)) as D1. pose proof (D 2%nat ltac:(lia)) as D2.
    pose proof (O' j 0%nat Hj ltac:(lia)) as Q0. pose proof (O' j 1%nat Hj ltac:(lia)) as Q1. pose proof (O' j 2%nat Hj ltac:(lia)) as Q2.
    unfold ip, dot3, column.
    assert (S : orient b 0 j * (a * v 0%nat + w0 * orient b 0 0 + w1 * orient b 0 1 + w2 * orient b 0 2)
              + orient b 1 j * (a * v 1%nat + w0 * orient b 1 0 + w1 * orient b 1 1 + w2 * orient b 1 2)
              + orient b 2 j * (a * v 2%nat + w0 * orient b 2 0 + w1 * orient b 2 1 + w2 * orient b 2 2) = 0)
      by (rewrite D0, D1, D2; ring).
    assert (S' : a * (orient b 0 j * v 0%nat + orient b 1 j * v 1%nat + orient b 2 j * v 2%nat)
        + w0 * (orient b 0 j * orient b 0 0 + orient b 1 j * orient b 1 0 + orient b 2 j * orient b 2 0)
        + w1 * (orient b 0 j * orient b 0 1 + orient b 1 j * orient b 1 1 + orient b 2 j * orient b 2 1)
        + w2 * (orient b 0 j * orient b 0 2 + orient b 1 j * orient b 1 2 + orient b 2 j * orient b 2 2) = 0) by (rewrite <- S; ring).
    rewrite Q0, Q1, Q2 in S'. assert (Cj : (j = 0 \/ j = 1 \/ j = 2)%nat) by lia. destruct Cj as [->|[->| ->]]; simpl in *; lra. }
  pose proof (P 0%nat ltac:(lia)) as P0. pose proof (P 1%nat ltac:(lia)) as P1. pose proof (P 2%nat ltac:(lia)) as P2. simpl in P0, P1, P2.
  assert (Na : a <> 0).
  { intro Z. rewrite Z in *. apply Nw. simpl in Hw. destruct Hw as [<-|[<-|[<-|[<-|[]]]]]; lra. }
  specialize (D i Hi). apply Rmult_eq_reg_l with a; auto.
  assert (w0 = - (a * ip b 0 v)) by lra. assert (w1 = - (a * ip b 1 v)) by lra. assert (w2 = - (a * ip b 2 v)) by lra. subst w0 w1 w2. lra.
Qed.

Definition slab (b : box) (j : nat) (p : vec) : Prop := - half b j <= ip b j p - ip b j (center b) <= half b j.

Lemma ip_combination b t j : orthonormal b -> (j < 3)%nat ->
  ip b j (fun i => orient b i 0%nat * t 0%nat + orient b i 1%nat * t 1%nat + orient b i 2%nat * t 2%nat) = t j.
Proof.
  intros O Hj. pose proof (O j 0%nat Hj ltac:(lia)) as Q0. pose proof (O j 1%nat Hj ltac:(lia)) as Q1. pose proof (O j 2%nat Hj ltac:(lia)) as Q2.
  transitivity (dot3 (column b j) (column b 0) * t 0%nat + dot3 (column b j) (column b 1) * t 1%nat + dot3 (column b j) (column b 2) * t 2%nat).
  - unfold ip, dot3, column. ring.
  - rewrite Q0, Q1, Q2. assert (Cj : (j = 0 \/ j = 1 \/ j = 2)%nat) by lia. destruct Cj as [->|[->| ->]]; simpl; ring.
Qed.

Lemma box_slabs b p : orthonormal b -> extents_ok b -> (in_box b p <-> forall j, (j < 3)%nat -> slab b j p).
Proof.
  intros O E. split.
  - intros (t & Ht & Hp) j Hj. unfold slab.
    assert (D : ip b j p - ip b j (center b) = half b j * t j).
    { rewrite <- (ip_combination b (fun k => half b k * t k) j O Hj). unfold ip, dot3. rewrite !Hp by lia. ring. }
    rewrite D. specialize (Ht j Hj). specialize (E j Hj). split; nra.
  - intro S. set (d := fun i => p i - center b i).
    assert (Dd : forall j, ip b j d = ip b j p - ip b j (center b)) by (intro j; unfold ip, dot3, d; ring).
    exists (fun j => if Req_EM_T (half b j) 0 then 0 else ip b j d / half b j). split.
    + intros j Hj. destruct (Req_EM_T (half b j) 0) as [Z|N]; [lra|]. specialize (S j Hj). unfold slab in S. rewrite <- Dd in S. specialize (E j Hj).
      assert (0 < half b j) by lra. split; apply Rmult_le_reg_r with (half b j); auto; unfold Rdiv; rewrite ?Rmult_assoc, ?Rinv_l by lra; lra.
    + intros i Hi.
      assert (X : forall j, (j < 3)%nat -> half b j * (if Req_EM_T (half b j) 0 then 0 else ip b j d / half b j) = ip b j d).
      { intros j Hj. destruct (Req_EM_T (half b j) 0) as [Z|N]; [|field; auto]. specialize (S j Hj). unfold slab in S. rewrite <- Dd in S. lra. }
      rewrite !X by lia. rewrite <- (frame b d i O Hi). unfold d. ring.
Qed.

Lemma ip_slab b j p q : ip b j p = ip b j q -> slab b j p -> slab b j q.
Proof. unfold slab. intros ->. auto. Qed.

Section Exact.
Variables b1 b2 : box.
Hypothesis P1 : proper_box b1.
Hypothesis P2 : proper_box b2.
Hypothesis T : box_test b1 b2 = true.

Let O1 : orthonormal b1 := proj1 P1.
Let O2 : orthonormal b2 := proj1 P2.
Let E1 : extents_ok b1 := proj1 (proj2 P1).
Let E2 : extents_ok b2 := proj1 (proj2 P2).
Let A1 : aligned b1 := proj2 (proj2 P1).
Let A2 : aligned b2 := proj2 (proj2 P2).

Lemma test_axis u : In u (box_axes b1 b2) -> exists p q, in_box b1 p /\ in_box b2 q /\ dot3 p u = dot3 q u.
Proof. intro H. apply overlap_common; auto. exact (proj1 (box_test_iff b1 b2) T u H). Qed.

Lemma index3 j : (j < 3)%nat -> In j [0; 1; 2]%nat.
Proof. simpl. lia. Qed.
Lemma dot3_comm u v : dot3 u v = dot3 v u.
Proof. unfold dot3. ring. Qed.

Lemma face2 l : (l < 3)%nat -> exists p, in_box b1 p /\ slab b2 l p.
Proof.
  intro Hl. destruct (test_axis (column b2 l)) as (p & q & Hp & Hq & E).
  { unfold box_axes. apply in_or_app. right. apply in_or_app. left. apply in_map. now apply index3. }
  exists p. split; auto. apply ip_slab with q; [unfold ip; now rewrite !(dot3_comm (column b2 l))|].
  apply (box_slabs b2 q O2 E2); auto.
Qed.
Lemma face1 l : (l < 3)%nat -> exists q, in_box b2 q /\ slab b1 l q.
Proof.
  intro Hl. destruct (test_axis (column b1 l)) as (p & q & Hp & Hq & E).
  { unfold box_axes. apply in_or_app. left. apply in_map. now apply index3. }
  exists q. split; auto. apply ip_slab with p; [unfold ip; now rewrite !(dot3_comm (column b1 l))|].
  apply (box_slabs b1 p O1 E1); auto.
Qed.

Lemma third i j : exists k, (k < 3)%nat /\ k <> i /\ k <> j.
Proof.
  destruct (Nat.eq_dec i 0) as [->|], (Nat.eq_dec j 0) as [->|]; try (exists 0%nat; lia).
  - exists 1%nat; lia.
  - destruct (Nat.eq_dec j 1) as [->|]; [exists 2%nat|exists 1%nat]; lia.
  - destruct (Nat.eq_dec i 1) as [->|]; [exists 2%nat|exists 1%nat]; lia.
Qed.

Lemma frame_k k : (k < 3)%nat -> exists i j, (i < 3)%nat /\ (j < 3)%nat /\ i <> k /\ j <> k /\
  forall x c, (c < 3)%nat -> x c = orient b1 c i * ip b1 i x + orient b1 c j * ip b1 j x + orient b1 c k * ip b1 k x.
Proof.
  intro Hk. assert (Ck : (k = 0 \/ k = 1 \/ k = 2)%nat) by lia.
  destruct Ck as [->|[->| ->]]; [exists 1%nat, 2%nat|exists 0%nat, 2%nat|exists 0%nat, 1%nat];
    repeat split; try lia; intros x c Hc; rewrite (frame b1 x c O1 Hc) at 1; ring.
Qed.

Lemma edge i j p q : (i < 3)%nat -> (j < 3)%nat -> (p < 3)%nat -> (q < 3)%nat ->
  exists x, slab b1 i x /\ slab b1 j x /\ slab b2 p x /\ slab b2 q x.
Proof.
  intros Hi Hj Hp Hq. destruct (third i j) as (k & Hk & Ki & Kj). destruct (third p q) as (l & Hl & Lp & Lq).
  set (a := column b1 k). set (b := column b2 l). set (n := cross3 a b).
  assert (Oa : forall m, (m < 3)%nat -> m <> k -> dot3 (column b1 m) a = 0).
  { intros m Hm N. unfold a. rewrite (O1 m k Hm Hk). destruct (Nat.eq_dec m k); [contradiction|reflexivity]. }
  assert (Ob : forall m, (m < 3)%nat -> m <> l -> dot3 (column b2 m) b = 0).
  { intros m Hm N. unfold b. rewrite (O2 m l Hm Hl). destruct (Nat.eq_dec m l); [contradiction|reflexivity]. }
  destruct (Req_dec (dot3 n n) 0) as [Z|N].
  - (* parallel free directions *)
    assert (Z3 : n 0%nat = 0 /\ n 1%nat = 0 /\ n 2%nat = 0) by (unfold dot3 in Z; repeat split; nra).
    assert (Ua : dot3 a a = 1) by (unfold a; rewrite (O1 k k Hk Hk); destruct (Nat.eq_dec k k); [reflexivity|contradiction]).
    assert (Ub : dot3 b b = 1) by (unfold b; rewrite (O2 l l Hl Hl); destruct (Nat.eq_dec l l); [reflexivity|contradiction]).
    assert (Par : forall c, (c < 3)%nat -> a c = dot3 a b * b c).
    { intros c Hc. destruct Z3 as (Z0 & Z1 & Z2). unfold n, cross3 in Z0, Z1, Z2.
      assert (a c * dot3 b b = dot3 a b * b c); [|rewrite Ub in *; lra].
      assert (Cc : (c = 0 \/ c = 1 \/ c = 2)%nat) by lia. unfold dot3. destruct Cc as [->|[->| ->]].
      - assert (a 0%nat * b 1%nat = a 1%nat * b 0%nat) as X1 by lra. assert (a 0%nat * b 2%nat = a 2%nat * b 0%nat) as X2 by lra.
        replace (a 0%nat * (b 0%nat * b 0%nat + b 1%nat * b 1%nat + b 2%nat * b 2%nat)) with (a 0%nat * b 0%nat * b 0%nat + (a 0%nat * b 1%nat) * b 1%nat + (a 0%nat * b 2%nat) * b 2%nat) by ring. rewrite X1, X2. ring.
      - assert (a 1%nat * b 0%nat = a 0%nat * b 1%nat) as X1 by lra. assert (a 1%nat * b 2%nat = a 2%nat * b 1%nat) as X2 by lra.
        replace (a 1%nat * (b 0%nat * b 0%nat + b 1%nat * b 1%nat + b 2%nat * b 2%nat)) with ((a 1%nat * b 0%nat) * b 0%nat + a 1%nat * b 1%nat * b 1%nat + (a 1%nat * b 2%nat) * b 2%nat) by ring. rewrite X1, X2. ring.
      - assert (a 2%nat * b 0%nat = a 0%nat * b 2%nat) as X1 by lra. assert (a 2%nat * b 1%nat = a 1%nat * b 2%nat) as X2 by lra.
        replace (a 2%nat * (b 0%nat * b 0%nat + b 1%nat * b 1%nat + b 2%nat * b 2%nat)) with ((a 2%nat * b 0%nat) * b 0%nat + (a 2%nat * b 1%nat) * b 1%nat + a 2%nat * b 2%nat * b 2%nat) by ring. rewrite X1, X2. ring. }
    assert (Oab : forall m, (m < 3)%nat -> m <> l -> dot3 (column b2 m) a = 0).
    { intros m Hm Nm. pose proof (Ob m Hm Nm) as E. unfold dot3 at 1. rewrite !Par by lia.
      transitivity (dot3 a b * dot3 (column b2 m) b); [unfold dot3; ring|rewrite E; ring]. }
    destruct (frame_k k Hk) as (i' & j' & Hi' & Hj' & Ni & Nj & Fr).
    set (pl := fun (w : rpt) (c : nat) => orient b1 c i' * fst w + orient b1 c j' * snd w).
    (* the planar point below x *)
    set (w := fun x : vec => (ip b1 i' x, ip b1 j' x)).
    assert (Drop : forall bx m x, dot3 (column bx m) a = 0 -> ip bx m (pl (w x)) = ip bx m x).
    { intros bx m x E. transitivity (ip bx m x - ip b1 k x * dot3 (column bx m) a); [|rewrite E; ring].
      assert (G : forall c, (c < 3)%nat -> pl (w x) c = x c - ip b1 k x * a c).
      { intros c Hc. rewrite (Fr x c Hc). unfold pl, w, a, column. cbn [fst snd]. ring. }
      generalize dependent (ip b1 k x). intros h G. unfold ip, dot3. rewrite !G by lia. ring. }
    set (F := [fun z => slab b1 i (pl z); fun z => slab b1 j (pl z); fun z => slab b2 p (pl z); fun z => slab b2 q (pl z)]).
    assert (Cl : forall S, In S F -> (exists m, (m < 3)%nat /\ m <> k /\ S = (fun z => slab b1 m (pl z))) \/ (exists m, (m < 3)%nat /\ m <> l /\ S = (fun z => slab b2 m (pl z)))).
    { intros S [<-|[<-|[<-|[<-|[]]]]]; [left; exists i|left; exists j|right; exists p|right; exists q]; auto. }
    destruct (helly F) as [z Hz].
    + intros S HS. assert (G : forall bx m, convex (fun z => slab bx m (pl z))).
      { intros bx m y1 y2 t Ht S1 S2. unfold slab in *. 
        assert (L : ip bx m (pl (fst y1 + t * (fst y2 - fst y1), snd y1 + t * (snd y2 - snd y1))) = (1 - t) * ip bx m (pl y1) + t * ip bx m (pl y2))
          by (unfold ip, dot3, pl; cbn [fst snd]; ring).
        rewrite L. split; nra. }
      destruct (Cl S HS) as [(m & _ & _ & ->)|(m & _ & _ & ->)]; apply G.
    + assert (MA : forall m, (m < 3)%nat -> m <> l -> exists z, slab b2 m (pl z) /\ forall m', (m' < 3)%nat -> m' <> k -> slab b1 m' (pl z)).
      { intros m Hm Nm. destruct (face2 m Hm) as (x & Hx & Sx). exists (w x). split; [apply ip_slab with x; auto; symmetry; apply Drop; auto|].
        intros m' Hm' Nm'. apply ip_slab with x; [symmetry; apply Drop; auto|]. apply (box_slabs b1 x O1 E1); auto. }
      assert (MB : forall m, (m < 3)%nat -> m <> k -> exists z, slab b1 m (pl z) /\ forall m', (m' < 3)%nat -> m' <> l -> slab b2 m' (pl z)).
      { intros m Hm Nm. destruct (face1 m Hm) as (x & Hx & Sx). exists (w x). split; [apply ip_slab with x; auto; symmetry; apply Drop; auto|].
        intros m' Hm' Nm'. apply ip_slab with x; [symmetry; apply Drop; auto|]. apply (box_slabs b2 x O2 E2); auto. }
      intros X Y W HX HY HW. unfold meets3.
      destruct (Cl X HX) as [(m1 & M1 & N1 & ->)|(m1 & M1 & N1 & ->)]; destruct (Cl Y HY) as [(m2 & M2 & N2 & ->)|(m2 & M2 & N2 & ->)];
        destruct (Cl W HW) as [(m3 & M3 & N3 & ->)|(m3 & M3 & N3 & ->)].
      * destruct (MA p Hp) as (z & _ & Hz); auto. exists z. auto.
      * destruct (MA m3 M3 N3) as (z & ? & Hz). exists z. auto.
      * destruct (MA m2 M2 N2) as (z & ? & Hz). exists z. auto.
      * destruct (MB m1 M1 N1) as (z & ? & Hz). exists z. auto.
      * destruct (MA m1 M1 N1) as (z & ? & Hz). exists z. auto.
      * destruct (MB m2 M2 N2) as (z & ? & Hz). exists z. auto.
      * destruct (MB m3 M3 N3) as (z & ? & Hz). exists z. auto.
      * destruct (MB i Hi) as (z & _ & Hz); auto. exists z. auto.
    + exists (pl z). unfold F in Hz. simpl in Hz.
      pose proof (Hz _ (or_introl eq_refl)). pose proof (Hz _ (or_intror (or_introl eq_refl))).
      pose proof (Hz _ (or_intror (or_intror (or_introl eq_refl)))). pose proof (Hz _ (or_intror (or_intror (or_intror (or_introl eq_refl))))). auto.
  - (* the common normal of the free directions *)
    destruct (test_axis (unit_or_zero n)) as (x & y & Hx & Hy & E).
    { unfold box_axes. apply in_or_app. right. apply in_or_app. right. apply in_flat_map. exists k. split; [now apply index3|].
      apply (in_map (fun j => unit_or_zero (cross3 (column b1 k) (column b2 j)))). now apply index3. }
    assert (En : dot3 x n = dot3 y n).
    { unfold unit_or_zero in E. destruct (Rlt_dec 0 (sqrt (dot3 n n))) as [L|L].
      - set (s := sqrt (dot3 n n)) in *.
        assert (G : forall v, dot3 v (fun c => n c / s) = dot3 v n / s) by (intro v; unfold dot3; field; lra).
        rewrite !G in E. apply Rmult_eq_reg_r with (/ s); [exact E|]. apply Rinv_neq_0_compat. lra.
      - exact E. }
    set (d := fun c => y c - x c).
    set (al := dot3 (cross3 d b) n / dot3 n n). set (be := dot3 (cross3 a d) n / dot3 n n).
    assert (Dn : dot3 d n = 0) by (transitivity (dot3 y n - dot3 x n); [unfold dot3, d; ring|lra]).
    assert (Dec : forall c, (c < 3)%nat -> d c = al * a c + be * b c).
    { intros c Hc. unfold al, be. apply Rmult_eq_reg_l with (dot3 n n); auto.
      transitivity (dot3 (cross3 d b) n * a c + dot3 (cross3 a d) n * b c + dot3 d n * n c).
      - assert (Cc : (c = 0 \/ c = 1 \/ c = 2)%nat) by lia. unfold n, dot3, cross3. destruct Cc as [->|[->| ->]]; ring.
      - rewrite Dn. field. auto. }
    exists (fun c => x c + al * a c).
    assert (S1 : forall m, (m < 3)%nat -> m <> k -> slab b1 m (fun c => x c + al * a c)).
    { intros m Hm Nm. apply ip_slab with x; [|apply (box_slabs b1 x O1 E1); auto].
      transitivity (ip b1 m x + al * dot3 (column b1 m) a); [rewrite Oa by auto; ring|unfold ip, dot3; ring]. }
    assert (S2 : forall m, (m < 3)%nat -> m <> l -> slab b2 m (fun c => x c + al * a c)).
    { intros m Hm Nm. apply ip_slab with y; [|apply (box_slabs b2 y O2 E2); auto].
      assert (Ey : forall c, (c < 3)%nat -> x c + al * a c = y c - be * b c).
      { intros c Hc. pose proof (Dec c Hc) as D. unfold d in D. lra. }
      transitivity (ip b2 m y - be * dot3 (column b2 m) b); [rewrite Ob by auto; ring|]. unfold ip, dot3. rewrite !Ey by lia. ring. }
    auto.
Qed.

Definition fn (p : r3) : vec := fun c => match c with O => px p | S O => py p | _ => pz p end.

Lemma slab_convex b j : convex3 (fun p => slab b j (fn p)).
Proof.
  intros p q t Ht A B. unfold slab in *.
  assert (L : ip b j (fn (lerp3 p q t)) = (1 - t) * ip b j (fn p) + t * ip b j (fn q)) by (unfold ip, dot3, fn, lerp3, px, py, pz; simpl; ring).
  rewrite L. split; nra.
Qed.

Lemma to_r3 b j x : slab b j x -> slab b j (fn (x 0%nat, x 1%nat, x 2%nat)).
Proof. apply ip_slab. unfold ip, dot3, fn, px, py, pz. reflexivity. Qed.

Lemma test_meets : boxes_meet b1 b2.
Proof.
  set (F := map (fun j p => slab b1 j (fn p)) [0; 1; 2]%nat ++ map (fun j p => slab b2 j (fn p)) [0; 1; 2]%nat).
  assert (Cl : forall S, In S F -> (exists m, (m < 3)%nat /\ S = (fun z => slab b1 m (fn z))) \/ (exists m, (m < 3)%nat /\ S = (fun z => slab b2 m (fn z)))).
  { intros S HS. apply in_app_or in HS. destruct HS as [HS|HS]; apply in_map_iff in HS as (m & <- & Hm); [left|right]; exists m; split; auto; simpl in Hm; lia. }
  assert (M2 : forall l, (l < 3)%nat -> exists z, slab b2 l (fn z) /\ forall m, (m < 3)%nat -> slab b1 m (fn z)).
  { intros l Hl. destruct (face2 l Hl) as (x & Hx & Sx). exists (x 0%nat, x 1%nat, x 2%nat). split; [now apply to_r3|].
    intros m Hm. apply to_r3. apply (box_slabs b1 x O1 E1); auto. }
  assert (M1 : forall l, (l < 3)%nat -> exists z, slab b1 l (fn z) /\ forall m, (m < 3)%nat -> slab b2 m (fn z)).
  { intros l Hl. destruct (face1 l Hl) as (x & Hx & Sx). exists (x 0%nat, x 1%nat, x 2%nat). split; [now apply to_r3|].
    intros m Hm. apply to_r3. apply (box_slabs b2 x O2 E2); auto. }
  assert (ME : forall i j p q, (i < 3)%nat -> (j < 3)%nat -> (p < 3)%nat -> (q < 3)%nat ->
     exists z, slab b1 i (fn z) /\ slab b1 j (fn z) /\ slab b2 p (fn z) /\ slab b2 q (fn z)).
  { intros i j p q Hi Hj Hp Hq. destruct (edge i j p q Hi Hj Hp Hq) as (x & ? & ? & ? & ?). exists (x 0%nat, x 1%nat, x 2%nat). repeat split; apply to_r3; auto. }
  destruct (helly3 F) as [z Hz].
  - intros S HS. destruct (Cl S HS) as [(m & _ & ->)|(m & _ & ->)]; apply slab_convex.
  - intros X Y Z W HX HY HZ HW. unfold meets4.
    destruct (Cl X HX) as [(m1 & N1 & ->)|(m1 & N1 & ->)]; destruct (Cl Y HY) as [(m2 & N2 & ->)|(m2 & N2 & ->)];
      destruct (Cl Z HZ) as [(m3 & N3 & ->)|(m3 & N3 & ->)]; destruct (Cl W HW) as [(m4 & N4 & ->)|(m4 & N4 & ->)].
    + destruct (M2 0%nat ltac:(lia)) as (z & _ & Hz). exists z. auto.
    + destruct (M2 m4 N4) as (z & ? & Hz). exists z. auto.
    + destruct (M2 m3 N3) as (z & ? & Hz). exists z. auto.
    + destruct (ME m1 m2 m3 m4 N1 N2 N3 N4) as (z & ? & ? & ? & ?). exists z. auto.
    + destruct (M2 m2 N2) as (z & ? & Hz). exists z. auto.
    + destruct (ME m1 m3 m2 m4 N1 N3 N2 N4) as (z & ? & ? & ? & ?). exists z. auto.
    + destruct (ME m1 m4 m2 m3 N1 N4 N2 N3) as (z & ? & ? & ? & ?). exists z. auto.
    + destruct (M1 m1 N1) as (z & ? & Hz). exists z. auto.
    + destruct (M2 m1 N1) as (z & ? & Hz). exists z. auto.
    + destruct (ME m2 m3 m1 m4 N2 N3 N1 N4) as (z & ? & ? & ? & ?). exists z. auto.
    + destruct (ME m2 m4 m1 m3 N2 N4 N1 N3) as (z & ? & ? & ? & ?). exists z. auto.
    + destruct (M1 m2 N2) as (z & ? & Hz). exists z. auto.
    + destruct (ME m3 m4 m1 m2 N3 N4 N1 N2) as (z & ? & ? & ? & ?). exists z. auto.
    + destruct (M1 m3 N3) as (z & ? & Hz). exists z. auto.
    + destruct (M1 m4 N4) as (z & ? & Hz). exists z. auto.
    + destruct (M1 0%nat ltac:(lia)) as (z & _ & Hz). exists z. auto.
  - exists (fn z). split; [apply (box_slabs b1 _ O1 E1)|apply (box_slabs b2 _ O2 E2)]; intros j Hj.
    + apply (Hz (fun z => slab b1 j (fn z))). apply in_or_app. left. apply (in_map (fun j p => slab b1 j (fn p))). now apply index3.
    + apply (Hz (fun z => slab b2 j (fn z))). apply in_or_app. right. apply (in_map (fun j p => slab b2 j (fn p))). now apply index3.
Qed.
End Exact.

(** Exact for boxes whose orientation mixes only coordinates with equal half extents. *)
Theorem box_test_exact b1 b2 : proper_box b1 -> proper_box b2 -> (box_test b1 b2 = true <-> boxes_meet b1 b2).
Proof.
  intros P1 P2. split; [now apply test_meets|]. apply box_test_never_misses; [apply P1|apply P2].
Qed.

(** ** Examples *)
Definition table (l : list R) : vec := fun i => nth i l 0.
Definition matrix (rows : list (list R)) : nat -> nat -> R := fun i j => nth j (nth i rows []) 0.
Definition eye : nat -> nat -> R := matrix [[1; 0; 0]; [0; 1; 0]; [0; 0; 1]].
(** rotation about the third axis with cosine 3/5 *)
Definition turned : nat -> nat -> R := matrix [[3/5; -4/5; 0]; [4/5; 3/5; 0]; [0; 0; 1]].
Definition quarter : nat -> nat -> R := matrix [[0; -1; 0]; [1; 0; 0]; [0; 0; 1]].

Ltac index_cases := repeat match goal with H : (?i < 3)%nat |- _ =>
  assert ((i = 0 \/ i = 1 \/ i = 2)%nat) as [-> | [-> | ->]] by lia; clear H end.

Definition brick : box := mkBox (table [0; 0; 0]) (table [1; 2; 1]) eye.
Definition tower : box := mkBox (table [2; 1; 3]) (table [1; 1; 2]) turned.
Definition far : box := mkBox (table [3; 1; 3]) (table [1; 1; 2]) turned.

Lemma brick_proper : proper_box brick.
Proof.
  split; [|split]; intros i; intros; index_cases; unfold brick, dot3, column, eye, matrix, table in *; simpl in *; try lra;
    destruct (Nat.eq_dec _ _); try lia; try lra.
Qed.
Lemma turned_proper c : proper_box (mkBox c (table [1; 1; 2]) turned).
Proof.
  split; [|split]; intros i; intros; index_cases; unfold dot3, column, turned, matrix, table in *; simpl in *; try lra;
    destruct (Nat.eq_dec _ _); try lia; try lra.
Qed.

Example towers_touch : box_test brick tower = true.
Proof.
  apply box_test_exact; [apply brick_proper|apply turned_proper|]. exists (table [1; 1; 1]). split.
  - exists (table [1; 1/2; 1]). split; intros; index_cases; unfold brick, eye, matrix, table; simpl; lra.
  - exists (table [-3/5; 4/5; -1]). split; intros; index_cases; unfold tower, turned, matrix, table; simpl; lra.
Qed.
Example towers_apart : box_test brick far = false.
Proof.
  destruct (box_test brick far) eqn:E; auto. exfalso.
  apply box_test_exact in E as (p & (s & Hs & Es) & (t & Ht & Et)); [|apply brick_proper|apply turned_proper].
  pose proof (Es 0%nat ltac:(lia)) as X. pose proof (Et 0%nat ltac:(lia)) as Y.
  pose proof (Hs 0%nat ltac:(lia)). pose proof (Ht 0%nat ltac:(lia)). pose proof (Ht 1%nat ltac:(lia)).
  unfold brick, far, eye, turned, matrix, table in *. simpl in *. lra.
Qed.

(** ** Other orientations *)
(** what the test really looks at: half extents applied after the rotation *)
Definition in_shape (b : box) (p : vec) : Prop :=
  exists t : vec, (forall j, (j < 3)%nat -> -1 <= t j <= 1) /\ forall i, (i < 3)%nat -> p i = box_vertex b t i.

Lemma shape_reach b p u : in_shape b p ->
  (exists v, In v (box_vertices b) /\ dot3 v u <= dot3 p u) /\ (exists v, In v (box_vertices b) /\ dot3 p u <= dot3 v u).
Proof.
  intros (t & Ht & Hp).
  set (x j := half b 0%nat * orient b 0%nat j * u 0%nat + half b 1%nat * orient b 1%nat j * u 1%nat + half b 2%nat * orient b 2%nat j * u 2%nat).
  assert (Ev : forall s, dot3 (box_vertex b s) u = dot3 (center b) u + (x 0%nat * s 0%nat + x 1%nat * s 1%nat + x 2%nat * s 2%nat))
    by (intro s; unfold dot3, box_vertex, x; ring).
  assert (Ep : dot3 p u = dot3 (box_vertex b t) u) by (apply dot3_ext; auto). rewrite Ep, Ev.
  split.
  - destruct (sign_all (negb (nonneg (x 0%nat))) (negb (nonneg (x 1%nat))) (negb (nonneg (x 2%nat)))) as (s & Hs & E0 & E1 & E2).
    exists (box_vertex b s). split; [now apply in_map|]. rewrite Ev, E0, E1, E2.
    pose proof (sign_worst (x 0%nat) (t 0%nat) (Ht 0%nat ltac:(lia))). pose proof (sign_worst (x 1%nat) (t 1%nat) (Ht 1%nat ltac:(lia))).
    pose proof (sign_worst (x 2%nat) (t 2%nat) (Ht 2%nat ltac:(lia))). lra.
  - destruct (sign_all (nonneg (x 0%nat)) (nonneg (x 1%nat)) (nonneg (x 2%nat))) as (s & Hs & E0 & E1 & E2).
    exists (box_vertex b s). split; [now apply in_map|]. rewrite Ev, E0, E1, E2.
    pose proof (sign_best (x 0%nat) (t 0%nat) (Ht 0%nat ltac:(lia))). pose proof (sign_best (x 1%nat) (t 1%nat) (Ht 1%nat ltac:(lia))).
    pose proof (sign_best (x 2%nat) (t 2%nat) (Ht 2%nat ltac:(lia))). lra.
Qed.
Lemma shapes_meet b1 b2 p : in_shape b1 p -> in_shape b2 p -> box_test b1 b2 = true.
Proof.
  intros P1 P2. apply box_test_iff. intros u _. unfold not_separated.
  destruct (ends_exist (box_vertices b1) u (vertices_nonempty b1)) as (lo1 & hi1 & (_ & _ & B1) & -> & ->).
  destruct (ends_exist (box_vertices b2) u (vertices_nonempty b2)) as (lo2 & hi2 & (_ & _ & B2) & -> & ->).
  destruct (shape_reach b1 p u P1) as [(v1 & I1 & D1) (w1 & J1 & F1)].
  destruct (shape_reach b2 p u P2) as [(v2 & I2 & D2) (w2 & J2 & F2)].
  apply B1 in I1, J1. apply B2 in I2, J2.
  apply negb_true_iff, orb_false_iff. split; apply not_true_iff_false; rewrite Rltb_iff; lra.
Qed.
Lemma test_beyond b1 b2 u k : In u (box_axes b1 b2) -> (forall v, In v (box_vertices b1) -> k < dot3 v u) ->
  (forall v, In v (box_vertices b2) -> dot3 v u < k) -> box_test b1 b2 = false.
Proof.
  intros Hu H1 H2. apply not_true_iff_false. intro T. rewrite box_test_iff in T. specialize (T u Hu). unfold not_separated in T.
  destruct (ends_exist (box_vertices b1) u (vertices_nonempty b1)) as (lo1 & hi1 & (L1 & _ & _) & E1 & E1').
  destruct (ends_exist (box_vertices b2) u (vertices_nonempty b2)) as (lo2 & hi2 & (_ & L2 & _) & E2 & E2').
  rewrite E1, E1', E2, E2' in T. apply negb_true_iff, orb_false_iff in T as [_ T]. apply not_true_iff_false in T. rewrite Rltb_iff in T.
  apply T. specialize (H1 lo1 L1). specialize (H2 hi2 L2). lra.
Qed.

(** A plank of half extents 3, 1, 1 turned by a quarter turn occupies 3 in the second
    direction, but the test still sees it along the first. *)
Definition plank : box := mkBox (table [0; 0; 0]) (table [3; 1; 1]) quarter.
Definition die (x y : R) : box := mkBox (table [x; y; 0]) (table [1/2; 1/2; 1/2]) eye.

Lemma die_proper x y : proper_box (die x y).
Proof.
  split; [|split]; intros i; intros; index_cases; unfold die, dot3, column, eye, matrix, table in *; simpl in *; try lra;
    destruct (Nat.eq_dec _ _); try lia; try lra.
Qed.
Lemma plank_box : orthonormal plank /\ extents_ok plank.
Proof.
  split; intros i; intros; index_cases; unfold plank, dot3, column, quarter, matrix, table in *; simpl in *; try lra;
    destruct (Nat.eq_dec _ _); try lia; try lra.
Qed.

Theorem box_test_misses_refuted :
  exists b1 b2, proper_box b1 /\ orthonormal b2 /\ extents_ok b2 /\ boxes_meet b1 b2 /\ box_test b1 b2 = false.
Proof.
  destruct plank_box as [PO PE].
  exists (die 0 (5/2)), plank. split; [apply die_proper|]. split; auto. split; auto. split.
  + exists (table [0; 5/2; 0]). split.
    * exists (table [0; 0; 0]). split; intros; index_cases; unfold die, eye, matrix, table; simpl; lra.
    * exists (table [5/6; 0; 0]). split; intros; index_cases; unfold plank, quarter, matrix, table; simpl; lra.
  + apply test_beyond with (u := column (die 0 (5/2)) 1) (k := 3/2).
    * unfold box_axes. simpl. auto.
    * intros v Hv. apply in_map_iff in Hv as (s & <- & Hs). pose proof (sign_bounds s Hs 0%nat ltac:(lia)). pose proof (sign_bounds s Hs 1%nat ltac:(lia)). pose proof (sign_bounds s Hs 2%nat ltac:(lia)).
      unfold dot3, box_vertex, die, column, eye, matrix, table. simpl. lra.
    * intros v Hv. apply in_map_iff in Hv as (s & <- & Hs). pose proof (sign_bounds s Hs 0%nat ltac:(lia)). pose proof (sign_bounds s Hs 1%nat ltac:(lia)). pose proof (sign_bounds s Hs 2%nat ltac:(lia)).
      unfold dot3, box_vertex, die, plank, quarter, column, eye, matrix, table. simpl. lra.
Qed.

Theorem box_test_false_alarm_refuted :
  exists b1 b2, proper_box b1 /\ orthonormal b2 /\ extents_ok b2 /\ ~ boxes_meet b1 b2 /\ box_test b1 b2 = true.
Proof.
  destruct plank_box as [PO PE].
  exists (die (5/2) 0), plank. split; [apply die_proper|]. split; auto. split; auto. split.
  + intros (p & (s & Hs & Es) & (t & Ht & Et)).
    pose proof (Es 0%nat ltac:(lia)) as X. pose proof (Et 0%nat ltac:(lia)) as Y.
    pose proof (Hs 0%nat ltac:(lia)). pose proof (Ht 1%nat ltac:(lia)).
    unfold die, plank, eye, quarter, matrix, table in *. simpl in *. lra.
  + apply shapes_meet with (table [5/2; 0; 0]).
    * exists (table [0; 0; 0]). split; intros; index_cases; unfold box_vertex, die, eye, matrix, table; simpl; lra.
    * exists (table [0; -5/6; 0]). split; intros; index_cases; unfold box_vertex, plank, quarter, matrix, table; simpl; lra.
Qed.

Print Assumptions box_test_never_misses.
Print Assumptions box_test_exact.
Print Assumptions box_test_misses_refuted.
Print Assumptions box_test_false_alarm_refuted.
