(** Properties of interpolate_vectors (exps/tamp_environment/turtlebot_move/streams.py). *)
From Coq Require Import Reals List ZArith Lra Lia Psatz.
From Verif Require Import Interp_Model.
Import ListNotations.
Open Scope R_scope.

(** ** Specification *)
(** the point at parameter t of the segment from p to q *)
Fixpoint between (p q : list R) (t : R) : list R :=
  match p, q with
  | x :: p', y :: q' => (1 - t) * x + t * y :: between p' q' t
  | _, _ => []
  end.
Fixpoint sqdist (p q : list R) : R :=
  match p, q with
  | x :: p', y :: q' => (x - y) * (x - y) + sqdist p' q'
  | _, _ => 0
  end.
Definition distance (p q : list R) : R := sqrt (sqdist p q).
Fixpoint increasing (lo : R) (ts : list R) (hi : R) : Prop :=
  match ts with
  | [] => lo < hi
  | t :: ts' => lo < t /\ increasing t ts' hi
  end.
(** out is the path with points of its segments, in order, put between its vertices *)
Inductive refines : list (list R) -> list (list R) -> Prop :=
| refines_end p : refines [p] [p]
| refines_step p q path ts out : increasing 0 ts 1 -> refines (q :: path) out ->
    refines (p :: q :: path) (p :: map (between p q) ts ++ out).
Definition close_steps (d : R) (out : list (list R)) : Prop :=
  forall i a b, nth_error out i = Some a -> nth_error out (S i) = Some b -> distance a b <= d.

(** ** Lemmas *)
Lemma sqdist_nonneg p : forall q, 0 <= sqdist p q.
Proof. induction p as [|x p IH]; intros [|y q]; simpl; try lra. specialize (IH q). pose proof (Rle_0_sqr (x - y)). unfold Rsqr in *. lra. Qed.
Lemma norm_distance p q : length p = length q -> norm_vec (minus_vec q p) = distance p q.
Proof.
  intro L. unfold norm_vec, distance, minus_vec. f_equal. revert q L. induction p as [|x p IH]; intros [|y q] L; simpl in *; try lia; auto.
  rewrite IH by lia. ring.
Qed.
Lemma sqdist_between p : forall q s t, length p = length q -> sqdist (between p q s) (between p q t) = (t - s) * (t - s) * sqdist p q.
Proof. induction p as [|x p IH]; intros [|y q] s t L; simpl in *; try lia; [ring|]. rewrite IH by lia. ring. Qed.
Lemma distance_between p q s t : length p = length q -> s <= t -> distance (between p q s) (between p q t) = (t - s) * distance p q.
Proof.
  intros L H. unfold distance. rewrite sqdist_between by auto.
  rewrite sqrt_mult; [|pose proof (Rle_0_sqr (t - s)); unfold Rsqr in *; lra|apply sqdist_nonneg].
  rewrite sqrt_square by lra. reflexivity.
Qed.
Lemma between_0 p : forall q, length p = length q -> between p q 0 = p.
Proof. induction p as [|x p IH]; intros [|y q] L; simpl in *; try lia; auto. rewrite IH by lia. f_equal. ring. Qed.
Lemma between_1 p : forall q, length p = length q -> between p q 1 = q.
Proof. induction p as [|x p IH]; intros [|y q] L; simpl in *; try lia; auto. rewrite IH by lia. f_equal. ring. Qed.
Lemma linspace_between p q n k : length p = length q -> n <> 0%nat ->
  map (fun xy => fst xy + INR k * ((snd xy - fst xy) / INR n)) (combine p q) = between p q (INR k / INR n).
Proof.
  intros L N. assert (INR n <> 0) by (apply not_0_INR; auto). revert q L.
  induction p as [|x p IH]; intros [|y q] L; simpl in *; try lia; auto. rewrite IH by lia. f_equal. field. auto.
Qed.

Lemma ceil_bounds x : x <= IZR (ceil x) < x + 1.
Proof. unfold ceil. rewrite opp_IZR. destruct (base_Int_part (- x)). lra. Qed.

(** parameters k/n for k from s to n-1 *)
Lemma increasing_seq n : (0 < n)%nat -> forall m s, (s + m = n)%nat -> (0 < s)%nat ->
  increasing (INR (s - 1) / INR n) (map (fun k => INR k / INR n) (seq s m)) 1.
Proof.
  intros Hn. assert (P : 0 < INR n) by (apply lt_0_INR; lia).
  induction m as [|m IH]; intros s E Hs; simpl.
  - apply Rmult_lt_reg_r with (INR n); auto. unfold Rdiv. rewrite Rmult_assoc, Rinv_l by lra. rewrite Rmult_1_r, Rmult_1_l. apply lt_INR. lia.
  - split.
    + unfold Rdiv. apply Rmult_lt_compat_r; [now apply Rinv_0_lt_compat|]. apply lt_INR. lia.
    + specialize (IH (S s) ltac:(lia) ltac:(lia)). replace (S s - 1)%nat with s in IH by lia. exact IH.
Qed.

(** the points of a segment: parameters, spacing at most d *)
Lemma segment_spec thr p q : 0 < thr -> length p = length q -> exists ts,
  segment_points thr p q = map (between p q) ts ++ [q] /\ increasing 0 ts 1 /\
  (forall i, (i <= length ts)%nat -> (nth i (ts ++ [1]) 1 - nth i (0 :: ts) 0) * distance p q <= thr).
Proof.
  intros Ht L. unfold segment_points. rewrite norm_distance by auto. set (d := distance p q).
  destruct (Rlt_dec thr d) as [G|G].
  - destruct (ceil_bounds (d / thr)) as [C1 C2].
    set (n := Z.to_nat (ceil (d / thr) - 1 + 2)).
    assert (D1 : 1 < d / thr) by (apply Rmult_lt_reg_r with thr; auto; unfold Rdiv; rewrite Rmult_assoc, Rinv_l; lra).
    assert (Cz : (1 < ceil (d / thr))%Z) by (apply lt_IZR; lra).
    assert (Nn : (2 <= n)%nat) by (unfold n; lia).
    assert (Rn : INR n = IZR (ceil (d / thr)) + 1).
    { unfold n. rewrite INR_IZR_INZ, Z2Nat.id by lia. replace (ceil (d / thr) - 1 + 2)%Z with (ceil (d / thr) + 1)%Z by lia. now rewrite plus_IZR. }
    assert (P : 0 < INR n) by (apply lt_0_INR; lia).
    assert (Step : / INR n * d <= thr).
    { apply Rmult_le_reg_l with (INR n); auto. rewrite <- Rmult_assoc, Rinv_r, Rmult_1_l by lra.
      assert (d = d / thr * thr) by (field; lra). nra. }
    set (ts := map (fun k => INR k / INR n) (seq 1 (n - 1))). exists ts. split; [|split].
    + f_equal. unfold linspace_open. destruct n as [|n']; [lia|]. cbn [seq map tl]. unfold ts. rewrite map_map.
      replace (S n' - 1)%nat with n' by lia. apply map_ext. intro k. now apply linspace_between.
    + pose proof (increasing_seq n ltac:(lia) (n - 1) 1 ltac:(lia) ltac:(lia)) as I. simpl in I. unfold Rdiv in I at 1. rewrite Rmult_0_l in I. exact I.
    + intros i Hi. unfold ts in *. rewrite map_length, seq_length in Hi.
      assert (E0 : nth i (0 :: map (fun k => INR k / INR n) (seq 1 (n - 1))) 0 = INR i / INR n).
      { destruct i as [|i]; [simpl; unfold Rdiv; ring|]. cbn [nth]. set (f := fun k => INR k / INR n).
        rewrite nth_indep with (d' := f 0%nat) by (rewrite map_length, seq_length; lia). rewrite map_nth, seq_nth by lia. reflexivity. }
      assert (E1 : nth i (map (fun k => INR k / INR n) (seq 1 (n - 1)) ++ [1]) 1 = INR (S i) / INR n).
      { destruct (Nat.eq_dec i (n - 1)) as [->|Ne].
        - rewrite app_nth2 by (rewrite map_length, seq_length; lia). rewrite map_length, seq_length, Nat.sub_diag. simpl nth.
          replace (S (n - 1)) with n by lia. field. lra.
        - rewrite app_nth1 by (rewrite map_length, seq_length; lia). set (f := fun k => INR k / INR n).
          rewrite nth_indep with (d' := f 0%nat) by (rewrite map_length, seq_length; lia). rewrite map_nth, seq_nth by lia. reflexivity. }
      rewrite E0, E1, S_INR. replace ((INR i + 1) / INR n - INR i / INR n) with (/ INR n) by (field; lra). exact Step.
  - exists []. split; [reflexivity|]. split; [simpl; lra|]. intros [|i] Hi; [|simpl in Hi; lia]. simpl. lra.
Qed.

Lemma close_cons d a b l : distance a b <= d -> close_steps d (b :: l) -> close_steps d (a :: b :: l).
Proof.
  intros D H [|i] x y Hx Hy; simpl in *.
  - injection Hx as <-. injection Hy as <-. exact D.
  - apply (H i x y); auto.
Qed.

Lemma close_segment thr p q out : length p = length q -> forall ts s, 0 <= s -> increasing s ts 1 ->
  (forall i, (i <= length ts)%nat -> (nth i (ts ++ [1]) 1 - nth i (s :: ts) 0) * distance p q <= thr) ->
  close_steps thr (q :: out) -> close_steps thr (between p q s :: map (between p q) ts ++ q :: out).
Proof.
  intro L. induction ts as [|t ts IH]; intros s Hs I G H; simpl.
  - apply close_cons; auto. rewrite <- (between_1 p q L) at 2. simpl in I. rewrite distance_between by (auto; lra).
    apply (G 0%nat). simpl. lia.
  - destruct I as [I1 I2]. apply close_cons.
    + rewrite distance_between by (auto; lra). apply (G 0%nat). simpl. lia.
    + apply IH; auto; [lra|]. intros i Hi. apply (G (S i)). simpl. lia.
Qed.

(** Interpolation puts points between the vertices, keeps the vertices and their order, and
    leaves no step longer than the threshold. *)
Theorem interpolation_refines thr dim path : 0 < thr -> path <> [] -> (forall p, In p path -> length p = dim) ->
  exists out, interpolate_vectors thr path = Some out /\ refines path out /\ close_steps thr out.
Proof.
  intros Ht N D. destruct path as [|p path]; [congruence|]. clear N. simpl. eexists. split; [reflexivity|].
  revert p D. induction path as [|q path IH]; intros p D.
  - split; [constructor|]. intros [|i] a b Ha Hb; simpl in *; [discriminate|destruct i; discriminate].
  - destruct (IH q) as [R C]; [intros r Hr; apply D; simpl in *; tauto|].
    assert (L : length p = length q) by (rewrite !D by (simpl; auto); auto).
    destruct (segment_spec thr p q Ht L) as (ts & E & I & G).
    cbn [segments]. rewrite E, <- app_assoc. cbn [app]. split.
    + apply refines_step; auto.
    + rewrite <- (between_0 p q L) at 1. apply close_segment; auto. lra.
Qed.

(** consequences: the ends and all vertices survive, in order *)
Inductive subsequence {A} : list A -> list A -> Prop :=
| sub_nil l : subsequence [] l
| sub_keep x l l' : subsequence l l' -> subsequence (x :: l) (x :: l')
| sub_skip x l l' : subsequence l l' -> subsequence l (x :: l').
Lemma sub_app {A} (l1 l l' : list A) : subsequence l l' -> subsequence l (l1 ++ l').
Proof. intro H. induction l1; simpl; auto. now constructor. Qed.

Theorem interpolation_keeps_vertices path out : refines path out ->
  hd_error out = hd_error path /\ (forall d, last out d = last path d) /\ subsequence path out.
Proof.
  induction 1 as [p|p q path ts out I R (H1 & H2 & H3)].
  - split; auto. split; auto. apply sub_keep. constructor.
  - split; [reflexivity|]. split.
    + intro d. assert (No : out <> []) by (intros ->; discriminate).
      assert (G : forall l, last (l ++ out) d = last out d).
      { induction l as [|x l IHl]; simpl; auto. rewrite IHl. destruct (l ++ out) eqn:E; auto. apply app_eq_nil in E. tauto. }
      change (p :: map (between p q) ts ++ out) with ((p :: map (between p q) ts) ++ out). rewrite G, H2. reflexivity.
    + apply sub_keep. now apply sub_app.
Qed.

(** ** Example: a segment of length 5 and one of length 1 with threshold 2 *)
Example interpolation_example : exists out, interpolate_vectors 2 [[0; 0]; [3; 4]; [3; 5]] = Some out /\
  refines [[0; 0]; [3; 4]; [3; 5]] out /\ close_steps 2 out /\
  out = [[0; 0]; [3/4; 1]; [3/2; 2]; [9/4; 3]; [3; 4]; [3; 5]].
Proof.
  destruct (interpolation_refines 2 2 [[0; 0]; [3; 4]; [3; 5]]) as (out & E & R & C);
    [lra|discriminate|intros p [<-|[<-|[<-|[]]]]; reflexivity|].
  exists out. split; auto. split; auto. split; auto.
  unfold interpolate_vectors, segments, segment_points in E. rewrite !norm_distance in E by reflexivity.
  assert (D1 : distance [0; 0] [3; 4] = 5).
  { unfold distance. simpl. replace ((0 - 3) * (0 - 3) + ((0 - 4) * (0 - 4) + 0)) with (5 * 5) by ring. apply sqrt_square. lra. }
  assert (D2 : distance [3; 4] [3; 5] = 1).
  { unfold distance. simpl. replace ((3 - 3) * (3 - 3) + ((4 - 5) * (4 - 5) + 0)) with (1 * 1) by ring. apply sqrt_square. lra. }
  rewrite D1, D2 in E. destruct (Rlt_dec 2 5); [|lra]. destruct (Rlt_dec 2 1); [lra|].
  assert (K : ceil (5 / 2) = 3%Z).
  { destruct (ceil_bounds (5 / 2)) as [A B]. assert (2 < ceil (5 / 2))%Z by (apply lt_IZR; lra). assert (ceil (5 / 2) < 4)%Z by (apply lt_IZR; lra). lia. }
  rewrite K in E. simpl in E. injection E as <-.
  apply f_equal2; [reflexivity|].
  do 3 (apply f_equal2; [apply f_equal2; [field|apply f_equal2; [field|reflexivity]]|]). reflexivity.
Qed.

Print Assumptions interpolation_refines.
Print Assumptions interpolation_keeps_vertices.
