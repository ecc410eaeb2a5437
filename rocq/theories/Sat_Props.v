(** Properties of the planar separating-axis test
    (exps/tamp_environment/turtlebot_move/separating_axis.py). *)
From Coq Require Import Reals List Bool Arith Lra Lia Psatz.
From Verif Require Import Plane Sat_Model.
Import ListNotations.
Open Scope R_scope.

(** ** Specification *)
Definition vertex (l : list rpt) (i : nat) : rpt := nth i l (0, 0).

(** convex combinations of the vertices *)
Definition hull (l : list rpt) (p : rpt) : Prop :=
  exists ws, length ws = length l /\ (forall w, In w ws -> 0 <= w) /\
    wsum (combine ws l) = 1 /\ wx (combine ws l) = fst p /\ wy (combine ws l) = snd p.

(** Counterclockwise strictly convex polygon: every other vertex lies strictly to the left of
    every edge. *)
Definition strictly_convex (l : list rpt) : Prop :=
  (3 <= length l)%nat /\
  forall i j, (i < length l)%nat -> (j < length l)%nat -> j <> i -> j <> ((i + 1) mod length l)%nat ->
    0 < cross (vsub (vertex l ((i + 1) mod length l)) (vertex l i)) (vsub (vertex l j) (vertex l i)).

(** no two successive vertices coincide *)
Definition proper_edges (l : list rpt) : Prop :=
  l <> [] /\ forall i, (i < length l)%nat -> vertex l ((i + 1) mod length l) <> vertex l i.

Definition collide (a b : list rpt) : Prop := exists p, hull a p /\ hull b p.

(** ** Minimum and maximum *)
Lemma lmin_le l x : In x l -> lmin l <= x.
Proof.
  destruct l as [|y l]; simpl; [tauto|].
  assert (H : fold_right Rmin y l <= y /\ forall z, In z l -> fold_right Rmin y l <= z).
  { induction l as [|z l [IH1 IH2]]; simpl; [split; [lra|tauto]|].
    pose proof (Rmin_l z (fold_right Rmin y l)). pose proof (Rmin_r z (fold_right Rmin y l)).
    split; [lra|]. intros w [<-|Hw]; [auto|]. specialize (IH2 w Hw). lra. }
  destruct H as [H1 H2]. intros [<-|Hx]; auto.
Qed.
Lemma lmax_ge l x : In x l -> x <= lmax l.
Proof.
  destruct l as [|y l]; simpl; [tauto|].
  assert (H : y <= fold_right Rmax y l /\ forall z, In z l -> z <= fold_right Rmax y l).
  { induction l as [|z l [IH1 IH2]]; simpl; [split; [lra|tauto]|].
    pose proof (Rmax_l z (fold_right Rmax y l)). pose proof (Rmax_r z (fold_right Rmax y l)).
    split; [lra|]. intros w [<-|Hw]; [auto|]. specialize (IH2 w Hw). lra. }
  destruct H as [H1 H2]. intros [<-|Hx]; auto.
Qed.
Lemma lmin_In l : l <> [] -> In (lmin l) l.
Proof.
  destruct l as [|y l]; [congruence|]. intros _. simpl. induction l as [|z l IH]; simpl; auto.
  assert (E : Rmin z (fold_right Rmin y l) = z \/ Rmin z (fold_right Rmin y l) = fold_right Rmin y l)
    by (unfold Rmin at 1 3; destruct (Rle_dec z (fold_right Rmin y l)); auto).
  destruct E as [->| ->]; [auto|]. destruct IH as [IH|IH]; auto.
Qed.
Lemma lmax_In l : l <> [] -> In (lmax l) l.
Proof.
  destruct l as [|y l]; [congruence|]. intros _. simpl. induction l as [|z l IH]; simpl; auto.
  assert (E : Rmax z (fold_right Rmax y l) = z \/ Rmax z (fold_right Rmax y l) = fold_right Rmax y l)
    by (unfold Rmax at 1 3; destruct (Rle_dec z (fold_right Rmax y l)); auto).
  destruct E as [->| ->]; [auto|]. destruct IH as [IH|IH]; auto.
Qed.

Lemma project_le vs u : vs <> [] -> fst (project vs u) <= snd (project vs u).
Proof.
  intro H. unfold project. cbn [fst snd]. apply lmin_le, lmax_In. destruct vs; [congruence|discriminate].
Qed.

Lemma Rleb_iff x y : Rleb x y = true <-> x <= y.
Proof. unfold Rleb. destruct (Rle_dec x y); split; auto; discriminate. Qed.

Lemma vec_overlap_eq a b u : a <> [] -> b <> [] -> vec_overlap (project a u) (project b u) = overlap (project a u) (project b u).
Proof.
  intros Ha Hb. pose proof (project_le a u Ha). pose proof (project_le b u Hb). unfold vec_overlap, overlap.
  rewrite (Rmin_left (fst (project a u))), (Rmin_left (fst (project b u))), (Rmax_right (fst (project b u))), (Rmax_right (fst (project a u))) by auto. reflexivity.
Qed.

(** The projections overlap iff neither polygon lies strictly beyond the other. *)
Lemma overlap_iff a b u : a <> [] -> b <> [] ->
  (overlap (project a u) (project b u) = true <->
   (exists p q, In p a /\ In q b /\ dot p u <= dot q u) /\ (exists p q, In p a /\ In q b /\ dot q u <= dot p u)).
Proof.
  intros Ha Hb. rewrite <- vec_overlap_eq by auto. unfold vec_overlap, project. cbn [fst snd].
  rewrite andb_true_iff, !Rleb_iff.
  assert (Na : map (fun v => dot v u) a <> []) by (destruct a; [congruence|discriminate]).
  assert (Nb : map (fun v => dot v u) b <> []) by (destruct b; [congruence|discriminate]).
  split.
  - intros [A B]. split.
    + pose proof (lmin_In _ Na) as I. pose proof (lmax_In _ Nb) as J.
      apply in_map_iff in I as (p & Ep & Hp). apply in_map_iff in J as (q & Eq & Hq). exists p, q. split; auto. split; auto. rewrite Ep, Eq. auto.
    + pose proof (lmax_In _ Na) as I. pose proof (lmin_In _ Nb) as J.
      apply in_map_iff in I as (p & Ep & Hp). apply in_map_iff in J as (q & Eq & Hq). exists p, q. split; auto. split; auto. rewrite Ep, Eq. auto.
  - intros [(p & q & Hp & Hq & A) (p' & q' & Hp' & Hq' & B)].
    pose proof (lmin_le _ _ (in_map (fun v => dot v u) a p Hp)). pose proof (lmax_ge _ _ (in_map (fun v => dot v u) b q Hq)).
    pose proof (lmin_le _ _ (in_map (fun v => dot v u) b q' Hq')). pose proof (lmax_ge _ _ (in_map (fun v => dot v u) a p' Hp')).
    cbn beta in *. lra.
Qed.

(** ** Never missing a collision *)
Lemma wsum_bound (f : rpt -> R) m (ws : list R) : forall l, length ws = length l -> (forall w, In w ws -> 0 <= w) ->
  (forall v, In v l -> m <= f v) -> m * wsum (combine ws l) <= fold_right (fun x a => fst x * f (snd x) + a) 0 (combine ws l).
Proof.
  induction ws as [|w ws IH]; intros [|v l] L W F; try (exfalso; simpl in L; lia); simpl; [lra|].
  simpl in L.
  specialize (IH l ltac:(lia) ltac:(intros; apply W; simpl; auto) ltac:(intros; apply F; simpl; auto)).
  assert (0 <= w) by (apply W; simpl; auto). assert (m <= f v) by (apply F; simpl; auto).
  assert (m * w <= w * f v) by (rewrite Rmult_comm; apply Rmult_le_compat_l; auto).
  rewrite Rmult_plus_distr_l. apply Rplus_le_compat; auto.
Qed.

Lemma dot_combination u (l : list (R * rpt)) : fold_right (fun x a => fst x * dot (snd x) u + a) 0 l = wx l * fst u + wy l * snd u.
Proof.
  induction l as [|[w v] l IH]; simpl; [ring|]. unfold wx, wy in *. simpl. rewrite IH. unfold dot. ring.
Qed.

Lemma hull_dot l p u m : hull l p -> (forall v, In v l -> m <= dot v u) -> m <= dot p u.
Proof.
  intros (ws & L & W & S & X & Y) F. pose proof (wsum_bound (fun v => dot v u) m ws l L W F) as H.
  rewrite S, dot_combination, X, Y in H. unfold dot in *. lra.
Qed.
Lemma hull_nonempty l p : hull l p -> l <> [].
Proof. intros (ws & L & _ & S & _) ->. destruct ws; simpl in *; [lra|lia]. Qed.

Lemma hull_reach l p u : hull l p -> (exists v, In v l /\ dot v u <= dot p u) /\ (exists v, In v l /\ dot p u <= dot v u).
Proof.
  intro H. pose proof (hull_nonempty _ _ H) as Ne.
  assert (N : map (fun v => dot v u) l <> []) by (destruct l; [congruence|discriminate]).
  split.
  - pose proof (lmin_In _ N) as I. apply in_map_iff in I as (v & E & Hv). exists v. split; auto. cbn beta in E. rewrite E.
    apply (hull_dot l p u); auto. intros v' Hv'. apply lmin_le. now apply (in_map (fun v => dot v u)).
  - pose proof (lmax_In _ N) as I. apply in_map_iff in I as (v & E & Hv). exists v. split; auto. cbn beta in E.
    assert (B : - dot v u <= dot p (- fst u, - snd u)).
    { apply (hull_dot l p); auto. intros v' Hv'. pose proof (lmax_ge _ _ (in_map (fun v => dot v u) l v' Hv')) as G. cbn beta in G.
      unfold dot in *. cbn [fst snd]. lra. }
    unfold dot in *. cbn [fst snd] in B. lra.
Qed.

Lemma collide_overlaps a b u : collide a b -> overlaps_on a b (Some u) = true.
Proof.
  intros (p & A & B). simpl. apply overlap_iff; [eapply hull_nonempty; eauto|eapply hull_nonempty; eauto|].
  destruct (hull_reach a p u A) as [(v1 & I1 & D1) (v2 & I2 & D2)]. destruct (hull_reach b p u B) as [(w1 & J1 & E1) (w2 & J2 & E2)].
  split; [exists v1, w2|exists v2, w1]; repeat split; auto; lra.
Qed.

Lemma edges_length l : length (vertices_to_edges l) = length l.
Proof. unfold vertices_to_edges. now rewrite map_length, seq_length. Qed.
Lemma axes_length l : length (axes l) = length l.
Proof. unfold axes. now rewrite map_length, edges_length. Qed.

Lemma edge_nth l i : (i < length l)%nat ->
  nth i (vertices_to_edges l) (0, 0) = edge_direction (vertex l i) (vertex l ((i + 1) mod length l)).
Proof.
  intro H. unfold vertices_to_edges.
  set (f := fun i => _). rewrite nth_indep with (d' := f 0%nat) by (rewrite map_length, seq_length; auto).
  rewrite map_nth, seq_nth by auto. reflexivity.
Qed.
Lemma axis_nth l i : (i < length l)%nat ->
  nth i (axes l) None = normalize (orthogonal (edge_direction (vertex l i) (vertex l ((i + 1) mod length l)))).
Proof.
  intro H. unfold axes. set (f := fun e => _). rewrite nth_indep with (d' := f (0, 0)) by (rewrite map_length, edges_length; auto).
  rewrite map_nth, edge_nth by auto. reflexivity.
Qed.

Lemma sqrt_zero x y : sqrt (x * x + y * y) = 0 -> x = 0 /\ y = 0.
Proof.
  intro H. apply sqrt_eq_0 in H; [|nra]. split; nra.
Qed.
Lemma normalize_some v : v <> (0, 0) -> exists c, 0 < c /\ normalize v = Some (fst v / c, snd v / c).
Proof.
  intro H. unfold normalize. destruct (Req_EM_T _ 0) as [E|E].
  - apply sqrt_zero in E as [E1 E2]. destruct v; simpl in *; subst; congruence.
  - exists (sqrt (fst v * fst v + snd v * snd v)). split; auto.
    pose proof (sqrt_pos (fst v * fst v + snd v * snd v)). lra.
Qed.

Lemma axis_proper l i : proper_edges l -> (i < length l)%nat -> exists u, nth i (axes l) None = Some u.
Proof.
  intros [_ P] H. rewrite axis_nth by auto. destruct (normalize_some (orthogonal (edge_direction (vertex l i) (vertex l ((i + 1) mod length l))))) as (c & _ & E); eauto.
  intro E. apply (P i H). unfold orthogonal, edge_direction in E. injection E as E1 E2.
  destruct (vertex l ((i + 1) mod length l)), (vertex l i). cbn [fst snd] in *. f_equal; lra.
Qed.

Lemma vec_overlaps_eq a b ax : a <> [] -> b <> [] -> vec_overlaps_on a b ax = overlaps_on a b ax.
Proof. intros Ha Hb. destruct ax; simpl; auto. now apply vec_overlap_eq. Qed.

Lemma vec_edges_eq l : vec_vertices_to_edges l = vertices_to_edges l.
Proof.
  destruct l as [|p l]; [reflexivity|]. unfold vec_vertices_to_edges, vertices_to_edges, roll.
  apply nth_ext with (d := (0, 0)) (d' := edge_direction (0, 0) (0, 0)).
  { rewrite !map_length, combine_length, app_length, seq_length. simpl. lia. }
  intros i Hi. rewrite map_length, combine_length, app_length in Hi. simpl in Hi.
  set (f := fun xy : rpt * rpt => _). rewrite nth_indep with (d' := f ((0, 0), (0, 0)))
    by (rewrite map_length, combine_length, app_length; simpl; lia).
  rewrite map_nth, combine_nth by (rewrite app_length; simpl; lia).
  set (g := fun i : nat => _). rewrite (nth_indep (map g _) _ (g 0%nat)) by (rewrite map_length, seq_length; simpl; lia).
  rewrite (map_nth g), seq_nth by (simpl; lia). unfold f, g. cbn [Nat.add fst snd].
  unfold edge_direction. destruct (Nat.eq_dec i (length l)) as [->|Ne].
  - rewrite app_nth2 by lia. rewrite Nat.sub_diag. replace (length l + 1)%nat with (length (p :: l)) by (simpl; lia).
    rewrite Nat.mod_same by (simpl; lia). reflexivity.
  - rewrite app_nth1 by lia. rewrite Nat.mod_small by (simpl; lia). replace (i + 1)%nat with (S i) by lia. reflexivity.
Qed.
Lemma vec_axes_eq l : vec_axes l = axes l.
Proof. unfold vec_axes, axes. now rewrite vec_edges_eq. Qed.

(** each entry of the batch is the conjunction of its rounds *)
Lemma vec_batch n m batch : (n <= m)%nat ->
  vec_separating_axis n m batch = Some (map (fun ab => forallb (fun i => round i ab) (seq 0 n)) batch).
Proof.
  intro Hnm. unfold vec_separating_axis. replace (m <? n)%nat with false by (symmetry; apply Nat.ltb_ge; auto). f_equal.
  assert (G : forall l (done : list rpt * list rpt -> bool),
    fold_left (fun results i => map (fun rb => fst rb && round i (snd rb)) (combine results batch)) l (map done batch)
    = map (fun ab => done ab && forallb (fun i => round i ab) l) batch).
  { induction l as [|i l IH]; intro done; simpl.
    - apply map_ext. intro. now rewrite andb_true_r.
    - assert (E : map (fun rb : bool * (list rpt * list rpt) => fst rb && round i (snd rb)) (combine (map done batch) batch) = map (fun ab => done ab && round i ab) batch).
      { clear. induction batch as [|x l IH]; simpl; auto. now rewrite IH. }
      rewrite E, IH. apply map_ext. intro. now rewrite andb_assoc. }
  replace (repeat true (length batch)) with (map (fun _ : list rpt * list rpt => true) batch).
  - rewrite G. reflexivity.
  - clear. induction batch; simpl; congruence.
Qed.

Lemma vec_equals_scalar n a b : a <> [] -> length a = n -> length b = n ->
  forallb (fun i => round i (a, b)) (seq 0 n) = separating_axis a b.
Proof.
  intros Ha La Lb. assert (Hb : b <> []) by (destruct b, a; simpl in *; congruence || lia).
  unfold separating_axis. rewrite forallb_app. apply eq_true_iff_eq. rewrite andb_true_iff, !forallb_forall. split.
  - intro H. split; intros ax Hin; apply (In_nth _ _ None) in Hin as (i & Hi & <-); rewrite axes_length in Hi;
      specialize (H i ltac:(apply in_seq; lia)); apply andb_true_iff in H as [H1 H2]; rewrite vec_overlaps_eq, vec_axes_eq in H1, H2 by auto; auto.
  - intros [H1 H2] i Hi. apply in_seq in Hi. unfold round. rewrite !vec_overlaps_eq, !vec_axes_eq by auto.
    rewrite H1, H2; auto; apply nth_In; rewrite axes_length; lia.
Qed.

Theorem separating_axis_never_misses a b : proper_edges a -> proper_edges b -> collide a b -> separating_axis a b = true.
Proof.
  intros Pa Pb C. unfold separating_axis. apply forallb_forall. intros ax H. apply in_app_or in H.
  assert (S : exists u, ax = Some u).
  { destruct H as [H|H]; apply (In_nth _ _ None) in H as (i & Hi & <-); rewrite axes_length in Hi;
      [apply (axis_proper a)|apply (axis_proper b)]; auto. }
  destruct S as [u ->]. now apply collide_overlaps.
Qed.

(** The batched test answers every pair as the one-pair test does. *)
Theorem vec_separating_axis_batch n batch :
  (forall a b, In (a, b) batch -> (0 < n)%nat /\ length a = n /\ length b = n) ->
  vec_separating_axis n n batch = Some (map (fun ab => separating_axis (fst ab) (snd ab)) batch).
Proof.
  intro H. rewrite vec_batch by auto. f_equal. apply map_ext_in. intros [a b] Hin. destruct (H a b Hin) as (Hn & La & Lb).
  cbn [fst snd]. apply vec_equals_scalar; auto. intros ->. simpl in La. lia.
Qed.

(** With more vertices in the second polygons it still misses no collision. *)
Theorem vec_separating_axis_never_misses n m batch results :
  vec_separating_axis n m batch = Some results ->
  (forall a b, In (a, b) batch -> length a = n /\ length b = m /\ proper_edges a /\ proper_edges b) ->
  forall k a b, nth_error batch k = Some (a, b) -> collide a b -> nth_error results k = Some true.
Proof.
  intros E H k a b Hk C. assert (Hnm : (n <= m)%nat).
  { unfold vec_separating_axis in E. destruct (Nat.ltb_spec m n); [discriminate|auto]. }
  rewrite vec_batch in E by auto. injection E as <-. rewrite nth_error_map, Hk. cbn [option_map]. f_equal.
  destruct (H a b (nth_error_In _ _ Hk)) as (La & Lb & Pa & Pb).
  apply forallb_forall. intros i Hi. apply in_seq in Hi. unfold round. rewrite !vec_axes_eq, !vec_overlaps_eq by (apply Pa || apply Pb).
  destruct (axis_proper a i Pa ltac:(lia)) as (u & ->). destruct (axis_proper b i Pb ltac:(lia)) as (v & ->).
  now rewrite !collide_overlaps.
Qed.

(** ** Exactness on convex polygons *)
Definition inside_edge (l : list rpt) (i : nat) (p : rpt) : Prop :=
  0 <= cross (vsub (vertex l ((i + 1) mod length l)) (vertex l i)) (vsub p (vertex l i)).

Lemma inside_edge_convex l i : convex (inside_edge l i).
Proof. intros p q t Ht. unfold inside_edge, cross, vsub. cbn [fst snd]. intros A B. nra. Qed.

Lemma vertex_inside l i j : strictly_convex l -> (i < length l)%nat -> (j < length l)%nat -> inside_edge l i (vertex l j).
Proof.
  intros [L S] Hi Hj. unfold inside_edge. destruct (Nat.eq_dec j i) as [->|Ne].
  - unfold cross, vsub. cbn [fst snd]. right. ring.
  - destruct (Nat.eq_dec j ((i + 1) mod length l)) as [->|Ne'].
    + right. unfold cross. ring.
    + left. now apply S.
Qed.

Lemma strictly_convex_proper l : strictly_convex l -> proper_edges l.
Proof.
  intros [L S]. split; [intros ->; simpl in L; lia|]. intros i Hi E.
  assert (J : exists j, (j < length l)%nat /\ j <> i /\ j <> ((i + 1) mod length l)%nat).
  { destruct (Nat.eq_dec i (length l - 1)) as [->|Ne].
    - exists 1%nat. replace (length l - 1 + 1)%nat with (length l) by lia. rewrite Nat.mod_same by lia. lia.
    - rewrite Nat.mod_small by lia. destruct i as [|i]; [exists 2%nat; lia|exists i; lia]. }
  destruct J as (j & Hj & N1 & N2). specialize (S i j Hi Hj N1 N2). rewrite E in S. unfold cross, vsub in S. simpl in S. lra.
Qed.

(** a sign change along the vertices *)
Lemma sign_change (f : nat -> R) : forall m a, (1 <= m)%nat -> 0 <= f a -> f (a + m)%nat <= 0 ->
  exists i, (a <= i < a + m)%nat /\ 0 <= f i /\ f (S i) <= 0.
Proof.
  induction m as [|m IH]; intros a Hm A B; [lia|].
  destruct (Rle_lt_dec (f (S a)) 0) as [L|L]; [exists a; split; [lia|auto]|].
  destruct m as [|m]; [replace (a + 1)%nat with (S a) in B by lia; lra|].
  destruct (IH (S a)) as (i & Hi & C); [lia|lra|replace (S a + S m)%nat with (a + S (S m))%nat by lia; auto|].
  exists i. split; [lia|auto].
Qed.

(** weights at three positions *)
Definition weights3 (n i : nat) (a b c : R) : list R :=
  map (fun j => if (j =? 0)%nat then a else if (j =? i)%nat then b else if (j =? S i)%nat then c else 0) (seq 0 n).

Lemma sum_single (g : nat -> R) (n k : nat) v s : (s <= k < s + n)%nat ->
  fold_right (fun j acc => (if (j =? k)%nat then v else 0) * g j + acc) 0 (seq s n) = v * g k.
Proof.
  revert s. induction n as [|n IH]; intros s H; [lia|]. simpl. destruct (Nat.eqb_spec s k) as [->|Ne].
  - assert (Z : forall s', (k < s')%nat -> fold_right (fun j acc => (if (j =? k)%nat then v else 0) * g j + acc) 0 (seq s' n) = 0).
    { clear. induction n as [|n IH]; intros s' H; simpl; auto. rewrite IH by lia. destruct (Nat.eqb_spec s' k); [lia|ring]. }
    rewrite Z by lia. ring.
  - rewrite IH by lia. ring.
Qed.

Lemma weights3_sum (g : nat -> R) n i a b c : (1 <= i)%nat -> (S i < n)%nat ->
  fold_right (fun j acc => (if (j =? 0)%nat then a else if (j =? i)%nat then b else if (j =? S i)%nat then c else 0) * g j + acc) 0 (seq 0 n)
  = a * g 0%nat + b * g i + c * g (S i).
Proof.
  intros H1 H2.
  rewrite <- (sum_single g n 0 a 0), <- (sum_single g n i b 0), <- (sum_single g n (S i) c 0) by lia.
  induction (seq 0 n) as [|j l IH]; simpl; [ring|]. rewrite IH.
  destruct (Nat.eqb_spec j 0); destruct (Nat.eqb_spec j i); destruct (Nat.eqb_spec j (S i)); try lia; ring.
Qed.

Lemma combine_fold (f : nat -> R) (h : rpt -> R) (l : list rpt) s : 
  fold_right (fun x acc => fst x * h (snd x) + acc) 0 (combine (map f (seq s (length l))) l)
  = fold_right (fun j acc => f j * h (nth (j - s) l (0, 0)) + acc) 0 (seq s (length l)).
Proof.
  revert s. induction l as [|p l IH]; intro s; simpl; auto. rewrite Nat.sub_diag. rewrite IH. f_equal.
  assert (E : forall m, (s < m)%nat -> fold_right (fun j acc => f j * h (nth (j - S s) l (0, 0)) + acc) 0 (seq m (length l))
     = fold_right (fun j acc => f j * h (match (j - s)%nat with O => p | S k => nth k l (0, 0) end) + acc) 0 (seq m (length l))).
  { generalize (length l). intro n. induction n as [|n IHn]; intros m Hm; simpl; auto. rewrite IHn by lia.
    replace (m - s)%nat with (S (m - S s)) by lia. reflexivity. }
  apply E. lia.
Qed.

(** A point inside all edges of a strictly convex polygon is in its convex hull: the fan of
    triangles from vertex 0 covers it. *)
Lemma inside_hull l p : strictly_convex l -> (forall i, (i < length l)%nat -> inside_edge l i p) -> hull l p.
Proof.
  intros [L S] H. set (n := length l) in *.
  set (f := fun i => cross (vsub (vertex l i) (vertex l 0)) (vsub p (vertex l 0))).
  assert (F1 : 0 <= f 1%nat).
  { specialize (H 0%nat ltac:(lia)). unfold inside_edge in H. fold n in H. rewrite Nat.mod_small in H by lia. exact H. }
  assert (Fn : f (n - 1)%nat <= 0).
  { specialize (H (n - 1)%nat ltac:(lia)). unfold inside_edge in H. fold n in H. replace (n - 1 + 1)%nat with n in H by lia.
    rewrite Nat.mod_same in H by lia. unfold f, cross, vsub in *. cbn [fst snd] in *. nra. }
  destruct (sign_change f (n - 2) 1 ltac:(lia) F1) as (i & Hi & A & B); [replace (1 + (n - 2))%nat with (n - 1)%nat by lia; auto|].
  specialize (H i ltac:(lia)). unfold inside_edge in H. fold n in H. rewrite Nat.mod_small in H by lia. replace (i + 1)%nat with (Datatypes.S i) in H by lia.
  pose proof (S i 0%nat ltac:(lia) ltac:(lia) ltac:(lia)) as D. rewrite Nat.mod_small in D by lia. specialize (D ltac:(lia)).
  replace (i + 1)%nat with (Datatypes.S i) in D by lia.
  set (al := cross (vsub (vertex l (Datatypes.S i)) (vertex l i)) (vsub p (vertex l i))) in *.
  set (be := - f (Datatypes.S i)). set (ga := f i).
  set (d := cross (vsub (vertex l (Datatypes.S i)) (vertex l i)) (vsub (vertex l 0) (vertex l i))) in *.
  assert (Sum : al + be + ga = d) by (unfold al, be, ga, d, f, cross, vsub; cbn [fst snd]; ring).
  assert (X : al * fst (vertex l 0) + be * fst (vertex l i) + ga * fst (vertex l (Datatypes.S i)) = d * fst p)
    by (unfold al, be, ga, d, f, cross, vsub; cbn [fst snd]; ring).
  assert (Y : al * snd (vertex l 0) + be * snd (vertex l i) + ga * snd (vertex l (Datatypes.S i)) = d * snd p)
    by (unfold al, be, ga, d, f, cross, vsub; cbn [fst snd]; ring).
  exists (weights3 n i (al / d) (be / d) (ga / d)). unfold weights3. split; [rewrite map_length, seq_length; auto|]. split.
  { intros w Hw. apply in_map_iff in Hw as (j & <- & _).
    assert (0 <= al / d) by (apply Rmult_le_pos; [auto|apply Rlt_le, Rinv_0_lt_compat; auto]).
    assert (0 <= be / d) by (apply Rmult_le_pos; [unfold be; lra|apply Rlt_le, Rinv_0_lt_compat; auto]).
    assert (0 <= ga / d) by (apply Rmult_le_pos; [unfold ga; lra|apply Rlt_le, Rinv_0_lt_compat; auto]).
    destruct (j =? 0)%nat; auto. destruct (j =? i)%nat; auto. destruct (j =? Datatypes.S i)%nat; auto. lra. }
  assert (G : forall h : rpt -> R, fold_right (fun x acc => fst x * h (snd x) + acc) 0
     (combine (map (fun j => if (j =? 0)%nat then al / d else if (j =? i)%nat then be / d else if (j =? Datatypes.S i)%nat then ga / d else 0) (seq 0 n)) l)
     = al / d * h (vertex l 0) + be / d * h (vertex l i) + ga / d * h (vertex l (Datatypes.S i))).
  { intro h. unfold n. rewrite combine_fold. fold n.
    rewrite <- (weights3_sum (fun j => h (vertex l j)) n i) by lia.
    clear. induction (seq 0 n) as [|j m IH]; simpl; auto. rewrite IH, Nat.sub_0_r. reflexivity. }
  split; [|split].
  - unfold wsum. pose proof (G (fun _ => 1)) as G1. cbn beta in G1.
    transitivity (al / d * 1 + be / d * 1 + ga / d * 1); [|rewrite <- Sum; field; lra].
    rewrite <- G1. clear. induction (combine _ l) as [|x m IH]; simpl; auto. rewrite IH. ring.
  - unfold wx. rewrite (G fst). replace (fst p) with (d * fst p / d) by (field; lra). rewrite <- X. field. lra.
  - unfold wy. rewrite (G snd). replace (snd p) with (d * snd p / d) by (field; lra). rewrite <- Y. field. lra.
Qed.

Lemma cross_dot l i p : cross (vsub (vertex l ((i + 1) mod length l)) (vertex l i)) (vsub p (vertex l i))
  = dot (vertex l i) (orthogonal (edge_direction (vertex l i) (vertex l ((i + 1) mod length l))))
    - dot p (orthogonal (edge_direction (vertex l i) (vertex l ((i + 1) mod length l)))).
Proof. unfold cross, vsub, dot, orthogonal, edge_direction. cbn [fst snd]. ring. Qed.

(** When the projections on the normal of an edge of l overlap, some vertex of the other
    polygon is on the inner side of that edge. *)
Lemma overlap_inside a l i : a <> [] -> strictly_convex l -> (i < length l)%nat ->
  (overlaps_on a l (nth i (axes l) None) = true \/ overlaps_on l a (nth i (axes l) None) = true) -> exists v, In v a /\ inside_edge l i v.
Proof.
  intros Ha Sc Hi O. pose proof (strictly_convex_proper l Sc) as P.
  rewrite axis_nth in O by auto. set (o := orthogonal _) in O.
  destruct (normalize_some o) as (c & Hc & E).
  { intro E. apply (proj2 P i Hi). unfold o, orthogonal, edge_direction in E. injection E as E1 E2.
    destruct (vertex l ((i + 1) mod length l)), (vertex l i). cbn [fst snd] in *. f_equal; lra. }
  rewrite E in O. cbn [overlaps_on] in O. rewrite !overlap_iff in O by (auto; apply P).
  assert (X : exists v w, In v a /\ In w l /\ dot v (fst o / c, snd o / c) <= dot w (fst o / c, snd o / c)).
  { destruct O as [[O _]|[_ (w & v & Hw & Hv & O)]]; [auto|]. exists v, w. auto. }
  destruct X as (v & w & Hv & Hw & D). exists v. split; auto.
  assert (D' : dot v o <= dot w o).
  { assert (Sc1 : forall z, dot z (fst o / c, snd o / c) = dot z o / c) by (intro z; unfold dot; cbn [fst snd]; field; lra).
    rewrite !Sc1 in D. apply Rmult_le_reg_r with (/ c); [now apply Rinv_0_lt_compat|exact D]. }
  apply (In_nth _ _ (0, 0)) in Hw as (j & Hj & <-). pose proof (vertex_inside l i j Sc Hi Hj) as I.
  unfold inside_edge in *. rewrite cross_dot in *. fold o in I |- *. unfold vertex at 2 in I. lra.
Qed.

Theorem separating_axis_exact a b : strictly_convex a -> strictly_convex b ->
  (separating_axis a b = true <-> collide a b).
Proof.
  intros Sa Sb. pose proof (strictly_convex_proper a Sa) as Pa. pose proof (strictly_convex_proper b Sb) as Pb.
  split; [|now apply separating_axis_never_misses].
  intro H. unfold separating_axis in H. rewrite forallb_app, andb_true_iff, !forallb_forall in H. destruct H as [HA HB].
  assert (La : (3 <= length a)%nat) by apply Sa. assert (Lb : (3 <= length b)%nat) by apply Sb.
  set (F := map (inside_edge a) (seq 0 (length a)) ++ map (inside_edge b) (seq 0 (length b))).
  assert (Cl : forall S, In S F -> (exists i, (i < length a)%nat /\ S = inside_edge a i) \/ (exists i, (i < length b)%nat /\ S = inside_edge b i)).
  { intros S HS. apply in_app_or in HS. destruct HS as [HS|HS]; apply in_map_iff in HS as (i & <- & Hi); apply in_seq in Hi; [left|right]; exists i; split; auto; lia. }
  assert (MA : forall k, (k < length a)%nat -> exists v, In v b /\ inside_edge a k v).
  { intros k Hk. apply overlap_inside; auto; [apply Pb|]. right. apply HA. apply nth_In. now rewrite axes_length. }
  assert (MB : forall k, (k < length b)%nat -> exists v, In v a /\ inside_edge b k v).
  { intros k Hk. apply overlap_inside; auto; [apply Pa|]. left. apply HB. apply nth_In. now rewrite axes_length. }
  assert (VA : forall v k, In v a -> (k < length a)%nat -> inside_edge a k v).
  { intros v k Hv Hk. apply (In_nth _ _ (0, 0)) in Hv as (j & Hj & <-). now apply vertex_inside. }
  assert (VB : forall v k, In v b -> (k < length b)%nat -> inside_edge b k v).
  { intros v k Hv Hk. apply (In_nth _ _ (0, 0)) in Hv as (j & Hj & <-). now apply vertex_inside. }
  assert (A0 : In (vertex a 0) a) by (apply nth_In; lia). assert (B0 : In (vertex b 0) b) by (apply nth_In; lia).
  destruct (helly F) as [p Hp].
  - intros S HS. destruct (Cl S HS) as [(i & _ & ->)|(i & _ & ->)]; apply inside_edge_convex.
  - intros X Y Z HX HY HZ. unfold meets3.
    destruct (Cl X HX) as [(i & Hi & ->)|(i & Hi & ->)]; destruct (Cl Y HY) as [(j & Hj & ->)|(j & Hj & ->)];
      destruct (Cl Z HZ) as [(k & Hk & ->)|(k & Hk & ->)].
    + exists (vertex a 0). auto.
    + destruct (MB k Hk) as (v & Hv & I). exists v. auto.
    + destruct (MB j Hj) as (v & Hv & I). exists v. auto.
    + destruct (MA i Hi) as (v & Hv & I). exists v. auto.
    + destruct (MB i Hi) as (v & Hv & I). exists v. auto.
    + destruct (MA j Hj) as (v & Hv & I). exists v. auto.
    + destruct (MA k Hk) as (v & Hv & I). exists v. auto.
    + exists (vertex b 0). auto.
  - exists p. split; apply inside_hull; auto; intros i Hi; apply Hp; apply in_or_app; [left|right]; apply in_map; apply in_seq; lia.
Qed.

(** Same for the batched test, polygon by polygon. *)
Corollary vec_separating_axis_exact n batch :
  (forall a b, In (a, b) batch -> length a = n /\ length b = n /\ strictly_convex a /\ strictly_convex b) ->
  exists results, vec_separating_axis n n batch = Some results /\ length results = length batch /\
    forall k a b, nth_error batch k = Some (a, b) ->
      (nth_error results k = Some true <-> collide a b) /\ (nth_error results k = Some false <-> ~ collide a b).
Proof.
  intro H. exists (map (fun ab => separating_axis (fst ab) (snd ab)) batch). split; [|split].
  - apply vec_separating_axis_batch. intros a b Hab. destruct (H a b Hab) as (La & Lb & [L _] & _). lia.
  - now rewrite map_length.
  - intros k a b Hk. rewrite nth_error_map, Hk. cbn [option_map fst snd].
    destruct (H a b (nth_error_In _ _ Hk)) as (_ & _ & Sa & Sb). pose proof (separating_axis_exact a b Sa Sb) as E.
    destruct (separating_axis a b); split; split; intro G; try discriminate; auto.
    + apply E. auto.
    + exfalso. apply G, E. auto.
    + apply E in G. discriminate.
    + intro C. apply E in C. discriminate.
Qed.

(** ** Examples *)
(** the three polygons of main(), separating_axis.py 138-145 *)
Definition ex_a : list rpt := [(0, 0); (70, 0); (0, 70)].
Definition ex_b : list rpt := [(70, 70); (150, 70); (70, 150)].
Definition ex_c : list rpt := [(30, 30); (150, 70); (70, 150)].

Lemma triangle_convex p q r : 0 < cross (vsub q p) (vsub r p) -> strictly_convex [p; q; r].
Proof.
  intro H. split; [simpl; lia|]. intros i j Hi Hj N1 N2. simpl in Hi, Hj.
  assert (Ci : (i = 0 \/ i = 1 \/ i = 2)%nat) by lia. assert (Cj : (j = 0 \/ j = 1 \/ j = 2)%nat) by lia.
  destruct Ci as [->|[->| ->]]; destruct Cj as [->|[->| ->]]; simpl in *; try lia; unfold vertex; simpl; unfold cross, vsub in *; simpl in *; lra.
Qed.

Example ex_convex : strictly_convex ex_a /\ strictly_convex ex_b /\ strictly_convex ex_c.
Proof. repeat split; try (simpl; lia); apply triangle_convex; unfold cross, vsub; simpl; lra. Qed.

Example ex_collide : separating_axis ex_a ex_c = true.
Proof.
  destruct ex_convex as (A & B & C). apply separating_axis_exact; auto. exists (30, 30). split.
  - exists [1/7; 3/7; 3/7]. repeat split; simpl; try lra. intros w [<-|[<-|[<-|[]]]]; lra.
  - exists [1; 0; 0]. repeat split; simpl; try lra. intros w [<-|[<-|[<-|[]]]]; lra.
Qed.
Example ex_apart : separating_axis ex_a ex_b = false.
Proof.
  destruct ex_convex as (A & B & C). destruct (separating_axis ex_a ex_b) eqn:E; auto. exfalso.
  apply separating_axis_exact in E as (p & Hp & Hq); auto.
  pose proof (hull_dot ex_a p (-1, -1) (-70) Hp) as D1. pose proof (hull_dot ex_b p (1, 1) 140 Hq) as D2.
  assert (-70 <= dot p (-1, -1)) by (apply D1; intros v [<-|[<-|[<-|[]]]]; unfold dot; simpl; lra).
  assert (140 <= dot p (1, 1)) by (apply D2; intros v [<-|[<-|[<-|[]]]]; unfold dot; simpl; lra).
  unfold dot in *. simpl in *. lra.
Qed.
Example ex_batch : vec_separating_axis 3 3 [(ex_a, ex_c); (ex_a, ex_b)] = Some [true; false].
Proof.
  rewrite vec_separating_axis_batch.
  - cbn [map fst snd]. now rewrite ex_collide, ex_apart.
  - intros a b [E|[E|[]]]; injection E as <- <-; simpl; lia.
Qed.

(** ** What fails outside those hypotheses *)
(** A repeated vertex makes both tests answer "no collision", even for overlapping polygons. *)
Theorem repeated_vertex_refuted :
  exists a b, length a = length b /\ collide a b /\ (forall p, hull a p <-> hull ex_a p) /\ strictly_convex b /\
    separating_axis a b = false /\ vec_separating_axis (length a) (length b) [(a, b)] = Some [false].
Proof.
  set (a := [(0, 0); (70, 0); (0, 70); (0, 70)] : list rpt). set (b := [(10, 10); (20, 10); (20, 20); (10, 20)] : list rpt).
  assert (Z : separating_axis a b = false).
  { unfold separating_axis. destruct (forallb _ _) eqn:E; auto. exfalso. rewrite forallb_forall in E.
    assert (N : nth 2 (axes a) None = None).
    { rewrite axis_nth by (simpl; lia). unfold a, vertex, orthogonal, edge_direction. simpl. unfold normalize. simpl.
      destruct (Req_EM_T _ 0) as [|Ne]; auto. exfalso. apply Ne.
      replace ((70 - 70) * (70 - 70) + - (0 - 0) * - (0 - 0)) with 0 by ring. apply sqrt_0. }
    assert (O : overlaps_on a b (nth 2 (axes a) None) = true) by (apply E; apply in_or_app; left; apply nth_In; rewrite axes_length; simpl; lia).
    rewrite N in O. discriminate. }
  exists a, b. split; [reflexivity|]. split; [|split; [|split; [|split; [exact Z|]]]].
  - exists (10, 10). split.
    + exists [5/7; 1/7; 1/7; 0]. repeat split; simpl; try lra. intros w [<-|[<-|[<-|[<-|[]]]]]; lra.
    + exists [1; 0; 0; 0]. repeat split; simpl; try lra. intros w [<-|[<-|[<-|[<-|[]]]]]; lra.
  - intro p. split.
    + intros (ws & L & W & S & X & Y). destruct ws as [|w0 [|w1 [|w2 [|w3 [|]]]]]; simpl in L; try lia.
      exists [w0; w1; w2 + w3]. simpl in *. repeat split; try lra. 
      intros w [<-|[<-|[<-|[]]]]; [apply W; auto|apply W; auto|]. assert (0 <= w2) by (apply W; auto). assert (0 <= w3) by (apply W; auto). lra.
    + intros (ws & L & W & S & X & Y). destruct ws as [|w0 [|w1 [|w2 [|]]]]; simpl in L; try lia.
      exists [w0; w1; w2; 0]. simpl in *. repeat split; try lra.
      intros w [<-|[<-|[<-|[<-|[]]]]]; [apply W; auto|apply W; auto|apply W; auto|lra].
  - split; [simpl; lia|]. intros i j Hi Hj N1 N2. simpl in Hi, Hj.
    assert (Ci : (i = 0 \/ i = 1 \/ i = 2 \/ i = 3)%nat) by lia. assert (Cj : (j = 0 \/ j = 1 \/ j = 2 \/ j = 3)%nat) by lia.
    destruct Ci as [->|[->|[->| ->]]]; destruct Cj as [->|[->|[->| ->]]]; simpl in *; try lia; unfold vertex; simpl; unfold cross, vsub; simpl; lra.
  - change (length a) with 4%nat. change (length b) with 4%nat. rewrite vec_separating_axis_batch; [cbn [map fst snd]; now rewrite Z|].
    intros x y [E|[]]. injection E as <- <-. simpl. lia.
Qed.

(** With more vertices in the second polygon the batched test skips edges: it reports a collision
    of polygons the one-pair test separates.  With fewer it raises. *)
Lemma overlaps_on_scale a b o c : 0 < c -> a <> [] -> b <> [] ->
  (exists p q, In p a /\ In q b /\ dot p o <= dot q o) -> (exists p q, In p a /\ In q b /\ dot q o <= dot p o) ->
  overlaps_on a b (Some (fst o / c, snd o / c)) = true.
Proof.
  intros Hc Ha Hb X Y. cbn [overlaps_on]. apply overlap_iff; auto.
  assert (Sc1 : forall z, dot z (fst o / c, snd o / c) = dot z o / c) by (intro z; unfold dot; cbn [fst snd]; field; lra).
  assert (I : 0 < / c) by now apply Rinv_0_lt_compat.
  split; [destruct X as (p & q & Hp & Hq & D)|destruct Y as (p & q & Hp & Hq & D)]; exists p, q; split; auto; split; auto; rewrite !Sc1; unfold Rdiv; apply Rmult_le_compat_r; lra.
Qed.

Ltac pick v w := exists v, w; split; [simpl; auto|split; [simpl; auto|unfold dot, orthogonal, edge_direction, vertex; simpl; lra]].
Theorem unequal_vertices_refuted :
  exists a b, strictly_convex a /\ strictly_convex b /\ ~ collide a b /\
    vec_separating_axis (length a) (length b) [(a, b)] = Some [true] /\
    vec_separating_axis (length b) (length a) [(b, a)] = None.
Proof.
  (* only the fourth edge of b, from (0,4) to (0,0), separates *)
  set (a := [(-10, 1); (-1, 2); (-12, 3)] : list rpt). set (b := [(0, 0); (4, 0); (2, 4); (0, 4)] : list rpt).
  assert (Sa : strictly_convex a) by (apply triangle_convex; unfold cross, vsub; simpl; lra).
  assert (Sb : strictly_convex b).
  { split; [simpl; lia|]. intros i j Hi Hj N1 N2. simpl in Hi, Hj.
    assert (Ci : (i = 0 \/ i = 1 \/ i = 2 \/ i = 3)%nat) by lia. assert (Cj : (j = 0 \/ j = 1 \/ j = 2 \/ j = 3)%nat) by lia.
    destruct Ci as [->|[->|[->| ->]]]; destruct Cj as [->|[->|[->| ->]]]; simpl in *; try lia; unfold vertex; simpl; unfold cross, vsub; simpl; lra. }
  assert (Na : a <> []) by discriminate. assert (Nb : b <> []) by discriminate.
  exists a, b. split; auto. split; auto. split; [|split].
  - intros (p & Hp & Hq).
    pose proof (hull_dot a p (-1, 0) 1 Hp) as D1. pose proof (hull_dot b p (1, 0) 0 Hq) as D2.
    assert (1 <= dot p (-1, 0)) by (apply D1; intros v [<-|[<-|[<-|[]]]]; unfold dot; simpl; lra).
    assert (0 <= dot p (1, 0)) by (apply D2; intros v [<-|[<-|[<-|[<-|[]]]]]; unfold dot; simpl; lra).
    unfold dot in *. simpl in *. lra.
  - change (length a) with 3%nat. change (length b) with 4%nat. rewrite vec_batch by lia. cbn [map]. f_equal. f_equal.
    assert (R : forall l i, strictly_convex l -> (i < length l)%nat ->
      let o := orthogonal (edge_direction (vertex l i) (vertex l ((i + 1) mod length l))) in
      (exists p q, In p a /\ In q b /\ dot p o <= dot q o) -> (exists p q, In p a /\ In q b /\ dot q o <= dot p o) ->
      overlaps_on a b (nth i (axes l) None) = true).
    { intros l i Sl Hi o X Y. rewrite axis_nth by auto. fold o. destruct (normalize_some o) as (c & Hc & ->).
      - intro E. apply (proj2 (strictly_convex_proper l Sl) i Hi). unfold o, orthogonal, edge_direction in E. injection E as E1 E2.
        destruct (vertex l ((i + 1) mod length l)), (vertex l i). cbn [fst snd] in *. f_equal; lra.
      - now apply overlaps_on_scale. }
    cbn [seq forallb]. unfold round. rewrite !vec_axes_eq, !vec_overlaps_eq by auto.
    rewrite (R a 0%nat); [|auto|simpl; lia|pick (-12, 3) (0, 0)|pick (-1, 2) (0, 4)].
    rewrite (R a 1%nat); [|auto|simpl; lia|pick (-10, 1) (2, 4)|pick (-1, 2) (0, 0)].
    rewrite (R a 2%nat); [|auto|simpl; lia|pick (-1, 2) (0, 0)|pick (-12, 3) (0, 0)].
    rewrite (R b 0%nat); [|auto|simpl; lia|pick (-12, 3) (0, 0)|pick (-10, 1) (0, 4)].
    rewrite (R b 1%nat); [|auto|simpl; lia|pick (-12, 3) (0, 0)|pick (-1, 2) (0, 0)].
    rewrite (R b 2%nat); [|auto|simpl; lia|pick (-10, 1) (0, 4)|pick (-12, 3) (0, 0)].
    reflexivity.
  - reflexivity.
Qed.

Print Assumptions separating_axis_never_misses.
Print Assumptions vec_separating_axis_batch.
Print Assumptions vec_separating_axis_never_misses.
Print Assumptions separating_axis_exact.
Print Assumptions vec_separating_axis_exact.
Print Assumptions repeated_vertex_refuted.
Print Assumptions unequal_vertices_refuted.
