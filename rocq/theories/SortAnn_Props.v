(** C167: the lists of neighbours that brute_force_ann returns *)
From Coq Require Import Reals List Bool Arith Lra Lia Sorted Permutation.
From Verif Require Import Notebook_Model SortAnn_Model.
Import ListNotations.
Open Scope R_scope.

(** ** Specification *)
(** numpy's argsort: the places of the values, in an order in which the values do not decrease *)
Definition argsorts (argsort : list R -> list nat) : Prop :=
  forall l, Permutation (argsort l) (seq 0 (length l)) /\
    forall p q i j, nth_error (argsort l) p = Some i -> nth_error (argsort l) q = Some j -> (p <= q)%nat -> nth i l 0 <= nth j l 0.
(** coordinate [k] of point [i] *)
Definition at_ (data : list (list R)) (i k : nat) : R := nth k (nth i data []) 0.
(** point [j] lies in the cube with half width [g] around point [i], without the upper sides *)
Definition in_cube (data : list (list R)) (d : nat) (g : R) (i j : nat) : Prop :=
  forall k, (k < d)%nat -> at_ data i k - g <= at_ data j k < at_ data i k + g.

(** ** Proofs *)
Lemma in_slice {A} a b (l : list A) x : In x (slice a b l) <-> exists p, (a <= p < b)%nat /\ nth_error l p = Some x.
Proof.
  unfold slice. revert a b. induction l as [|y l IH]; intros a b.
  - rewrite skipn_nil, firstn_nil. split; [intros []|]. intros ([|p] & _ & E); discriminate.
  - destruct a as [|a].
    + cbn [skipn]. rewrite Nat.sub_0_r. destruct b as [|b]; [cbn; split; [intros []|intros (p & H & _); lia]|].
      cbn [firstn In]. specialize (IH 0%nat b). rewrite Nat.sub_0_r in IH. cbn [skipn] in IH. rewrite IH. split.
      * intros [<-|(p & H & E)]; [exists 0%nat; split; [lia|reflexivity]|exists (S p); split; [lia|exact E]].
      * intros ([|p] & H & E); cbn in E; [injection E as ->; auto|right; exists p; split; [lia|exact E]].
    + cbn [skipn]. destruct b as [|b]; [cbn; split; [intros []|intros (p & H & _); lia]|].
      replace (S b - S a)%nat with (b - a)%nat by lia. rewrite IH. split.
      * intros (p & H & E). exists (S p). split; [lia|exact E].
      * intros ([|p] & H & E); [lia|]. exists p. split; [lia|exact E].
Qed.
Lemma search_below : forall l v, (forall p q a b, nth_error l p = Some a -> nth_error l q = Some b -> (p <= q)%nat -> a <= b) ->
  forall p a, nth_error l p = Some a -> ((p < searchsorted l v)%nat <-> a < v).
Proof.
  induction l as [|x l IH]; intros v S p a E; [destruct p; discriminate|]. cbn [searchsorted]. destruct (Rlt_dec x v) as [H|H].
  - destruct p as [|p]; [cbn in E; injection E as <-; split; [auto|lia]|]. rewrite <- (IH v) with (p := p) (a := a); [lia| |exact E].
    intros p' q' b c F G K. apply (S (Datatypes.S p') (Datatypes.S q')); auto. lia.
  - split; [lia|]. intros K. specialize (S 0%nat p x a eq_refl E ltac:(lia)). lra.
Qed.
Lemma insert_once_In x y l : In y (insert_once x l) <-> y = x \/ In y l.
Proof.
  induction l as [|z l IH]; cbn [insert_once]; [cbn; intuition|]. destruct (Nat.ltb_spec x z); [cbn; intuition|].
  destruct (Nat.eqb_spec x z) as [->|]; [cbn; intuition|]. cbn [In]. rewrite IH. intuition.
Qed.
Lemma insert_once_sorted x l : StronglySorted lt l -> StronglySorted lt (insert_once x l).
Proof.
  induction 1 as [|y l S IH F]; cbn [insert_once]; [repeat constructor|]. destruct (Nat.ltb_spec x y).
  - constructor; [constructor; assumption|]. constructor; [assumption|]. eapply Forall_impl; [|exact F]. cbn; lia.
  - destruct (Nat.eqb_spec x y) as [->|]; [constructor; assumption|]. constructor; [assumption|]. apply Forall_forall. intros z Hz.
    apply insert_once_In in Hz as [->|Hz]; [lia|]. rewrite Forall_forall in F. auto.
Qed.
Lemma intersect_In a b x : In x (intersect1d a b) <-> In x a /\ In x b.
Proof.
  unfold intersect1d. assert (F : In x (filter (fun x => existsb (Nat.eqb x) b) a) <-> In x a /\ In x b).
  { rewrite filter_In, existsb_exists. split; intros [H K]; (split; [exact H|]); [destruct K as (y & K & E); apply Nat.eqb_eq in E; now subst|exists x; rewrite Nat.eqb_refl; auto]. }
  rewrite <- F. generalize (filter (fun x => existsb (Nat.eqb x) b) a) as l. induction l as [|y l IH]; cbn [fold_right In]; [reflexivity|]. rewrite insert_once_In, IH. intuition.
Qed.
Lemma intersect_sorted a b : StronglySorted lt (intersect1d a b).
Proof. unfold intersect1d. induction (filter _ a); cbn; [constructor|]. now apply insert_once_sorted. Qed.

Lemma nodup_app {A} (l l' : list A) : NoDup (l ++ l') -> NoDup l /\ NoDup l'.
Proof.
  induction l as [|x l IH]; cbn; intros H; [split; [constructor|exact H]|]. inversion H as [|? ? N D]; subst. destruct (IH D). split; [|assumption].
  constructor; [|assumption]. intros I. apply N, in_or_app. now left.
Qed.

Section Proofs.
Variables (argsort : list R -> list nat) (conn_rad : R).
Hypothesis sorts : argsorts argsort.
Notation window := (window argsort conn_rad).
Notation neighbors := (neighbors argsort conn_rad).

Lemma normed_length data r k : length (normed data r k) = length data.
Proof. apply map_length. Qed.
Lemma normed_nth data r k j : (j < length data)%nat -> nth j (normed data r k) 0 = at_ data j k / r.
Proof.
  intros H. unfold normed, at_. rewrite nth_indep with (d' := (fun row => nth k row 0 / r) []) by (now rewrite map_length).
  apply (map_nth (fun row => nth k row 0 / r)).
Qed.
Lemma args_range data r k j : In j (sorted_args argsort data r k) <-> (j < length data)%nat.
Proof.
  unfold sorted_args. destruct (sorts (normed data r k)) as [P _]. rewrite normed_length in P. split; intros H.
  - apply (Permutation_in _ P) in H. apply in_seq in H. lia.
  - apply (Permutation_in _ (Permutation_sym P)). apply in_seq. lia.
Qed.
Lemma window_In data r pt k j : In j (window data r pt k) <-> (j < length data)%nat /\ nth k pt 0 - conn_rad <= at_ data j k / r < nth k pt 0 + conn_rad.
Proof.
  unfold SortAnn_Model.window. cbv zeta. rewrite in_slice. set (A := sorted_args argsort data r k).
  assert (Srt : forall p q a b, nth_error (sorted_coords argsort data r k) p = Some a -> nth_error (sorted_coords argsort data r k) q = Some b -> (p <= q)%nat -> a <= b).
  { intros p q a b. unfold sorted_coords. rewrite !nth_error_map. fold A. destruct (nth_error A p) as [i|] eqn:I; [|discriminate]. destruct (nth_error A q) as [i'|] eqn:I'; [|discriminate].
    cbn. intros [= <-] [= <-] H. destruct (sorts (normed data r k)) as [_ S]. exact (S p q i i' I I' H). }
  assert (V : forall p, nth_error A p = Some j -> nth_error (sorted_coords argsort data r k) p = Some (at_ data j k / r)).
  { intros p E. unfold sorted_coords. rewrite nth_error_map. fold A. rewrite E. cbn. f_equal. apply normed_nth. apply (args_range data r k). eapply nth_error_In; exact E. }
  split.
  - intros (p & [L U] & E). pose proof (V p E) as W. split; [apply (args_range data r k); eapply nth_error_In; exact E|].
    apply (search_below _ _ Srt p _ W) in U. split; [|exact U]. apply Rnot_lt_le. intros H. apply (search_below _ _ Srt p _ W) in H. lia.
  - intros [J [L U]]. apply (args_range data r k) in J. apply In_nth_error in J as (p & E). exists p. split; [|exact E]. pose proof (V p E) as W.
    apply (search_below _ _ Srt p _ W) in U. split; [|exact U]. destruct (le_lt_dec (searchsorted (sorted_coords argsort data r k) (nth k pt 0 - conn_rad)) p) as [H|H]; [exact H|].
    apply (search_below _ _ Srt p _ W) in H. lra.
Qed.
Lemma neighbors_In data r d pt j : (0 < d)%nat -> In j (neighbors data r d pt) <->
  (j < length data)%nat /\ forall k, (k < d)%nat -> nth k pt 0 - conn_rad <= at_ data j k / r < nth k pt 0 + conn_rad.
Proof.
  intros D. unfold SortAnn_Model.neighbors.
  assert (G : forall l nb, In j (fold_left (fun nb id => intersect1d nb (window data r pt id)) l nb) <-> In j nb /\ forall k, In k l -> In j (window data r pt k)).
  { induction l as [|k l IH]; intros nb; cbn [fold_left In]; [intuition|]. rewrite IH, intersect_In. split.
    - intros [[H1 H2] H3]. split; [exact H1|]. intros k' [<-|H]; auto.
    - intros [H1 H2]. auto. }
  rewrite G. split.
  - intros [H1 H2]. pose proof (proj1 (window_In _ _ _ _ _) H1) as [J _]. split; [exact J|]. intros k K. destruct k as [|k]; [apply window_In in H1; tauto|].
    apply window_In, H2. apply in_seq. lia.
  - intros [J H]. split; [apply window_In; auto|]. intros k K. apply in_seq in K. apply window_In. split; [exact J|]. apply H. lia.
Qed.
Lemma neighbors_NoDup data r d pt : NoDup (neighbors data r d pt).
Proof.
  unfold SortAnn_Model.neighbors.
  assert (W : NoDup (window data r pt 0)).
  { unfold SortAnn_Model.window, slice. cbv zeta. match goal with |- NoDup (firstn ?x (skipn ?y _)) => set (b := x); set (a := y) end.
    assert (N : NoDup (sorted_args argsort data r 0)).
    { destruct (sorts (normed data r 0)) as [P _]. apply (Permutation_NoDup (Permutation_sym P)). apply seq_NoDup. }
    rewrite <- (firstn_skipn a (sorted_args argsort data r 0)) in N. apply nodup_app in N as [_ N]. rewrite <- (firstn_skipn b (skipn a (sorted_args argsort data r 0))) in N. apply nodup_app in N as [N _]. exact N. }
  assert (S : forall l : list nat, StronglySorted lt l -> NoDup l).
  { induction 1 as [|x l S IH F]; constructor; auto. intros I. rewrite Forall_forall in F. specialize (F x I). lia. }
  revert W. generalize (window data r pt 0). induction (seq 1 (d - 1)) as [|k l IH]; intros nb W; cbn [fold_left]; [exact W|]. apply IH, S, intersect_sorted.
Qed.
Lemma neighbors_sorted data r d pt : (2 <= d)%nat -> StronglySorted lt (neighbors data r d pt).
Proof.
  intros D. unfold SortAnn_Model.neighbors. replace (d - 1)%nat with (S (d - 2)) by lia. cbn [seq fold_left].
  generalize (intersect_sorted (window data r pt 0) (window data r pt 1)). generalize (intersect1d (window data r pt 0) (window data r pt 1)).
  induction (seq 2 (d - 2)) as [|k l IH]; intros nb S; cbn [fold_left]; [exact S|]. apply IH, intersect_sorted.
Qed.
End Proofs.

(** ** Theorems *)
(** The neighbours of a point are the points whose coordinates, divided by the argument, lie in the cube
    of half width conn_rad around the coordinates that were not divided. *)
Theorem ann_exact argsort conn_rad r data d : argsorts argsort -> (0 < d)%nat ->
  exists edges, brute_force_ann argsort conn_rad data d r = Some edges /\ length edges = length data /\
    forall i nb, nth_error edges i = Some nb -> NoDup nb /\ ((2 <= d)%nat -> StronglySorted lt nb) /\
      forall j, In j nb <-> (j < length data)%nat /\ forall k, (k < d)%nat -> at_ data i k - conn_rad <= at_ data j k / r < at_ data i k + conn_rad.
Proof.
  intros S D. exists (map (neighbors argsort conn_rad data r d) data). split; [destruct d; [lia|reflexivity]|]. split; [apply map_length|].
  intros i nb E. rewrite nth_error_map in E. destruct (nth_error data i) as [pt|] eqn:P; [|discriminate]. injection E as <-.
  split; [apply neighbors_NoDup, S|]. split; [apply neighbors_sorted|]. intros j. rewrite neighbors_In by assumption. unfold at_. rewrite (nth_error_nth data i [] P). reflexivity.
Qed.
Print Assumptions ann_exact.

(** With a radius of one they are the points of the cube, and every point is among its own. *)
Theorem ann_unit argsort data d : argsorts argsort -> (0 < d)%nat ->
  exists edges, brute_force_ann argsort 1 data d 1 = Some edges /\ length edges = length data /\
    forall i nb, nth_error edges i = Some nb -> In i nb /\ forall j, In j nb <-> (j < length data)%nat /\ in_cube data d 1 i j.
Proof.
  intros S D. destruct (ann_exact argsort 1 1 data d S D) as (edges & E & L & H). exists edges. split; [exact E|]. split; [exact L|].
  intros i nb I. destruct (H i nb I) as (_ & _ & X).
  assert (Y : forall j, In j nb <-> (j < length data)%nat /\ in_cube data d 1 i j).
  { intros j. rewrite X. unfold in_cube. split; intros [J K]; (split; [exact J|]); intros k Hk; specialize (K k Hk); unfold Rdiv in *; rewrite Rinv_1, Rmult_1_r in *; exact K. }
  split; [|exact Y]. apply Y. split; [rewrite <- L; apply nth_error_Some; congruence|]. intros k _. lra.
Qed.
Print Assumptions ann_unit.

(** an argsort: insertion *)
Fixpoint place (l : list R) (i : nat) (s : list nat) : list nat :=
  match s with [] => [i] | j :: s' => if Rle_dec (nth i l 0) (nth j l 0) then i :: s else j :: place l i s' end.
Definition isort (l : list R) : list nat := fold_right (place l) [] (seq 0 (length l)).
Lemma place_perm l i s : Permutation (place l i s) (i :: s).
Proof. induction s as [|j s IH]; cbn [place]; [reflexivity|]. destruct (Rle_dec _ _); [reflexivity|]. rewrite IH. apply perm_swap. Qed.
Lemma place_sorted l i s : StronglySorted (fun a b => nth a l 0 <= nth b l 0) s -> StronglySorted (fun a b => nth a l 0 <= nth b l 0) (place l i s).
Proof.
  induction 1 as [|j s S IH F]; cbn [place]; [repeat constructor|]. destruct (Rle_dec _ _) as [H|H].
  - constructor; [constructor; assumption|]. constructor; [exact H|]. eapply Forall_impl; [|exact F]. cbn. intros. lra.
  - constructor; [exact IH|]. apply (Permutation_Forall (Permutation_sym (place_perm l i s))). constructor; [lra|exact F].
Qed.
Lemma isorts : argsorts isort.
Proof.
  intros l. unfold isort. split.
  - induction (seq 0 (length l)) as [|i s IH]; cbn [fold_right]; [reflexivity|]. rewrite place_perm. now constructor.
  - assert (S : StronglySorted (fun a b => nth a l 0 <= nth b l 0) (fold_right (place l) [] (seq 0 (length l)))).
    { induction (seq 0 (length l)) as [|i s IH]; cbn [fold_right]; [constructor|]. now apply place_sorted. }
    induction S as [|i s S IH F]; intros p q a b P Q H; [destruct p; discriminate|].
    destruct p as [|p]; destruct q as [|q]; cbn in P, Q.
    + injection P as <-. injection Q as <-. lra.
    + injection P as <-. rewrite Forall_forall in F. apply F. eapply nth_error_In; exact Q.
    + lia.
    + apply (IH p q); auto. lia.
Qed.

(** Refuted: with the notebook's radius 1/10 a point need not be among its neighbours, the relation is not symmetric,
    and a point in the cube is missed while one far outside is found. *)
Theorem ann_cube_refuted : exists argsort data d r edges, argsorts argsort /\ (0 < d)%nat /\ 0 < r /\ brute_force_ann argsort r data d r = Some edges /\
  (exists i nb, nth_error edges i = Some nb /\ ~ In i nb) /\
  (exists i j nb, nth_error edges i = Some nb /\ (j < length data)%nat /\ in_cube data d r i j /\ ~ In j nb) /\
  (exists i j nb nb', nth_error edges i = Some nb /\ nth_error edges j = Some nb' /\ In j nb /\ ~ in_cube data d r i j /\ ~ In i nb').
Proof.
  set (data := [[9 / 10]; [9 / 100]]). exists isort, data, 1%nat, (1 / 10).
  destruct (ann_exact isort (1 / 10) (1 / 10) data 1 isorts ltac:(lia)) as (edges & E & L & H). exists edges.
  split; [apply isorts|]. split; [lia|]. split; [lra|]. split; [exact E|].
  destruct edges as [|n0 [|n1 [|]]]; try discriminate L.
  destruct (H 0%nat n0 eq_refl) as (_ & _ & X0). destruct (H 1%nat n1 eq_refl) as (_ & _ & X1).
  assert (A : ~ In 0%nat n0). { rewrite X0. intros [_ K]. specialize (K 0%nat ltac:(lia)). cbn in K. lra. }
  split; [exists 0%nat, n0; auto|]. split.
  - exists 0%nat, 0%nat, n0. split; [reflexivity|]. split; [cbn; lia|]. split; [|exact A]. intros k _. lra.
  - exists 0%nat, 1%nat, n0, n1. split; [reflexivity|]. split; [reflexivity|]. split; [|split].
    + apply X0. split; [cbn; lia|]. intros [|k] K; [|lia]. cbn. lra.
    + intros K. specialize (K 0%nat ltac:(lia)). cbn in K. lra.
    + rewrite X1. intros [_ K]. specialize (K 0%nat ltac:(lia)). cbn in K. lra.
Qed.
Print Assumptions ann_cube_refuted.
(** three points of the plane, radius one *)
Example ann_ex : exists edges, brute_force_ann isort 1 [[0; 0]; [1 / 2; -1]; [1; 0]] 2 1 = Some edges /\ nth_error edges 0 = Some [0; 1]%nat.
Proof.
  destruct (ann_exact isort 1 1 [[0; 0]; [1 / 2; -1]; [1; 0]] 2 isorts ltac:(lia)) as (edges & E & L & H). exists edges. split; [exact E|].
  destruct edges as [|nb rest]; [discriminate|]. destruct (H 0%nat nb eq_refl) as (N & Srt & X). specialize (Srt ltac:(lia)). cbn [nth_error]. f_equal.
  assert (I0 : In 0%nat nb) by (apply X; split; [cbn; lia|]; intros [|[|k]] K; [cbn; lra|cbn; lra|lia]).
  assert (I1 : In 1%nat nb) by (apply X; split; [cbn; lia|]; intros [|[|k]] K; [cbn; lra|cbn; lra|lia]).
  assert (I2 : forall j, In j nb -> (j < 2)%nat).
  { intros j J. apply X in J as [J K]. cbn in J. assert (j <> 2%nat); [|lia]. intros ->. specialize (K 0%nat ltac:(lia)). cbn in K. lra. }
  destruct nb as [|a nb]; [destruct I0|]. inversion Srt as [|? ? S1 F1]; subst. rewrite Forall_forall in F1.
  assert (a = 0%nat) by (destruct I0 as [->|I]; [reflexivity|specialize (F1 _ I); lia]). subst a.
  destruct I1 as [|I1]; [discriminate|]. destruct nb as [|b nb]; [destruct I1|]. inversion S1 as [|? ? S2 F2]; subst. rewrite Forall_forall in F2.
  assert (b = 1%nat). { pose proof (F1 b (or_introl eq_refl)). pose proof (I2 b (or_intror (or_introl eq_refl))). lia. } subst b.
  destruct nb as [|c nb]; [reflexivity|]. exfalso. pose proof (F2 c (or_introl eq_refl)). pose proof (I2 c (or_intror (or_intror (or_introl eq_refl)))). lia.
Qed.
