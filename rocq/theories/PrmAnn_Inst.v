(** An exact nearest-neighbour routine (brute force), meeting [ann_exact]: shows that the
    assumption on the neighbour library can be met, and lets the models run on examples. *)
From Coq Require Import Arith List QArith Bool Lia Sorted Permutation.
From Verif Require Import NkGraph_Model Prm_Model Prm_Spec PrmQuery_Proofs PrmFc_Proofs PrmNn_Proofs.
Import ListNotations.
Close Scope Q_scope.

Section Brute.
  Context {P : Type}.
  Variable dist : P -> P -> Q.

  Fixpoint insert (e : nat * Q) (l : list (nat * Q)) : list (nat * Q) :=
    match l with
    | [] => [e]
    | x :: l' => if Qle_bool (snd e) (snd x) then e :: x :: l' else x :: insert e l'
    end.
  Definition sort (l : list (nat * Q)) : list (nat * Q) := fold_right insert [] l.

  (** all other samples with their distances *)
  Definition others (ss : list P) (u : nat) (p : P) : list (nat * Q) :=
    map (fun vq => (fst vq, dist p (snd vq)))
        (filter (fun vq => negb (fst vq =? u)) (combine (seq 0 (length ss)) ss)).

  Definition brute_ann (ss : list P) (k : nat) : rows :=
    map (fun up => firstn k (sort (others ss (fst up) (snd up)))) (combine (seq 0 (length ss)) ss).

  Lemma insert_perm e l : Permutation (e :: l) (insert e l).
  Proof.
    induction l as [|x l IH]; simpl; auto. destruct (Qle_bool (snd e) (snd x)); auto.
    etransitivity; [apply perm_swap|]. now constructor.
  Qed.
  Lemma sort_perm l : Permutation l (sort l).
  Proof.
    induction l as [|x l IH]; simpl; auto. etransitivity; [apply perm_skip, IH|]. apply insert_perm.
  Qed.

  Let R (a b : nat * Q) : Prop := (snd a <= snd b)%Q.

  Lemma insert_sorted e l : StronglySorted R l -> StronglySorted R (insert e l).
  Proof.
    induction 1 as [|x l S IH F]; simpl.
    - constructor; constructor.
    - destruct (Qle_bool (snd e) (snd x)) eqn:E.
      + apply Qle_bool_iff in E. constructor; [constructor; auto|]. constructor; auto.
        eapply Forall_impl; [|exact F]. intros a Ha. red. eapply Qle_trans; eauto.
      + constructor; auto. eapply Permutation_Forall; [apply insert_perm|]. constructor; auto.
        red. apply Qlt_le_weak. apply Qnot_le_lt. intro L. apply Qle_bool_iff in L. congruence.
  Qed.
  Lemma sort_sorted l : StronglySorted R (sort l).
  Proof. induction l; simpl; [constructor|]. now apply insert_sorted. Qed.

  Lemma firstn_In {A} (l : list A) k x : In x (firstn k l) -> In x l.
  Proof. revert k. induction l; destruct k; simpl; auto; try tauto. intros [->|H]; eauto. Qed.
  Lemma firstn_NoDup {A} (l : list A) k : NoDup l -> NoDup (firstn k l).
  Proof.
    intro N. revert k. induction N; destruct k; simpl; try constructor; auto.
    intro Hi. apply firstn_In in Hi. tauto.
  Qed.
  Lemma firstn_sorted l k : StronglySorted R l -> Sorted R (firstn k l).
  Proof.
    intro S. apply StronglySorted_Sorted. revert k. induction S; destruct k; simpl; try constructor; auto.
    apply Forall_forall. intros x Hx. apply firstn_In in Hx. rewrite Forall_forall in H. auto.
  Qed.
  Lemma sorted_split l k : StronglySorted R l -> forall x y, In x (firstn k l) -> In y l -> ~ In y (firstn k l) -> R x y.
  Proof.
    intro S. revert k. induction S as [|a l S IH F]; intros k x y Hx Hy Hn.
    - destruct k; destruct Hx.
    - destruct k; [destruct Hx|]. simpl in *. rewrite Forall_forall in F.
      destruct Hy as [->|Hy]; [tauto|]. destruct Hx as [->|Hx]; [auto|].
      eapply IH; eauto.
  Qed.

  Lemma others_In ss u p v d : In (v, d) (others ss u p) <->
    v <> u /\ exists q, nth_error ss v = Some q /\ d = dist p q.
  Proof.
    unfold others. rewrite in_map_iff. split.
    - intros [[x q] [E H]]. simpl in E. inversion E; subst. apply filter_In in H. destruct H as [H1 H2].
      apply combine_seq_In in H1. rewrite Nat.sub_0_r in H1. simpl in H2.
      apply negb_true_iff, Nat.eqb_neq in H2. split; auto. exists q. tauto.
    - intros [N (q & H & ->)]. exists (v, q). split; auto. apply filter_In. split.
      + apply combine_seq_In. rewrite Nat.sub_0_r. split; [lia|auto].
      + simpl. now apply negb_true_iff, Nat.eqb_neq.
  Qed.
  Lemma others_NoDup ss u p : NoDup (map fst (others ss u p)).
  Proof.
    unfold others. rewrite map_map. simpl. apply NoDup_map_filter. rewrite combine_seq_fst. apply seq_NoDup.
  Qed.
  Lemma others_length ss u p : u < length ss -> length (others ss u p) = length ss - 1.
  Proof.
    intro L. 
    assert (Pm : Permutation (u :: map fst (others ss u p)) (seq 0 (length ss))).
    { apply NoDup_Permutation.
      - constructor; [|apply others_NoDup]. intro H. apply in_map_iff in H. destruct H as [[v d] [E H]].
        simpl in E; subst. apply others_In in H. tauto.
      - apply seq_NoDup.
      - intro x. rewrite in_seq. simpl. split.
        + intros [->|H]; [lia|]. apply in_map_iff in H. destruct H as [[v d] [E H]]. simpl in E; subst.
          apply others_In in H. destruct H as [_ (q & H & _)]. apply nth_error_lt in H. lia.
        + intro H. destruct (Nat.eq_dec u x); auto. right. destruct (nth_error_ex ss x) as [q Hq]; [lia|].
          apply in_map_iff. exists (x, dist p q). split; auto. apply others_In. split; eauto. }
    apply Permutation_length in Pm. simpl in Pm. rewrite map_length, seq_length in Pm. lia.
  Qed.

  Lemma brute_row ss k u row : nth_error (brute_ann ss k) u = Some row <->
    exists p, nth_error ss u = Some p /\ row = firstn k (sort (others ss u p)).
  Proof.
    unfold brute_ann.
    assert (C : forall i, nth_error (combine (seq 0 (length ss)) ss) i = option_map (fun p => (i, p)) (nth_error ss i)).
    { assert (G : forall (l : list P) a i, nth_error (combine (seq a (length l)) l) i = option_map (fun p => (a + i, p)) (nth_error l i)).
      { induction l as [|x l IH]; intros a i; simpl; [destruct i; auto|].
        destruct i; simpl; [now rewrite Nat.add_0_r|]. rewrite IH. destruct (nth_error l i); simpl; auto.
        do 2 f_equal. lia. }
      intro i. rewrite G. reflexivity. }
    destruct (nth_error ss u) as [p|] eqn:E.
    - rewrite (map_nth_error _ u _ (d := (u, p))) by (rewrite C, E; auto). simpl. split.
      + intro H. inversion H. eauto.
      + intros (p' & Ep & ->). congruence.
    - split; [|intros (p & H & _); discriminate]. intro H.
      assert (u < length ss).
      { apply nth_error_lt in H. rewrite map_length, combine_length, seq_length, Nat.min_id in H. auto. }
      apply nth_error_None in E. lia.
  Qed.

  Theorem brute_ann_exact : ann_exact dist brute_ann.
  Proof.
    intros ss k.
    assert (L : forall u v i d, lists_at (brute_ann ss k) u v i d ->
       exists p, nth_error ss u = Some p /\ In (v, d) (others ss u p)).
    { intros u v i d (row & H1 & H2). apply brute_row in H1. destruct H1 as (p & Ep & ->).
      exists p. split; auto. apply nth_error_In, firstn_In in H2.
      eapply Permutation_in; [symmetry; apply sort_perm|exact H2]. }
    split; [split; [|split; [|split]]|].
    - unfold brute_ann. rewrite map_length, combine_length, seq_length. apply Nat.min_id.
    - intros row H. apply In_nth_error in H. destruct H as [u H]. apply brute_row in H.
      destruct H as (p & Ep & ->). rewrite firstn_length.
      rewrite <- (Permutation_length (sort_perm _)). rewrite others_length; auto. eapply nth_error_lt; eauto.
    - intros u v i d H. apply L in H. destruct H as (p & Ep & H). apply others_In in H.
      destruct H as (_ & q & H & _). eapply nth_error_lt; eauto.
    - intros u v i d H. apply L in H. destruct H as (p & Ep & H). apply others_In in H.
      destruct H as (_ & q & H & ->). exists p, q. split; [auto|]. split; [auto|]. apply Qeq_refl.
    - intros u row H. apply brute_row in H. destruct H as (p & Ep & ->).
      set (S := sort (others ss u p)).
      assert (NS : NoDup (map fst S)).
      { eapply Permutation_NoDup; [|apply (others_NoDup ss u p)]. apply Permutation_map, sort_perm. }
      assert (IS : forall x, In x S <-> In x (others ss u p)).
      { intro x. split; apply Permutation_in; [symmetry|]; apply sort_perm. }
      split; [|split; [|split]].
      + rewrite <- firstn_map. now apply firstn_NoDup.
      + intro Hin. apply in_map_iff in Hin. destruct Hin as [[v d] [E Hin]]. simpl in E; subst.
        apply firstn_In, IS, others_In in Hin. tauto.
      + apply firstn_sorted, sort_sorted.
      + intros v p' q Ep' Eq Hne Hnot x d Hx. assert (p' = p) by congruence. subst p'.
        change (R (x, d) (v, dist p q)). eapply (sorted_split S k); eauto.
        * apply sort_sorted.
        * apply IS, others_In. split; eauto.
        * intro Hv. apply Hnot. apply in_map_iff. exists (v, dist p q). auto.
  Qed.

  Lemma exact_shape (ann : list P -> nat -> rows) : ann_exact dist ann -> ann_shape dist ann.
  Proof. intros H ss k. apply H. Qed.

  Lemma brute_prefix ss k k' : k <= k' -> brute_ann ss k = map (firstn k) (brute_ann ss k').
  Proof.
    intro L. unfold brute_ann. rewrite map_map. apply map_ext. intros [u p]. simpl.
    rewrite firstn_firstn. f_equal. lia.
  Qed.
End Brute.
