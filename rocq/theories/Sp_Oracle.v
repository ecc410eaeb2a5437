(** A shortest path routine meeting [sp_correct], by enumeration of the simple paths:
    shows that the assumption made about networkit's BidirectionalDijkstra can be met,
    and lets the query model be run on examples. *)
From Coq Require Import Arith List QArith Bool Lia.
From Verif Require Import NkGraph_Model NkGraph_Spec NkGraph_Proofs.
Import ListNotations.
Close Scope Q_scope.

(** all simple paths from [u] to [t] avoiding [seen]: interior vertices and weight *)
Fixpoint paths (fuel : nat) (g : graph) (seen : list nat) (u t : nat) : list (Q * list nat) :=
  match fuel with
  | O => []
  | S fuel' =>
      flat_map (fun e : nat * Q =>
        let (v, w) := e in
        if v =? t then [(w, [])]
        else if existsb (Nat.eqb v) seen then []
        else map (fun dm : Q * list nat => ((w + fst dm)%Q, v :: snd dm))
                 (paths fuel' g (v :: seen) v t)) (g_out g u)
  end.

Fixpoint min_path (l : list (Q * list nat)) : option (Q * list nat) :=
  match l with
  | [] => None
  | x :: l' =>
      match min_path l' with
      | None => Some x
      | Some y => if Qle_bool (fst x) (fst y) then Some x else Some y
      end
  end.

Definition sp_enum (g : graph) (s t : nat) : option (Q * list nat) :=
  min_path (paths (S (g_upper g)) g [s] s t).

Lemma min_path_spec l : match min_path l with
  | None => l = []
  | Some m => In m l /\ forall x, In x l -> (fst m <= fst x)%Q end.
Proof.
  induction l as [|x l IH]; simpl; auto. destruct (min_path l) as [y|].
  - destruct IH as [Hin Hle]. destruct (Qle_bool (fst x) (fst y)) eqn:E.
    + apply Qle_bool_iff in E. split; auto. intros z [->|Hz]; [apply Qle_refl|].
      eapply Qle_trans; eauto.
    + assert (~ (fst x <= fst y)%Q) by (intro H; apply Qle_bool_iff in H; congruence).
      apply Qnot_le_lt in H. split; auto. intros z [->|Hz]; auto. now apply Qlt_le_weak.
  - subst. simpl. split; auto. intros z [->|[]]. apply Qle_refl.
Qed.

Lemma existsb_eqb_In v l : existsb (Nat.eqb v) l = true <-> In v l.
Proof.
  rewrite existsb_exists. split.
  - intros [x [H E]]. apply Nat.eqb_eq in E. now subst.
  - intro H. exists v. split; auto. apply Nat.eqb_refl.
Qed.

Lemma paths_sound fuel : forall g seen u t d mid, In (d, mid) (paths fuel g seen u t) ->
  In u seen -> ~ In t seen ->
  trail (edge g) (u :: mid ++ [t]) d \/ exists c, trail (edge g) (u :: mid ++ [t]) c /\ (d == c)%Q.
Proof.
  induction fuel as [|fuel IH]; intros g seen u t d mid H Hu Ht; [destruct H|].
  cbn [paths] in H. apply in_flat_map in H. destruct H as [[v w] [He H]].
  destruct (Nat.eqb_spec v t) as [E|E].
  - subst v. destruct H as [H|[]]. inversion H; subst. right.
    exists (d + 0)%Q. split; [|ring]. simpl. constructor; auto. constructor.
  - destruct (existsb (Nat.eqb v) seen) eqn:Es; [destruct H|].
    apply in_map_iff in H. destruct H as [[d' m'] [Eq H]]. simpl in Eq. inversion Eq; subst.
    apply IH in H; [|simpl; auto|simpl; intros [?|?]; [congruence|tauto]].
    assert (exists c, trail (edge g) (v :: m' ++ [t]) c /\ (d' == c)%Q) as (c & Hc & Ec).
    { destruct H as [H|H]; auto. exists d'. split; auto. apply Qeq_refl. }
    right. exists (w + c)%Q. split.
    + simpl. constructor; auto.
    + rewrite Ec. reflexivity.
Qed.

Lemma paths_nodup fuel : forall g seen u t d mid, In (d, mid) (paths fuel g seen u t) ->
  NoDup mid /\ ~ In t mid /\ forall x, In x mid -> ~ In x seen.
Proof.
  induction fuel as [|fuel IH]; intros g seen u t d mid H; [destruct H|].
  cbn [paths] in H. apply in_flat_map in H. destruct H as [[v w] [He H]].
  destruct (Nat.eqb_spec v t) as [E|E].
  - destruct H as [H|[]]. inversion H; subst. repeat split; auto. constructor.
  - destruct (existsb (Nat.eqb v) seen) eqn:Es; [destruct H|].
    assert (~ In v seen) by (intro Hi; apply existsb_eqb_In in Hi; congruence).
    apply in_map_iff in H. destruct H as [[d' m'] [Eq H]]. simpl in Eq. inversion Eq; subst.
    apply IH in H. destruct H as (N & T & D). repeat split.
    + constructor; auto. intro Hi. apply (D v Hi). simpl; auto.
    + simpl. tauto.
    + intros x [->|Hx]; auto. intro Hs. apply (D x Hx). simpl; auto.
Qed.

Lemma trail_In_alive g : wf g -> forall l c, trail (edge g) l c -> forall x, In x l -> 2 <= length l ->
  x < g_upper g.
Proof.
  intro W. induction 1 as [i|i j l w c E T IH]; intros x Hx L; simpl in *; [lia|].
  destruct (wf_alive g W i j w E) as [Hi Hj].
  destruct Hx as [->|Hx]; [apply (wf_upper g W); auto|].
  destruct l as [|y l].
  - destruct Hx as [->|[]]. apply (wf_upper g W); auto.
  - apply IH; auto. simpl. lia.
Qed.

Lemma paths_complete : forall fuel g seen u t mid c,
  trail (edge g) (u :: mid ++ [t]) c -> NoDup (mid ++ [t]) ->
  (forall x, In x mid -> ~ In x seen) -> length mid < fuel ->
  exists d, In (d, mid) (paths fuel g seen u t) /\ (d == c)%Q.
Proof.
  induction fuel as [|fuel IH]; intros g seen u t mid c T N D L; [lia|].
  cbn [paths]. destruct mid as [|v mid].
  - simpl in T. inversion T; subst. inversion H4; subst. exists w. split; [|ring].
    apply in_flat_map. exists (t, w). split; auto. rewrite Nat.eqb_refl. simpl; auto.
  - simpl in T. inversion T; subst. simpl in N. inversion N; subst.
    assert (v <> t). { intro; subst. apply H1. apply in_or_app. simpl; auto. }
    destruct (IH g (v :: seen) v t mid c0) as [d [Hd Ed]]; auto.
    + intros x Hx [->|Hs].
      * apply H1. apply in_or_app; auto.
      * apply (D x); simpl; auto.
    + simpl in L. lia.
    + exists (w + d)%Q. split; [|rewrite Ed; reflexivity].
      apply in_flat_map. exists (v, w). split; auto.
      destruct (Nat.eqb_spec v t); [congruence|].
      destruct (existsb (Nat.eqb v) seen) eqn:Es.
      { apply existsb_eqb_In in Es. exfalso. apply (D v); simpl; auto. }
      apply in_map_iff. exists (d, mid). auto.
Qed.

(** ** Removing cycles from a trail *)

Lemma trail_nonneg (E : nat -> nat -> Q -> Prop) : (forall u v w, E u v w -> (0 <= w)%Q) ->
  forall l c, trail E l c -> (0 <= c)%Q.
Proof.
  intros H l c T. induction T; [apply Qle_refl|].
  setoid_replace 0%Q with (0 + 0)%Q by ring. apply Qplus_le_compat; eauto.
Qed.

Lemma trail_suffix (E : nat -> nat -> Q -> Prop) : (forall u v w, E u v w -> (0 <= w)%Q) ->
  forall l1 l2 x c, trail E (l1 ++ x :: l2) c -> exists c', trail E (x :: l2) c' /\ (c' <= c)%Q.
Proof.
  intro H. induction l1 as [|a l1 IH]; intros l2 x c T.
  - exists c. split; auto. apply Qle_refl.
  - simpl in T. destruct (l1 ++ x :: l2) as [|b l] eqn:E1.
    { destruct l1; discriminate. }
    inversion T; subst. rewrite <- E1 in H5. apply IH in H5. destruct H5 as [c' [T' Hle]].
    exists c'. split; auto. apply Qle_trans with (0 + c')%Q.
    + rewrite Qplus_0_l. apply Qle_refl.
    + apply Qplus_le_compat; eauto.
Qed.

Lemma simple_trail (E : nat -> nat -> Q -> Prop) : (forall u v w, E u v w -> (0 <= w)%Q) ->
  forall n l s t c, length l <= n -> trail E (s :: l ++ [t]) c -> s <> t ->
  exists l' c', trail E (s :: l' ++ [t]) c' /\ (c' <= c)%Q /\ NoDup (s :: l' ++ [t]).
Proof.
  intro H. induction n as [|n IH]; intros l s t c L T Hst.
  - destruct l; [|simpl in L; lia]. exists [], c. split; auto. split; [apply Qle_refl|].
    simpl. constructor; [simpl; intros [?|[]]; congruence|]. constructor; auto. constructor.
  - destruct l as [|v l].
    + apply (IH [] s t c); simpl; auto; lia.
    + simpl in L, T. inversion T; subst.
      destruct (Nat.eq_dec v t) as [->|Hvt].
      * (* go directly *)
        exists [], (w + 0)%Q. split; [simpl; constructor; auto; constructor|]. split.
        -- apply Qplus_le_compat; [apply Qle_refl|]. eapply trail_nonneg; eauto.
        -- simpl. constructor; [simpl; intros [?|[]]; congruence|]. constructor; auto. constructor.
      * destruct (IH l v t c0) as (l' & c' & T' & Hle & N); auto; [lia|].
        destruct (in_dec Nat.eq_dec s (v :: l' ++ [t])) as [Hin|Hin].
        -- (* s occurs again: start there *)
           apply in_split in Hin. destruct Hin as (a & b & Eab).
           rewrite Eab in T'. apply (trail_suffix E H) in T'. destruct T' as (c2 & T2 & L2).
           assert (N2 : NoDup (s :: b)).
           { rewrite Eab in N. clear - N. induction a; auto. inversion N; auto. }
           assert (exists b', b = b' ++ [t]) as [b' ->].
           { assert (Hb : b <> []).
             { intro; subst b. change (v :: l' ++ [t]) with ((v :: l') ++ [t]) in Eab.
               apply app_inj_tail in Eab. destruct Eab; congruence. }
             destruct (exists_last Hb) as (b' & y & ->). exists b'.
             change (v :: l' ++ [t]) with ((v :: l') ++ [t]) in Eab.
             change (s :: b' ++ [y]) with ((s :: b') ++ [y]) in Eab.
             rewrite app_assoc in Eab. apply app_inj_tail in Eab. destruct Eab; now subst. }
           exists b', c2. split; auto. split; auto.
           apply Qle_trans with (0 + c0)%Q.
           ++ rewrite Qplus_0_l. eapply Qle_trans; eauto.
           ++ apply Qplus_le_compat; [eauto|apply Qle_refl].
        -- exists (v :: l'), (w + c')%Q. split; [simpl; constructor; auto|]. split.
           ++ apply Qplus_le_compat; [apply Qle_refl|auto].
           ++ simpl. constructor; auto.
Qed.

Lemma NoDup_bound l n : NoDup l -> (forall x, In x l -> x < n) -> length l <= n.
Proof.
  intros N H. rewrite <- (seq_length n 0). apply NoDup_incl_length; auto.
  intros x Hx. apply in_seq. specialize (H x Hx). lia.
Qed.

Theorem sp_enum_correct : sp_correct sp_enum.
Proof.
  intros g s t W Hpos Hst. unfold sp_enum.
  assert (Complete : forall l c, trail (edge g) (s :: l ++ [t]) c ->
    exists d mid, In (d, mid) (paths (S (g_upper g)) g [s] s t) /\ (d <= c)%Q).
  { intros l c T.
    destruct (simple_trail _ Hpos (length l) l s t c (le_n _) T Hst) as (l' & c' & T' & Hle & N).
    destruct (paths_complete (S (g_upper g)) g [s] s t l' c') as (d & Hd & Ed); auto.
    - now inversion N.
    - intros x Hx [->|[]]. inversion N; subst. apply H1. apply in_or_app; auto.
    - assert (length (s :: l' ++ [t]) <= g_upper g).
      { apply NoDup_bound; auto. intros x Hx. eapply trail_In_alive; eauto.
        simpl. rewrite app_length. simpl. lia. }
      simpl in H. rewrite app_length in H. simpl in H. lia.
    - exists d, l'. split; auto. rewrite Ed. auto. }
  pose proof (min_path_spec (paths (S (g_upper g)) g [s] s t)) as M.
  destruct (min_path (paths (S (g_upper g)) g [s] s t)) as [[d mid]|].
  - destruct M as [Hin Hmin]. split; [|split].
    + apply paths_nodup in Hin. destruct Hin as (N & T & D). constructor.
      * intro Hi. apply in_app_or in Hi. destruct Hi as [Hi|[->|[]]]; [|congruence].
        apply (D s Hi). simpl; auto.
      * apply NoDup_app_one; auto.
    + apply paths_sound in Hin; [|simpl; auto|simpl; intros [?|[]]; congruence].
      destruct Hin as [T|T]; auto. exists d. split; auto. apply Qeq_refl.
    + intros l c T. destruct (Complete l c T) as (d' & m' & Hin' & Hle).
      eapply Qle_trans; [|exact Hle]. apply (Hmin _ Hin').
  - intros l c T. destruct (Complete l c T) as (d' & m' & Hin' & Hle). rewrite M in Hin'. destruct Hin'.
Qed.
