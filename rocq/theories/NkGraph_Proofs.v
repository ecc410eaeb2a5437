(** Lemmas about the networkit graph model. *)
From Coq Require Import Arith List QArith Bool Lia Permutation.
From Verif Require Import NkGraph_Model NkGraph_Spec.
Import ListNotations.
Close Scope Q_scope.

Lemma upd_same {A} (f : nat -> A) u a : upd f u a u = a.
Proof. unfold upd. now rewrite Nat.eqb_refl. Qed.
Lemma upd_other {A} (f : nat -> A) u a x : x <> u -> upd f u a x = f x.
Proof. intro H. unfold upd. apply Nat.eqb_neq in H. now rewrite H. Qed.

Lemma has_edge_iff g u v : has_edge g u v = true <-> exists w, edge g u v w.
Proof.
  unfold has_edge, edge. rewrite existsb_exists. split.
  - intros [[x w] [Hin E]]. apply Nat.eqb_eq in E. simpl in E. subst. eauto.
  - intros [w H]. exists (v, w). split; auto. simpl. apply Nat.eqb_refl.
Qed.

Lemma has_edge_false g u v : has_edge g u v = false <-> forall w, ~ edge g u v w.
Proof.
  split.
  - intros H w E. assert (has_edge g u v = true) by (apply has_edge_iff; eauto). congruence.
  - intro H. destruct (has_edge g u v) eqn:E; auto. apply has_edge_iff in E. destruct E as [w E].
    exfalso; eapply H; eauto.
Qed.

Lemma wf_fun g u v w w' : wf g -> edge g u v w -> edge g u v w' -> w = w'.
Proof.
  intros W. pose proof (wf_nodup g W u) as N. unfold edge. induction (g_out g u) as [|[x y] l IH]; simpl.
  - tauto.
  - inversion N; subst. intros [A|A] [B|B].
    + congruence.
    + inversion A; subst. exfalso. apply H1. apply in_map_iff. exists (v, w'). auto.
    + inversion B; subst. exfalso. apply H1. apply in_map_iff. exists (v, w). auto.
    + apply IH; auto.
Qed.

(** ** Swap deletion *)

Lemma swap_del_notin v l : ~ In v (map fst l) -> swap_del v l = l.
Proof.
  induction l as [|[x w] l IH]; simpl; auto. intro H.
  destruct (Nat.eqb_spec x v) as [E|E].
  - tauto.
  - rewrite IH; tauto.
Qed.

Lemma swap_del_perm v l : In v (map fst l) ->
  exists w, Permutation l ((v, w) :: swap_del v l).
Proof.
  induction l as [|[x w] l IH]; simpl; [tauto|]. intro H.
  destruct (Nat.eqb_spec x v) as [E|E].
  - subst x. exists w. destruct l as [|e l]; auto.
    constructor.
    change (last (e :: l) (v, w) :: removelast (e :: l)) with
           ([last (e :: l) (v, w)] ++ removelast (e :: l)).
    rewrite (app_removelast_last (v, w)) at 1 by discriminate.
    apply Permutation_app_comm.
  - destruct IH as [w' IH]; [tauto|]. exists w'.
    etransitivity; [apply perm_skip, IH|]. apply perm_swap.
Qed.

Lemma swap_del_In v l x w : NoDup (map fst l) ->
  In (x, w) (swap_del v l) <-> In (x, w) l /\ x <> v.
Proof.
  intro N. destruct (in_dec Nat.eq_dec v (map fst l)) as [H|H].
  - destruct (swap_del_perm v l H) as [y Hp].
    assert (N' : NoDup (v :: map fst (swap_del v l))).
    { apply (Permutation_map fst) in Hp. simpl in Hp. eapply Permutation_NoDup; eauto. }
    inversion N'; subst. split.
    + intro Hin. split.
      * eapply Permutation_in; [symmetry; exact Hp|]. simpl; auto.
      * intro; subst. apply H2. apply in_map_iff. exists (v, w). auto.
    + intros [Hin Hne]. eapply Permutation_in in Hin; [|exact Hp].
      destruct Hin as [E|]; auto. inversion E; subst; tauto.
  - rewrite swap_del_notin by auto. split; try tauto. intro Hin. split; auto.
    intro; subst. apply H. apply in_map_iff. exists (v, w). auto.
Qed.

Lemma swap_del_NoDup v l : NoDup (map fst l) -> NoDup (map fst (swap_del v l)).
Proof.
  intro N. destruct (in_dec Nat.eq_dec v (map fst l)) as [H|H].
  - destruct (swap_del_perm v l H) as [y Hp].
    apply (Permutation_map fst) in Hp. eapply Permutation_NoDup in N; [|exact Hp].
    simpl in N. now inversion N.
  - now rewrite swap_del_notin.
Qed.

Lemma swap_del_length v l : In v (map fst l) -> S (length (swap_del v l)) = length l.
Proof.
  intro H. destruct (swap_del_perm v l H) as [w Hp]. apply Permutation_length in Hp. simpl in Hp. lia.
Qed.

(** deleting an entry pushed last gives back the old array *)
Lemma swap_del_last v w l : ~ In v (map fst l) -> swap_del v (l ++ [(v, w)]) = l.
Proof.
  induction l as [|[x y] l IH]; simpl; intro H.
  - now rewrite Nat.eqb_refl.
  - destruct (Nat.eqb_spec x v); [tauto|]. rewrite IH; tauto.
Qed.

Lemma swap_del_last2 v w t z l : ~ In v (map fst l) ->
  swap_del v (l ++ [(v, w); (t, z)]) = l ++ [(t, z)].
Proof.
  induction l as [|[x y] l IH]; simpl; intro H.
  - now rewrite Nat.eqb_refl.
  - destruct (Nat.eqb_spec x v); [tauto|]. rewrite IH; tauto.
Qed.

(** ** Adding edges *)

Lemma g_out_add_edge g a b w u :
  g_out (add_edge g a b w) u =
  if u =? a then g_out g a ++ [(b, w)]
  else if u =? b then g_out g b ++ [(a, w)] else g_out g u.
Proof.
  unfold add_edge. simpl. destruct (Nat.eqb_spec a b) as [E|E].
  - subst b. unfold upd. destruct (Nat.eqb_spec u a); auto.
  - unfold upd. destruct (Nat.eqb_spec u b) as [E1|E1]; destruct (Nat.eqb_spec u a) as [E2|E2]; subst; auto.
    + congruence.
    + destruct (Nat.eqb_spec b a); [congruence|auto].
Qed.

Lemma edge_add_edge g a b w u v x :
  edge (add_edge g a b w) u v x <->
  edge g u v x \/ (x = w /\ ((u = a /\ v = b) \/ (u = b /\ v = a))).
Proof.
  unfold edge. rewrite g_out_add_edge.
  destruct (Nat.eqb_spec u a) as [E1|E1].
  - subst u. rewrite in_app_iff. simpl. split.
    + intros [H|[H|[]]]; auto. inversion H; subst. right. auto.
    + intros [H|[? [[_ ?]|[? ?]]]]; subst; auto.
  - destruct (Nat.eqb_spec u b) as [E2|E2].
    + subst u. rewrite in_app_iff. simpl. split.
      * intros [H|[H|[]]]; auto. inversion H; subst. right. auto.
      * intros [H|[? [[? ?]|[? ?]]]]; subst; auto; congruence.
    + split; auto. intros [H|[? [[? ?]|[? ?]]]]; subst; auto; congruence.
Qed.

Lemma edge_add_edge_check g a b w u v x :
  edge (add_edge_check g a b w) u v x <->
  edge g u v x \/ (has_edge g a b = false /\ x = w /\ ((u = a /\ v = b) \/ (u = b /\ v = a))).
Proof.
  unfold add_edge_check. destruct (has_edge g a b).
  - split; auto. intros [H|[H _]]; auto. discriminate.
  - rewrite edge_add_edge. tauto.
Qed.

Lemma NoDup_app_one {A} (l : list A) a : NoDup l -> ~ In a l -> NoDup (l ++ [a]).
Proof.
  intros N H. apply (Permutation_NoDup (l := a :: l)).
  - change (a :: l) with ([a] ++ l). apply Permutation_app_comm.
  - now constructor.
Qed.

Lemma wf_add_edge g a b w : wf g -> g_alive g a = true -> g_alive g b = true ->
  has_edge g a b = false -> wf (add_edge g a b w).
Proof.
  intros W Ha Hb Hn.
  assert (Nab : forall x, ~ edge g a b x) by (apply has_edge_false; auto).
  assert (Nba : forall x, ~ edge g b a x) by (intros x Hx; apply (Nab x), wf_sym; auto).
  constructor.
  - intros u v x. rewrite !edge_add_edge. intros [H|[-> [[-> ->]|[-> ->]]]]; auto.
    left. apply wf_sym; auto.
  - intro u. rewrite g_out_add_edge.
    assert (Q1 : forall c d x, (forall y, ~ edge g c d y) -> NoDup (map fst (g_out g c ++ [(d, x)]))).
    { intros c d x H. rewrite map_app. apply NoDup_app_one; [apply wf_nodup; auto|].
      simpl. intro Hin. apply in_map_iff in Hin. destruct Hin as [[p q] [E Hin]]. simpl in E; subst p.
      eapply H; eauto. }
    destruct (u =? a); [apply Q1; auto|]. destruct (u =? b); [apply Q1; auto|]. apply wf_nodup; auto.
  - intros u v x. rewrite edge_add_edge. simpl. intros [H|[-> [[-> ->]|[-> ->]]]]; auto.
    apply (wf_alive g W u v x H).
  - simpl. apply wf_upper; auto.
Qed.

Lemma wf_add_edge_check g a b w : wf g -> g_alive g a = true -> g_alive g b = true ->
  wf (add_edge_check g a b w).
Proof.
  intros. unfold add_edge_check. destruct (has_edge g a b) eqn:E; auto. apply wf_add_edge; auto.
Qed.

Lemma wf_new_graph n : wf (new_graph n).
Proof.
  constructor; simpl; unfold edge; simpl; try tauto.
  - intro. constructor.
  - intros u H. now apply Nat.ltb_lt in H.
Qed.

(** ** Removing edges *)

Lemma g_out_remove_edge g a b u : a <> b ->
  g_out (remove_edge g a b) u =
  if u =? a then swap_del b (g_out g a)
  else if u =? b then swap_del a (g_out g b) else g_out g u.
Proof.
  intro E. unfold remove_edge. simpl. destruct (Nat.eqb_spec a b) as [E'|_]; [congruence|].
  unfold upd. destruct (Nat.eqb_spec u b) as [E1|E1]; destruct (Nat.eqb_spec u a) as [E2|E2]; subst; auto.
  - congruence.
  - destruct (Nat.eqb_spec b a); [congruence|auto].
Qed.

Lemma edge_remove_edge g a b u v x : wf g ->
  edge (remove_edge g a b) u v x <->
  edge g u v x /\ ~ (u = a /\ v = b) /\ ~ (u = b /\ v = a).
Proof.
  intro W. destruct (Nat.eq_dec a b) as [E|E].
  - subst b. unfold edge, remove_edge. simpl. rewrite Nat.eqb_refl. unfold upd.
    destruct (Nat.eqb_spec u a) as [E1|E1].
    + subst u. rewrite swap_del_In by (apply wf_nodup; auto). intuition.
    + intuition.
  - unfold edge. rewrite g_out_remove_edge by auto.
    destruct (Nat.eqb_spec u a) as [E1|E1].
    + subst u. rewrite swap_del_In by (apply wf_nodup; auto). intuition.
    + destruct (Nat.eqb_spec u b) as [E2|E2].
      * subst u. rewrite swap_del_In by (apply wf_nodup; auto). intuition.
      * intuition.
Qed.

Lemma wf_remove_edge g a b : wf g -> wf (remove_edge g a b).
Proof.
  intro W. constructor.
  - intros u v x. rewrite !edge_remove_edge by auto. intros [H [H1 H2]].
    split; [apply wf_sym; auto|]. tauto.
  - intro u. unfold remove_edge. simpl. destruct (a =? b).
    + unfold upd. destruct (u =? a); [apply swap_del_NoDup|]; apply wf_nodup; auto.
    + unfold upd. destruct (u =? b); [apply swap_del_NoDup; destruct (b =? a); [apply swap_del_NoDup|];
        apply wf_nodup; auto|].
      destruct (u =? a); [apply swap_del_NoDup|]; apply wf_nodup; auto.
  - intros u v x H. apply edge_remove_edge in H; auto. destruct H as [H _].
    apply (wf_alive g W u v x H).
  - simpl. apply wf_upper; auto.
Qed.

Lemma remove_edge_upper g a b : g_upper (remove_edge g a b) = g_upper g.
Proof. reflexivity. Qed.
Lemma remove_edge_alive g a b : g_alive (remove_edge g a b) = g_alive g.
Proof. reflexivity. Qed.

(** ** Folding over additions *)

Definition add_list (es : list (nat * nat * Q)) (g : graph) : graph :=
  fold_left (fun g e => match e with (u, v, w) => add_edge_check g u v w end) es g.

Lemma add_edge_check_upper g a b w : g_upper (add_edge_check g a b w) = g_upper g.
Proof. unfold add_edge_check. now destruct (has_edge g a b). Qed.
Lemma add_edge_check_alive g a b w : g_alive (add_edge_check g a b w) = g_alive g.
Proof. unfold add_edge_check. now destruct (has_edge g a b). Qed.

Lemma add_list_upper es : forall g, g_upper (add_list es g) = g_upper g.
Proof.
  induction es as [|[[u v] w] es IH]; intro g; simpl; auto.
  unfold add_list in IH. rewrite IH. apply add_edge_check_upper.
Qed.
Lemma add_list_alive es : forall g, g_alive (add_list es g) = g_alive g.
Proof.
  induction es as [|[[u v] w] es IH]; intro g; simpl; auto.
  unfold add_list in IH. rewrite IH. apply add_edge_check_alive.
Qed.

Definition ends_alive (es : list (nat * nat * Q)) (g : graph) : Prop :=
  forall u v w, In (u, v, w) es -> g_alive g u = true /\ g_alive g v = true.

Lemma wf_add_list es : forall g, wf g -> ends_alive es g -> wf (add_list es g).
Proof.
  induction es as [|[[u v] w] es IH]; intros g W E; simpl; auto.
  apply IH.
  - destruct (E u v w); [simpl; auto|]. apply wf_add_edge_check; auto.
  - intros a b c H. rewrite add_edge_check_alive. apply (E a b c). simpl; auto.
Qed.

(** vertices u, v are joined in the list *)
Definition listed (es : list (nat * nat * Q)) (u v : nat) (w : Q) : Prop :=
  In (u, v, w) es \/ In (v, u, w) es.

Lemma edge_add_list_1 es : forall g u v x, wf g -> ends_alive es g ->
  edge (add_list es g) u v x -> edge g u v x \/ listed es u v x.
Proof.
  induction es as [|[[a b] w] es IH]; intros g u v x W E H; simpl in *; auto.
  assert (Eab : g_alive g a = true /\ g_alive g b = true) by (apply (E a b w); simpl; auto).
  destruct Eab. apply IH in H.
  - destruct H as [H|H].
    + apply edge_add_edge_check in H. destruct H as [H|[_ [-> [[-> ->]|[-> ->]]]]]; auto.
      * right. left. simpl. auto.
      * right. right. simpl. auto.
    + right. destruct H; [left|right]; simpl; auto.
  - apply wf_add_edge_check; auto.
  - intros p q r Hin. rewrite add_edge_check_alive. apply (E p q r). simpl; auto.
Qed.

Lemma edge_add_list_mono es : forall g u v x, edge g u v x -> edge (add_list es g) u v x.
Proof.
  induction es as [|[[a b] w] es IH]; intros g u v x H; simpl; auto.
  apply IH. apply edge_add_edge_check. auto.
Qed.

Lemma edge_add_list_2 es : forall g u v x, wf g -> ends_alive es g ->
  listed es u v x -> exists y, edge (add_list es g) u v y.
Proof.
  induction es as [|[[a b] w] es IH]; intros g u v x W E H.
  - destruct H as [[]|[]].
  - assert (Eab : g_alive g a = true /\ g_alive g b = true) by (apply (E a b w); simpl; auto).
    destruct Eab as [Ea Eb].
    assert (W' : wf (add_edge_check g a b w)) by (apply wf_add_edge_check; auto).
    assert (E' : ends_alive es (add_edge_check g a b w)).
    { intros p q r Hin. rewrite add_edge_check_alive. apply (E p q r). simpl; auto. }
    assert (Base : exists y, edge (add_edge_check g a b w) a b y).
    { destruct (has_edge g a b) eqn:Hh.
      - unfold add_edge_check. rewrite Hh. now apply has_edge_iff.
      - exists w. apply edge_add_edge_check. right. auto. }
    destruct Base as [y Hy].
    destruct H as [[H|H]|[H|H]].
    + inversion H; subst. exists y. now apply (edge_add_list_mono es).
    + simpl. apply (IH (add_edge_check g a b w) u v x W' E'). left; auto.
    + inversion H; subst. exists y. apply (edge_add_list_mono es). apply wf_sym; auto.
    + simpl. apply (IH (add_edge_check g a b w) u v x W' E'). right; auto.
Qed.

(** ** Folding over removals *)

Definition removable (D : nat -> nat -> Prop) (g g' : graph) : Prop :=
  wf g' /\ g_upper g' = g_upper g /\ g_alive g' = g_alive g /\
  (forall u v x, edge g' u v x -> edge g u v x) /\
  (forall u v x, edge g u v x -> ~ D u v -> ~ D v u -> edge g' u v x).

Lemma removable_refl D g : wf g -> removable D g g.
Proof. intro. refine (conj _ (conj _ (conj _ (conj _ _)))); auto. Qed.

Lemma removable_trans D g g' g'' : removable D g g' -> removable D g' g'' -> removable D g g''.
Proof.
  intros (W1 & U1 & A1 & S1 & K1) (W2 & U2 & A2 & S2 & K2).
  refine (conj _ (conj _ (conj _ (conj _ _)))); try congruence; auto.
Qed.

Lemma removable_step (D : nat -> nat -> Prop) g a b : wf g -> D a b -> removable D g (remove_edge g a b).
Proof.
  intros W H. refine (conj _ (conj _ (conj _ (conj _ _)))); auto.
  - now apply wf_remove_edge.
  - intros u v x E. apply edge_remove_edge in E; tauto.
  - intros u v x E N1 N2. apply edge_remove_edge; auto. split; auto.
    split; intros [-> ->]; tauto.
Qed.

(** ** Live pruning *)

Lemma prune_row_removable r u n : forall i g, wf g ->
  removable (fun a b => exists w, edge g a b w /\ (r <= w)%Q) g (prune_row r u n i g).
Proof.
  induction n as [|n IH]; intros i g W; simpl.
  - apply removable_refl; auto.
  - destruct (nth_error (g_out g u) i) as [[v w]|] eqn:E; [|apply removable_refl; auto].
    destruct ((u <=? v) && Qle_bool r w)%bool eqn:C.
    + apply andb_true_iff in C. destruct C as [_ C]. apply Qle_bool_iff in C.
      assert (Huv : edge g u v w) by (eapply nth_error_In; eauto).
      assert (S1 : removable (fun a b => exists w, edge g a b w /\ (r <= w)%Q) g (remove_edge g u v)).
      { apply removable_step; auto. eauto. }
      eapply removable_trans; [exact S1|].
      destruct S1 as (W1 & U1 & A1 & M1 & K1).
      specialize (IH (S i) _ W1). destruct IH as (W2 & U2 & A2 & M2 & K2).
      refine (conj _ (conj _ (conj _ (conj _ _)))); auto; try congruence.
      intros a b x Hx N1 N2. apply K2; auto.
      * intros (w' & Hw & Hr). apply N1. exists w'. split; auto.
      * intros (w' & Hw & Hr). apply N2. exists w'. split; auto.
    + apply IH; auto.
Qed.

Lemma removable_weaken (D D' : nat -> nat -> Prop) g g' :
  (forall a b, D a b -> D' a b) -> removable D g g' -> removable D' g g'.
Proof.
  intros H (W & U & A & M & K). refine (conj _ (conj _ (conj _ (conj _ _)))); auto; try congruence.
Qed.

Lemma prune_live_removable r g : wf g ->
  removable (fun a b => exists w, edge g a b w /\ (r <= w)%Q) g (prune_live r g).
Proof.
  intro W. unfold prune_live.
  assert (H : forall l g1,
    removable (fun a b => exists w, edge g a b w /\ (r <= w)%Q) g g1 ->
    removable (fun a b => exists w, edge g a b w /\ (r <= w)%Q) g
      (fold_left (fun g u => if g_alive g u then prune_row r u (length (g_out g u)) 0 g else g) l g1)).
  { induction l as [|u l IH]; intros g1 R; simpl; auto.
    apply IH. destruct (g_alive g1 u); auto.
    eapply removable_trans; [exact R|].
    destruct R as (W1 & U1 & A1 & M1 & K1).
    eapply removable_weaken; [|apply prune_row_removable; auto].
    intros a b (w & Hw & Hr). eauto. }
  apply H. apply removable_refl; auto.
Qed.

(** ** Edge enumeration *)

Lemma edge_list_In g u v w : wf g ->
  In (u, v, w) (edge_list g) <-> edge g u v w /\ u <= v.
Proof.
  intro W. unfold edge_list. rewrite in_flat_map. split.
  - intros [x [Hx H]]. apply in_map_iff in H. destruct H as [[y z] [E H]]. simpl in E.
    inversion E; subst. apply filter_In in H. destruct H as [H1 H2]. simpl in H2.
    apply Nat.leb_le in H2. auto.
  - intros [H L]. exists u. split.
    + apply filter_In. pose proof (wf_alive g W u v w H) as [Ha Hb]. split; auto.
      apply in_seq. pose proof (wf_upper g W u Ha). lia.
    + apply in_map_iff. exists (v, w). split; auto. apply filter_In. split; auto.
      simpl. now apply Nat.leb_le.
Qed.

Lemma prune_snapshot_spec r g : wf g ->
  wf (prune_snapshot r g) /\
  forall u v w, edge (prune_snapshot r g) u v w <-> edge g u v w /\ ~ (r <= w)%Q.
Proof.
  intro W. unfold prune_snapshot.
  assert (H : forall l g1, wf g1 -> (forall u v w, In (u, v, w) l -> edge g u v w) ->
    (forall u v w, edge g1 u v w -> edge g u v w) ->
    let g2 := fold_left (fun g e => match e with (u, v, w) =>
               if Qle_bool r w then remove_edge g u v else g end) l g1 in
    wf g2 /\ forall u v w, edge g2 u v w <->
      edge g1 u v w /\ ~ ((r <= w)%Q /\ (In (u, v, w) l \/ In (v, u, w) l))).
  { induction l as [|[[a b] x] l IH]; intros g1 W1 Hl Hg g2.
    - split; auto. intros; subst g2; simpl. tauto.
    - subst g2. simpl. destruct (Qle_bool r x) eqn:C.
      + assert (W2 := wf_remove_edge g1 a b W1).
        destruct (IH (remove_edge g1 a b) W2) as [W3 IH'].
        * intros; apply Hl; simpl; auto.
        * intros u v w E. apply edge_remove_edge in E; auto. apply Hg; tauto.
        * split; auto. intros u v w. rewrite IH'. rewrite edge_remove_edge by auto.
          apply Qle_bool_iff in C.
          split.
          -- intros [[E [N1 N2]] N3]. split; auto. intros [Hr [[Q1|Q1]|[Q1|Q1]]].
             ++ inversion Q1; subst; tauto.
             ++ tauto.
             ++ inversion Q1; subst; tauto.
             ++ tauto.
          -- intros [E N]. split; [split; auto; split|].
             ++ intros [-> ->]. apply N.
                assert (x = w) by (eapply (wf_fun g); eauto; apply Hl; simpl; auto).
                subst. split; [auto|left; left; auto].
             ++ intros [-> ->]. apply N.
                assert (x = w).
                { eapply (wf_fun g a b); eauto. apply Hl; simpl; auto. apply wf_sym; auto. }
                subst. split; [auto|right; left; auto].
             ++ intros [Hr Q1]. apply N. split; auto. tauto.
      + destruct (IH g1 W1) as [W3 IH'].
        * intros; apply Hl; simpl; auto.
        * auto.
        * split; auto. intros u v w. rewrite IH'.
          assert (~ (r <= x)%Q) by (intro Q1; apply Qle_bool_iff in Q1; congruence).
          split; intros [E N]; split; auto; intros [Hr Q1]; apply N; split; auto.
          -- destruct Q1 as [[Q1|Q1]|[Q1|Q1]]; auto; inversion Q1; subst; tauto.
          -- destruct Q1; auto. }
  destruct (H (edge_list g) g W) as [W' H'].
  - intros u v w Hin. apply edge_list_In in Hin; tauto.
  - auto.
  - split; auto. intros u v w. rewrite H'. split; intros [E N]; split; auto.
    + intro Hr. apply N. split; auto.
      destruct (Nat.le_gt_cases u v).
      * left. apply edge_list_In; auto.
      * right. apply edge_list_In; auto. split; [apply wf_sym; auto|lia].
    + tauto.
Qed.

(** ** Draining and removing a vertex *)

Lemma drain_spec n : forall g v l, wf g -> g_out g v = l -> n = length l ->
  ~ In v (map fst l) ->
  forall u, g_out (drain n g v) u =
    if u =? v then [] else if in_dec Nat.eq_dec u (map fst l) then swap_del v (g_out g u) else g_out g u.
Proof.
  induction n as [|n IH]; intros g v l W El En Hv u.
  - destruct l; [|discriminate]. simpl. destruct (Nat.eqb_spec u v); subst; auto.
  - destruct l as [|[a x] l]; [discriminate|]. cbn [drain]. rewrite El.
    simpl in Hv. assert (a <> v) by tauto.
    assert (W1 := wf_remove_edge g v a W).
    assert (E1 : g_out (remove_edge g v a) v = swap_del a ((a, x) :: l)).
    { rewrite g_out_remove_edge by auto. rewrite Nat.eqb_refl. now rewrite El. }
    assert (N := wf_nodup g W v). rewrite El in N. simpl in N. inversion N; subst.
    assert (Hset : forall y, In y (map fst (swap_del a ((a, x) :: l))) <-> In y (map fst l)).
    { intro y. split; intro Hy.
      - apply in_map_iff in Hy. destruct Hy as [[p q] [E Hy]]. simpl in E; subst p.
        apply swap_del_In in Hy; [|simpl; auto].
        destruct Hy as [[Hy|Hy] Hne]; [inversion Hy; congruence|].
        apply in_map_iff. exists (y, q). auto.
      - apply in_map_iff in Hy. destruct Hy as [[p q] [E Hy]]. simpl in E; subst p.
        apply in_map_iff. exists (y, q). split; auto. apply swap_del_In; [simpl; auto|].
        split; [right; auto|]. intro; subst. apply H2. apply in_map_iff. exists (a, q). auto. }
    rewrite (IH (remove_edge g v a) v _ W1 E1).
    + destruct (Nat.eqb_spec u v) as [|Huv]; auto.
      rewrite !g_out_remove_edge by auto.
      destruct (Nat.eqb_spec u v); [congruence|].
      destruct (in_dec Nat.eq_dec u (map fst (swap_del a ((a, x) :: l)))) as [I1|I1];
      destruct (in_dec Nat.eq_dec u (map fst ((a, x) :: l))) as [I2|I2].
      * destruct (Nat.eqb_spec u a); auto. subst. apply Hset in I1. tauto.
      * exfalso. apply I2. simpl. right. now apply Hset.
      * destruct (Nat.eqb_spec u a); auto. subst; auto.
        exfalso. simpl in I2. destruct I2; [congruence|]. apply I1. now apply Hset.
      * destruct (Nat.eqb_spec u a); auto. exfalso. apply I2. simpl. auto.
    + pose proof (swap_del_length a ((a, x) :: l)) as L. simpl in L, En.
      assert (a = a \/ In a (map fst l)) by auto. specialize (L H0). simpl. lia.
    + rewrite Hset. tauto.
Qed.

Lemma drain_upper n : forall g v, g_upper (drain n g v) = g_upper g.
Proof.
  induction n; intros; simpl; auto. destruct (g_out g v) as [|[u w] l]; auto. now rewrite IHn.
Qed.
Lemma drain_alive n : forall g v, g_alive (drain n g v) = g_alive g.
Proof.
  induction n; intros; simpl; auto. destruct (g_out g v) as [|[u w] l]; auto. now rewrite IHn.
Qed.

Lemma drain_wf n : forall g v, wf g -> wf (drain n g v).
Proof.
  induction n; intros; simpl; auto. destruct (g_out g v) as [|[u w] l] eqn:E; auto.
  apply IHn. now apply wf_remove_edge.
Qed.

Lemma remove_node_out g v : wf g -> ~ In v (map fst (g_out g v)) ->
  forall u, g_out (remove_node g v) u =
    if u =? v then [] else if in_dec Nat.eq_dec u (map fst (g_out g v))
                           then swap_del v (g_out g u) else g_out g u.
Proof. intros W H u. unfold remove_node. simpl. now apply drain_spec. Qed.

Lemma remove_node_wf g v : wf g -> ~ In v (map fst (g_out g v)) -> wf (remove_node g v).
Proof.
  intros W H. assert (W1 := drain_wf (length (g_out g v)) g v W).
  assert (E0 : g_out (remove_node g v) v = []).
  { rewrite remove_node_out by auto. now rewrite Nat.eqb_refl. }
  constructor.
  - apply (wf_sym _ W1).
  - apply (wf_nodup _ W1).
  - intros u x w E.
    assert (u <> v). { intro; subst. unfold edge in E. rewrite E0 in E. destruct E. }
    assert (x <> v).
    { intro; subst. apply (wf_sym _ W1) in E. unfold edge in E.
      change (g_out (drain (length (g_out g v)) g v) v) with (g_out (remove_node g v) v) in E.
      rewrite E0 in E. destruct E. }
    simpl. rewrite !upd_other by auto. apply (wf_alive _ W1 u x w E).
  - intros u Hu. simpl in *. unfold upd in Hu. destruct (u =? v); [discriminate|].
    apply (wf_upper _ W1 u Hu).
Qed.
