(** Lemmas about the Gray-code corridor. *)
From Coq Require Import Arith ZArith QArith Qround List Bool Lia Lqa.
From Verif Require Import Gray_Model Gray_Spec.
Import ListNotations.

(** ** consecutive *)
Lemma consecutive_cons {A} x (l : list A) c d :
  consecutive (x :: l) c d <-> (x = c /\ exists m, l = d :: m) \/ consecutive l c d.
Proof.
  split.
  - intros (l1 & l2 & E). destruct l1 as [|y l1]; simpl in E; injection E as E1 E2.
    + left. split; eauto.
    + right. exists l1, l2. auto.
  - intros [[-> [m ->]]|(l1 & l2 & ->)].
    + exists [], m. reflexivity.
    + exists (x :: l1), l2. reflexivity.
Qed.

Lemma consecutive_nil {A} (c d : A) : ~ consecutive [] c d.
Proof. intros (l1 & l2 & E). destruct l1; discriminate. Qed.

Lemma consecutive_app {A} : forall (l1 l2 : list A) c d, consecutive (l1 ++ l2) c d ->
  consecutive l1 c d \/ consecutive l2 c d \/ (exists a b, l1 = a ++ [c] /\ l2 = d :: b).
Proof.
  induction l1 as [|x l1 IH]; intros l2 c d H; simpl in H; [auto|].
  apply consecutive_cons in H as [[-> [m E]]|H].
  - destruct l1 as [|y l1]; simpl in E.
    + right; right. exists [], m. auto.
    + injection E as -> E. left. apply consecutive_cons. left. eauto.
  - destruct (IH _ _ _ H) as [H'|[H'|(a & b & -> & ->)]].
    + left. apply consecutive_cons. auto.
    + auto.
    + right; right. exists (x :: a), b. auto.
Qed.

Lemma consecutive_rev {A} (l : list A) c d : consecutive (rev l) c d <-> consecutive l d c.
Proof.
  assert (G : forall (l : list A) c d, consecutive l c d -> consecutive (rev l) d c).
  { clear. intros l c d (l1 & l2 & ->). exists (rev l2), (rev l1).
    rewrite rev_app_distr. simpl. rewrite <- !app_assoc. reflexivity. }
  split; intro H; [|auto]. apply G in H. now rewrite rev_involutive in H.
Qed.

Lemma consecutive_map {A B} (f : A -> B) l c d : consecutive (map f l) c d ->
  exists c' d', c = f c' /\ d = f d' /\ consecutive l c' d'.
Proof.
  induction l as [|x l IH]; simpl; intro H; [now apply consecutive_nil in H|].
  apply consecutive_cons in H as [[<- [m E]]|H].
  - destruct l as [|y l]; [discriminate|]. injection E as <- E.
    exists x, y. split; auto. split; auto. apply consecutive_cons. eauto.
  - destruct (IH H) as (c' & d' & ? & ? & ?). exists c', d'. split; auto. split; auto.
    apply consecutive_cons. auto.
Qed.

Lemma consecutive_In {A} (l : list A) c d : consecutive l c d -> In c l /\ In d l.
Proof. intros (l1 & l2 & ->). split; apply in_or_app; simpl; auto. Qed.

Lemma one_step_sym c d : one_step c d -> one_step d c.
Proof.
  intros (L & i & Hi & A & E). split; auto. exists i. split; [lia|]. split; [lia|].
  intros j Hj. symmetry. auto.
Qed.
Lemma one_step_cons x c d : one_step c d -> one_step (x :: c) (x :: d).
Proof.
  intros (L & i & Hi & A & E). split; [simpl; lia|]. exists (S i). simpl. split; [lia|]. split; auto.
  intros [|j] Hj; auto.
Qed.
Lemma one_step_head x y c : Z.abs (x - y) = 1%Z -> one_step (x :: c) (y :: c).
Proof.
  intro H. split; auto. exists 0%nat. simpl. split; [lia|]. split; auto. intros [|j] Hj; [lia|auto].
Qed.

(** ** The Gray code *)
Lemma gray_length n : length (gray n) = Nat.pow 2 n.
Proof.
  induction n; simpl; auto. rewrite app_length, !map_length, rev_length, IHn.
  lia.
Qed.

Lemma gray_In n : forall c, In c (gray n) <-> length c = n /\ forall i, (i < n)%nat -> nth i c 0%Z = 0%Z \/ nth i c 0%Z = 1%Z.
Proof.
  induction n as [|n IH]; intro c; simpl.
  - split; [intros [<-|[]]; split; auto; lia|]. intros [L _]. left. now destruct c.
  - rewrite in_app_iff, !in_map_iff. split.
    + intros [(x & <- & H)|(x & <- & H)]; [|rewrite <- in_rev in H]; apply IH in H as [L H];
      (split; [simpl; lia|]); intros [|i] Hi; simpl; auto; apply H; lia.
    + intros [L H]. destruct c as [|z c]; [discriminate|].
      assert (G : In c (gray n)).
      { apply IH. split; [simpl in L; lia|]. intros i Hi. apply (H (S i)). lia. }
      destruct (H 0%nat ltac:(lia)) as [E|E]; simpl in E; subst z.
      * left. eauto.
      * right. exists c. rewrite <- in_rev. auto.
Qed.

Lemma NoDup_map_cons (z : Z) l : NoDup l -> NoDup (map (cons z) l).
Proof.
  induction 1; simpl; constructor; auto. rewrite in_map_iff. intros (y & E & Hy). now injection E as ->.
Qed.
Lemma NoDup_app_disj {A} (l1 l2 : list A) : NoDup l1 -> NoDup l2 -> (forall x, In x l1 -> ~ In x l2) -> NoDup (l1 ++ l2).
Proof.
  induction 1 as [|x l1 Hx N IH]; simpl; intros N2 D; auto. constructor.
  - rewrite in_app_iff. intros [H|H]; auto. apply (D x); auto.
  - apply IH; auto.
Qed.

Lemma gray_NoDup n : NoDup (gray n).
Proof.
  induction n; simpl; [constructor; [auto|constructor]|].
  apply NoDup_app_disj.
  - now apply NoDup_map_cons.
  - apply NoDup_map_cons. now apply NoDup_rev.
  - intros x. rewrite !in_map_iff. intros (a & <- & _) (b & E & _). discriminate.
Qed.

(** first and last code word *)
Lemma gray_first n : exists m, gray n = repeat 0%Z n :: m.
Proof.
  induction n as [|n [m E]]; simpl; eauto. rewrite E. simpl. eauto.
Qed.
Definition gray_end (n : nat) : cube := match n with O => [] | S n' => 1%Z :: repeat 0%Z n' end.
Lemma gray_last n : exists m, gray n = m ++ [gray_end n].
Proof.
  destruct n as [|n]; simpl; [exists []; auto|]. destruct (gray_first n) as [m E]. rewrite E.
  simpl. rewrite map_app. simpl. rewrite app_assoc, app_comm_cons. eauto.
Qed.

Lemma gray_steps n : forall c d, consecutive (gray n) c d -> one_step c d.
Proof.
  induction n as [|n IH]; simpl; intros c d H.
  - apply consecutive_cons in H as [[_ [m E]]|H]; [discriminate|now apply consecutive_nil in H].
  - apply consecutive_app in H as [H|[H|(a & b & E1 & E2)]].
    + apply consecutive_map in H as (c' & d' & -> & -> & H). apply one_step_cons. auto.
    + apply consecutive_map in H as (c' & d' & -> & -> & H). apply one_step_cons, one_step_sym.
      apply IH. now apply consecutive_rev.
    + destruct (gray_last n) as [m E]. rewrite E in E1, E2.
      rewrite map_app in E1. simpl in E1. apply app_inj_tail in E1 as [_ <-].
      rewrite rev_app_distr in E2. simpl in E2. injection E2 as <- _. now apply one_step_head.
Qed.

(** ** The corridor *)
Definition layer (dim i : nat) : list cube :=
  prepend_coord (Z.of_nat i) (if Nat.even i then gray (dim - 1) else rev (gray (dim - 1))).
Definition layer_first (dim i : nat) : cube :=
  Z.of_nat i :: (if Nat.even i then repeat 0%Z (dim - 1) else gray_end (dim - 1)).
Definition layer_last (dim i : nat) : cube :=
  Z.of_nat i :: (if Nat.even i then gray_end (dim - 1) else repeat 0%Z (dim - 1)).

Lemma layer_ends dim i : (exists m, layer dim i = layer_first dim i :: m) /\ (exists m, layer dim i = m ++ [layer_last dim i]).
Proof.
  unfold layer, layer_first, layer_last, prepend_coord.
  destruct (gray_first (dim - 1)) as [m1 E1], (gray_last (dim - 1)) as [m2 E2].
  destruct (Nat.even i).
  - split; [rewrite E1; simpl; eauto|]. rewrite E2, map_app. simpl. eauto.
  - split.
    + rewrite E2, rev_app_distr. simpl. eauto.
    + rewrite E1. simpl. rewrite map_app. simpl. eauto.
Qed.

Lemma linear_S dim len : linear_list dim (S len) = linear_list dim len ++ layer dim len.
Proof. unfold linear_list. rewrite seq_S, flat_map_app. simpl. rewrite app_nil_r. reflexivity. Qed.

Lemma layer_length dim i : length (layer dim i) = Nat.pow 2 (dim - 1).
Proof. unfold layer, prepend_coord. rewrite map_length. destruct (Nat.even i); rewrite ?rev_length; apply gray_length. Qed.

Lemma linear_length dim len : length (linear_list dim len) = (len * Nat.pow 2 (dim - 1))%nat.
Proof.
  induction len; [reflexivity|]. rewrite linear_S, app_length, layer_length, IHlen. lia.
Qed.

Lemma layer_In dim i c : (1 <= dim)%nat -> (In c (layer dim i) <-> length c = dim /\ nth 0 c 0%Z = Z.of_nat i /\
  forall j, (1 <= j < dim)%nat -> nth j c 0%Z = 0%Z \/ nth j c 0%Z = 1%Z).
Proof.
  intro Hd. unfold layer, prepend_coord. rewrite in_map_iff.
  assert (G : forall x, In x (if Nat.even i then gray (dim - 1) else rev (gray (dim - 1))) <-> In x (gray (dim - 1))).
  { intro x. destruct (Nat.even i); [tauto|]. now rewrite <- in_rev. }
  split.
  - intros (x & <- & H). apply G, gray_In in H as [L H]. split; [simpl; lia|]. split; auto.
    intros [|j] Hj; [lia|]. simpl. apply H. lia.
  - intros (L & E & H). destruct c as [|z c]; [simpl in L; lia|]. simpl in E. subst z.
    exists c. split; auto. apply G, gray_In. split; [simpl in L; lia|].
    intros j Hj. apply (H (S j)). lia.
Qed.

Lemma linear_In dim len c : (1 <= dim)%nat -> (In c (linear_list dim len) <-> in_grid dim len c).
Proof.
  intro Hd. unfold in_grid. induction len as [|len IH].
  - simpl. split; [tauto|]. intros (_ & H & _). lia.
  - rewrite linear_S, in_app_iff, IH, layer_In by auto. split.
    + intros [(L & H & G)|(L & H & G)]; split; auto; split; auto; lia.
    + intros (L & H & G). destruct (Z.eq_dec (nth 0 c 0%Z) (Z.of_nat len)); [right|left]; split; auto; split; auto; lia.
Qed.

Lemma linear_NoDup dim len : (1 <= dim)%nat -> NoDup (linear_list dim len).
Proof.
  intro Hd. induction len as [|len IH]; [constructor|]. rewrite linear_S. apply NoDup_app_disj; auto.
  - unfold layer, prepend_coord. apply NoDup_map_cons. destruct (Nat.even len); [|apply NoDup_rev]; apply gray_NoDup.
  - intros c H1 H2. apply linear_In in H1 as (_ & H & _); auto. apply layer_In in H2 as (_ & E & _); auto. lia.
Qed.

Lemma layer_steps dim i c d : consecutive (layer dim i) c d -> one_step c d.
Proof.
  intro H. apply consecutive_map in H as (c' & d' & -> & -> & H). apply one_step_cons.
  destruct (Nat.even i); [eapply gray_steps; eauto|].
  apply one_step_sym. eapply gray_steps. apply consecutive_rev. eauto.
Qed.

Lemma linear_steps dim len c d : consecutive (linear_list dim len) c d -> one_step c d.
Proof.
  induction len as [|len IH]; [intro H; now apply consecutive_nil in H|]. rewrite linear_S. intro H.
  apply consecutive_app in H as [H|[H|(a & b & E1 & E2)]]; auto.
  - eapply layer_steps; eauto.
  - destruct len as [|len]; [destruct a; discriminate|].
    rewrite linear_S in E1. destruct (proj2 (layer_ends dim len)) as [m E]. rewrite E, app_assoc in E1.
    apply app_inj_tail in E1 as [_ <-].
    destruct (proj1 (layer_ends dim (S len))) as [m' E']. rewrite E' in E2. injection E2 as <- _.
    unfold layer_first, layer_last. rewrite Nat.even_succ, <- Nat.negb_even.
    destruct (Nat.even len); simpl negb; cbv iota; apply one_step_head; lia.
Qed.

Lemma linear_corridor dim len : (1 <= dim)%nat -> corridor dim (linear_list dim len).
Proof.
  intro Hd. split; [now apply linear_NoDup|]. split.
  - intros c H. apply linear_In in H; auto. apply H.
  - intros. eapply linear_steps; eauto.
Qed.

Lemma linear_first dim len : (1 <= dim)%nat -> (1 <= len)%nat -> exists m, linear_list dim len = repeat 0%Z dim :: m.
Proof.
  intros Hd Hl. destruct len as [|len]; [lia|]. clear Hl. induction len as [|len [m IH]].
  - rewrite linear_S. simpl. destruct (proj1 (layer_ends dim 0)) as [m E]. rewrite E. unfold layer_first. simpl.
    destruct dim; [lia|]. simpl. rewrite Nat.sub_0_r. eauto.
  - rewrite linear_S, IH. simpl. eauto.
Qed.

(** ** Graph queries *)
Lemma cube_eqb_iff c d : cube_eqb c d = true <-> c = d.
Proof. unfold cube_eqb. destruct (list_eq_dec Z.eq_dec c d); split; congruence. Qed.
Lemma cube_eqb_refl c : cube_eqb c c = true.
Proof. now apply cube_eqb_iff. Qed.
Lemma has_cube_iff path c : has_cube path c = true <-> In c path.
Proof.
  unfold has_cube. rewrite existsb_exists. split.
  - intros (x & H & E). apply cube_eqb_iff in E. now subst.
  - intro H. exists c. split; auto. apply cube_eqb_refl.
Qed.

Lemma edges_In path c d : In (c, d) (edges path) <-> consecutive path c d.
Proof.
  unfold edges. induction path as [|x path IH]; simpl.
  - split; [tauto|]. intro H. now apply consecutive_nil in H.
  - rewrite consecutive_cons. destruct path as [|y path]; simpl in *.
    + split; [tauto|]. intros [[_ [m E]]|H]; [discriminate|now apply consecutive_nil in H].
    + rewrite IH. split.
      * intros [E|H]; auto. injection E as -> ->. left. eauto.
      * intros [[-> [m E]]|H]; auto. injection E as -> _. auto.
Qed.

Lemma successors_In path c d : In d (successors path c) <-> consecutive path c d.
Proof.
  unfold successors. rewrite in_map_iff. split.
  - intros ([a b] & E & H). apply filter_In in H as [H F]. simpl in *. apply cube_eqb_iff in F. subst. now apply edges_In.
  - intro H. exists (c, d). split; auto. apply filter_In. split; [now apply edges_In|]. apply cube_eqb_refl.
Qed.
Lemma predecessors_In path c d : In d (predecessors path c) <-> consecutive path d c.
Proof.
  unfold predecessors. rewrite in_map_iff. split.
  - intros ([a b] & E & H). apply filter_In in H as [H F]. simpl in *. apply cube_eqb_iff in F. subst. now apply edges_In.
  - intro H. exists (d, c). split; auto. apply filter_In. split; [now apply edges_In|]. apply cube_eqb_refl.
Qed.
Lemma neighbors_In path c d : In d (neighbors path c) <-> (consecutive path c d \/ consecutive path d c).
Proof. unfold neighbors. rewrite in_app_iff, successors_In, predecessors_In. tauto. Qed.

Open Scope Q_scope.
(** ** Distances *)
Lemma at_least_omin v a b : at_least v (omin a b) <-> at_least v a /\ at_least v b.
Proof.
  destruct a as [x|], b as [y|]; simpl; try tauto.
  destruct (Qle_bool x y) eqn:E.
  - apply Qle_bool_iff in E. split; [intro H; split; lra|tauto].
  - split; [|tauto]. intro H. split; auto.
    assert (~ x <= y) by (intro C; apply Qle_bool_iff in C; congruence). lra.
Qed.
Lemma at_least_fold v l : at_least v (fold_right omin None l) <-> forall o, In o l -> at_least v o.
Proof.
  induction l as [|a l IH]; simpl; [firstorder|]. rewrite at_least_omin, IH. split.
  - intros [A B] o [<-|H]; auto.
  - intro H. split; auto.
Qed.

Lemma unblock_length : forall c nb w, length (unblock_wall c nb w) = length w.
Proof.
  induction c as [|x c IH]; intros [|y nb] [|[lo hi] w]; simpl; auto.
Qed.
Lemma unblock_nth : forall c nb w i, (i < length c)%nat -> length nb = length c -> length w = length c ->
  nth i (unblock_wall c nb w) (None, None) =
  let lh := nth i w (None, None) in
  if (nth i c 0 <? nth i nb 0)%Z then (fst lh, None)
  else if (nth i nb 0 <? nth i c 0)%Z then (None, snd lh) else lh.
Proof.
  induction c as [|x c IH]; intros [|y nb] [|[lo hi] w] i Hi L1 L2; simpl in *; try lia.
  destruct i as [|i]; simpl; [destruct (x <? y)%Z, (y <? x)%Z; reflexivity|].
  apply IH; lia.
Qed.

(** the walls after opening those to the cubes of l *)
Lemma walls_fold c : forall l w, (forall nb, In nb l -> length nb = length c) -> length w = length c ->
  let w' := fold_left (fun w nb => unblock_wall c nb w) l w in
  length w' = length c /\
  forall i, (i < length c)%nat ->
    (fst (nth i w' (None, None)) = None /\ ((exists nb, In nb l /\ (nth i nb 0 < nth i c 0)%Z) \/ fst (nth i w (None, None)) = None)
     \/ fst (nth i w' (None, None)) = fst (nth i w (None, None)) /\ ~ (exists nb, In nb l /\ (nth i nb 0 < nth i c 0)%Z)) /\
    (snd (nth i w' (None, None)) = None /\ ((exists nb, In nb l /\ (nth i c 0 < nth i nb 0)%Z) \/ snd (nth i w (None, None)) = None)
     \/ snd (nth i w' (None, None)) = snd (nth i w (None, None)) /\ ~ (exists nb, In nb l /\ (nth i c 0 < nth i nb 0)%Z)).
Proof.
  induction l as [|nb l IH]; intros w HL Hw; cbv zeta; cbn [fold_left].
  - split; auto. intros i Hi. split; right; split; auto; intros (x & [] & _).
  - destruct (IH (unblock_wall c nb w)) as [L G]; [intros; apply HL; simpl; auto|now rewrite unblock_length|].
    split; auto. intros i Hi. specialize (G i Hi).
    rewrite unblock_nth in G by (auto; apply HL; simpl; auto). cbv zeta in G.
    set (w' := fold_left (fun w nb => unblock_wall c nb w) l (unblock_wall c nb w)) in *.
    destruct (nth i c 0 <? nth i nb 0)%Z eqn:E1; [|destruct (nth i nb 0 <? nth i c 0)%Z eqn:E2]; cbn [fst snd] in G;
      try apply Z.ltb_lt in E1; try apply Z.ltb_ge in E1; try apply Z.ltb_lt in E2; try apply Z.ltb_ge in E2; destruct G as [GL GH]; split.
    + destruct GL as [[A [(x & Hx & B)|B]]|[A B]].
      * left. split; auto. left. exists x. simpl; auto.
      * left; auto.
      * right. split; auto. intros (x & [<-|Hx] & C); [lia|]. apply B. eauto.
    + left. split; [|left; exists nb; simpl; auto]. destruct GH as [[A _]|[A _]]; auto.
    + left. split; [|left; exists nb; simpl; auto]. destruct GL as [[A _]|[A _]]; auto.
    + destruct GH as [[A [(x & Hx & B)|B]]|[A B]].
      * left. split; auto. left. exists x. simpl; auto.
      * left; auto.
      * right. split; auto. intros (x & [<-|Hx] & C); [lia|]. apply B. eauto.
    + destruct GL as [[A [(x & Hx & B)|B]]|[A B]].
      * left. split; auto. left. exists x. simpl; auto.
      * left; auto.
      * right. split; auto. intros (x & [<-|Hx] & C); [lia|]. apply B. eauto.
    + destruct GH as [[A [(x & Hx & B)|B]]|[A B]].
      * left. split; auto. left. exists x. simpl; auto.
      * left; auto.
      * right. split; auto. intros (x & [<-|Hx] & C); [lia|]. apply B. eauto.
Qed.

Lemma nth_map_lt {A B} (f : A -> B) l i da db : (i < length l)%nat -> nth i (map f l) db = f (nth i l da).
Proof. intro H. rewrite nth_indep with (d' := f da) by (now rewrite map_length). apply map_nth. Qed.

Lemma corridor_opens dim path c i : corridor dim path -> In c path -> (i < dim)%nat ->
  ((exists nb, In nb (neighbors path c) /\ (nth i nb 0 < nth i c 0)%Z) <-> opens path c i (-1)) /\
  ((exists nb, In nb (neighbors path c) /\ (nth i c 0 < nth i nb 0)%Z) <-> opens path c i 1).
Proof.
  intros (N & HL & HS) Hc Hi. unfold opens.
  assert (S : forall nb, In nb (neighbors path c) -> one_step c nb).
  { intros nb H. apply neighbors_In in H as [H|H]; auto. now apply one_step_sym, HS. }
  assert (D : forall nb, In nb (neighbors path c) -> nth i nb 0%Z = nth i c 0%Z \/ Z.abs (nth i nb 0%Z - nth i c 0%Z) = 1%Z).
  { intros nb H. destruct (S nb H) as (_ & k & Hk & A & E).
    destruct (Nat.eq_dec i k) as [->|Ne]; [right; lia|left; symmetry; auto]. }
  split; split; intros (nb & H & E).
  - exists nb. split; [now apply neighbors_In|]. destruct (D nb H); lia.
  - exists nb. split; [now apply neighbors_In|]. lia.
  - exists nb. split; [now apply neighbors_In|]. destruct (D nb H); lia.
  - exists nb. split; [now apply neighbors_In|]. lia.
Qed.

(** The distance computed is at least v iff the point keeps th + v from the closed faces. *)
Lemma distance_in_cube_spec dim path th c x : corridor dim path -> In c path -> length x = dim ->
  exists d, distance_in_cube path th c x = Ok d /\ forall v, at_least v d <-> margin path c (th + v) x.
Proof.
  intros K Hc Lx. pose proof K as (N & HL & HS). assert (Lc := HL c Hc).
  unfold distance_in_cube. rewrite (proj2 (has_cube_iff path c) Hc).
  eexists. split; [reflexivity|]. intro v.
  set (x_c := map _ (combine x c)).
  destruct (walls_fold c (neighbors path c) (closed_walls (length c))) as [Lw G].
  { intros nb H. apply neighbors_In in H as [H|H]; apply consecutive_In in H as [H1 H2]; rewrite !HL; auto. }
  { unfold closed_walls. apply repeat_length. }
  cbv zeta in *.
  set (w := fold_left _ _ _) in *.
  assert (Lxc : length x_c = dim) by (unfold x_c; rewrite map_length, combine_length; lia).
  assert (Nxc : forall i, (i < dim)%nat -> nth i x_c 0 = nth i x 0 - (inject_Z (nth i c 0%Z) + (1#2))).
  { intros i Hi. unfold x_c. rewrite nth_map_lt with (da := (0, 0%Z)) by (rewrite combine_length; lia).
    rewrite combine_nth by lia. reflexivity. }
  assert (Ncl : forall i, (i < dim)%nat -> nth i (closed_walls (length c)) (None, None) = (Some (-(1#2)), Some (1#2))).
  { intros i Hi. unfold closed_walls. rewrite Lc. clear - Hi. revert i Hi.
    induction dim; intros i Hi; [lia|]. destruct i; simpl; auto. apply IHdim. lia. }
  match goal with |- at_least v (option_map _ (omin (fold_right omin None ?lo) (fold_right omin None ?hi))) <-> _ =>
    set (low := lo); set (high := hi) end.
  assert (T : forall o, at_least v (option_map (fun v0 => v0 - th) o) <-> at_least (th + v) o).
  { intros [q|]; simpl; [|tauto]. split; intro; lra. }
  rewrite T, at_least_omin, !at_least_fold.
  assert (El : forall i, (i < dim)%nat -> nth i low None = option_map (fun l => nth i x_c 0 - l) (fst (nth i w (None, None)))).
  { intros i Hi. unfold low. rewrite nth_map_lt with (da := (0, (None, None))) by (rewrite combine_length; lia).
    rewrite combine_nth by lia. reflexivity. }
  assert (Eh : forall i, (i < dim)%nat -> nth i high None = option_map (fun h => h - nth i x_c 0) (snd (nth i w (None, None)))).
  { intros i Hi. unfold high. rewrite nth_map_lt with (da := (0, (None, None))) by (rewrite combine_length; lia).
    rewrite combine_nth by lia. reflexivity. }
  assert (Ll : length low = dim) by (unfold low; rewrite map_length, combine_length; lia).
  assert (Lh : length high = dim) by (unfold high; rewrite map_length, combine_length; lia).
  assert (AN : forall l, length l = dim -> ((forall o, In o l -> at_least (th + v) o) <-> forall i, (i < dim)%nat -> at_least (th + v) (nth i l None))).
  { intros l L. split.
    - intros H i Hi. apply H, nth_In. lia.
    - intros H o Ho. apply (In_nth _ _ None) in Ho as (i & Hi & <-). apply H. lia. }
  rewrite !AN by auto. unfold margin. rewrite Lc.
  assert (P : forall i, (i < dim)%nat ->
    (at_least (th + v) (nth i low None) <-> (nth i x 0 < inject_Z (nth i c 0%Z) + (th + v) -> opens path c i (-1))) /\
    (at_least (th + v) (nth i high None) <-> (inject_Z (nth i c 0%Z) + 1 - (th + v) < nth i x 0 -> opens path c i 1))).
  { intros i Hi. rewrite El, Eh, Nxc by auto. destruct (G i ltac:(lia)) as [GL GH].
    rewrite Ncl in GL, GH by auto. cbn [fst snd] in GL, GH.
    destruct (corridor_opens dim path c i K Hc Hi) as [OL OH]. split.
    - destruct GL as [[-> [B|B]]|[-> B]]; [|discriminate|].
      + simpl. rewrite OL in B. tauto.
      + rewrite OL in B. simpl. split.
        * intros H C. exfalso. lra.
        * intro H. apply Qnot_lt_le. intro C. apply B, H. lra.
    - destruct GH as [[-> [B|B]]|[-> B]]; [|discriminate|].
      + simpl. rewrite OH in B. tauto.
      + rewrite OH in B. simpl. split.
        * intros H C. exfalso. lra.
        * intro H. apply Qnot_lt_le. intro C. apply B, H. lra. }
  split.
  - intros [A B] i Hi. split; apply P; auto.
  - intro H. split; intros i Hi; apply P; auto; apply H; auto.
Qed.

Lemma oneg_iff d : oneg d = false <-> at_least 0 d.
Proof.
  destruct d as [q|]; simpl; [|tauto]. unfold Qltb. rewrite negb_false_iff. apply Qle_bool_iff.
Qed.

Lemma margin_ext path c m m' x : m == m' -> (margin path c m x <-> margin path c m' x).
Proof.
  intro E. unfold margin. split; intros H i Hi; destruct (H i Hi) as [A B];
  (split; intro C; [apply A|apply B]); rewrite E in *; auto.
Qed.

Lemma distance_in_cube_ok dim path th c x : corridor dim path -> In c path -> length x = dim ->
  exists d, distance_in_cube path th c x = Ok d /\ (oneg d = false <-> margin path c th x).
Proof.
  intros K Hc Lx. destruct (distance_in_cube_spec dim path th c x K Hc Lx) as (d & E & H).
  exists d. split; auto. rewrite oneg_iff, H. apply margin_ext. lra.
Qed.

(** ** Cubes of points *)
Lemma floor_cube_of x c : cube_of x c <-> floor_cube x = c.
Proof.
  unfold cube_of, floor_cube. split.
  - intros [L H]. apply (nth_ext _ _ 0%Z 0%Z); rewrite map_length; auto.
    intros i Hi. rewrite nth_map_lt with (da := 0) by auto. destruct (H i Hi) as [A B].
    pose proof (Qfloor_le (nth i x 0)) as C. pose proof (Qlt_floor (nth i x 0)) as D.
    rewrite inject_Z_plus in D. change (inject_Z 1) with 1 in D.
    assert (E1 : inject_Z (nth i c 0%Z) < inject_Z (Qfloor (nth i x 0) + 1)) by (rewrite inject_Z_plus; change (inject_Z 1) with 1; lra).
    assert (E2 : inject_Z (Qfloor (nth i x 0)) < inject_Z (nth i c 0%Z + 1)) by (rewrite inject_Z_plus; change (inject_Z 1) with 1; lra).
    rewrite <- Zlt_Qlt in E1, E2. lia.
  - intros <-. split; [apply map_length|]. intros i Hi. rewrite nth_map_lt with (da := 0) by auto.
    split; [apply Qfloor_le|]. pose proof (Qlt_floor (nth i x 0)) as D. rewrite inject_Z_plus in D. exact D.
Qed.

Lemma floor_is x : cube_of x (floor_cube x).
Proof. now apply floor_cube_of. Qed.

Lemma free_iff path th x : corridor_free path th x <-> In (floor_cube x) path /\ margin path (floor_cube x) th x.
Proof.
  split.
  - intros (c & Hc & C & M). apply floor_cube_of in C. subst. auto.
  - intros [A B]. exists (floor_cube x). split; auto. split; auto. apply floor_is.
Qed.

(** distance_to_wall decides the free space *)
Lemma distance_to_wall_spec dim path th x : corridor dim path -> length x = dim -> In (floor_cube x) path ->
  exists d, distance_to_wall dim path th x = Ok d /\
    (forall v, at_least v d <-> corridor_free path (th + v) x) /\ (oneg d = false <-> corridor_free path th x).
Proof.
  intros K L Hc. unfold distance_to_wall. rewrite L, Nat.eqb_refl.
  destruct (distance_in_cube_spec dim path th (floor_cube x) x K Hc L) as (d & E & H).
  exists d. split; auto.
  assert (G : forall v, at_least v d <-> corridor_free path (th + v) x).
  { intro v. rewrite H, free_iff. tauto. }
  split; auto. rewrite oneg_iff, G, !free_iff. rewrite (margin_ext path (floor_cube x) (th + 0) th) by lra. tauto.
Qed.

Lemma distance_to_wall_err dim path th x : length x = dim -> ~ In (floor_cube x) path ->
  distance_to_wall dim path th x = Err NotInGraph.
Proof.
  intros L H. unfold distance_to_wall, distance_in_cube. rewrite L, Nat.eqb_refl.
  destruct (has_cube path (floor_cube x)) eqn:E; auto. apply has_cube_iff in E. tauto.
Qed.
