(** Properties of the polygon sampler (nonasymptotic/sampler.py). *)
From Coq Require Import Arith QArith Qabs List Bool Lia Lqa Qfield Permutation.
From Verif Require Import Sampler_Model.
Import ListNotations.

(** ** Interior rings *)
Lemma count_flat_map {A} (dec : forall x y : A, {x = y} + {x <> y}) {B} (f : B -> list A) l x :
  count_occ dec (flat_map f l) x = list_sum (map (fun b => count_occ dec (f b) x) l).
Proof. induction l as [|b l IH]; simpl; auto. rewrite count_occ_app, IH. reflexivity. Qed.

Definition opt_list {A} (o : option A) : list A := match o with Some x => [x] | None => [] end.

Lemma flat_map_nth_error {A} (h : list A) m : (length h <= m)%nat ->
  flat_map (fun i => opt_list (nth_error h i)) (seq 0 m) = h.
Proof.
  revert m. induction h as [|a h IH]; intros m H.
  - clear H. generalize 0%nat. induction m as [|m IHm]; intro k; simpl; auto. destruct k; simpl; apply IHm.
  - destruct m as [|m]; simpl in *; [lia|]. f_equal.
    rewrite <- seq_shift, flat_map_concat_map, map_map, <- flat_map_concat_map. apply IH. lia.
Qed.

Lemma flat_map_swap {A B C} (f : A -> B -> list C) (l : list A) (m : list B) :
  Permutation (flat_map (fun a => flat_map (f a) m) l) (flat_map (fun b => flat_map (fun a => f a b) l) m).
Proof.
  induction l as [|a l IH]; simpl.
  - induction m; simpl; auto.
  - rewrite IH. clear IH. induction m as [|b m IH]; simpl; auto.
    rewrite <- !app_assoc. apply Permutation_app_head. rewrite <- IH.
    rewrite !app_assoc. apply Permutation_app_tail, Permutation_app_comm.
Qed.

(** The interior rings are exactly the holes of the polygons, each once. *)
Theorem interior_rings_complete {V} (polys : list (poly V)) :
  Permutation (interior_rings polys) (flat_map holes polys).
Proof.
  unfold interior_rings. set (m := list_max _).
  assert (B : forall p, In p polys -> (length (holes p) <= m)%nat).
  { intros p Hp. unfold m. pose proof (proj1 (list_max_le (map (fun p => length (holes p)) polys) _) (le_n _)) as F.
    rewrite Forall_map, Forall_forall in F. auto. }
  clearbody m.
  assert (E : flat_map (fun r : option (list V) => match r with Some ring => [ring] | None => [] end)
                (flat_map (fun i => map (fun p => nth_error (holes p) i) polys) (seq 0 m)) =
              flat_map (fun i => flat_map (fun p => opt_list (nth_error (holes p) i)) polys) (seq 0 m)).
  { generalize 0%nat. clear B. induction m as [|m IH]; intro k; simpl; auto. rewrite flat_map_app, IH. f_equal.
    clear IH. induction polys as [|p l IHl]; simpl; auto. rewrite IHl. destruct (nth_error (holes p) k); reflexivity. }
  rewrite E, flat_map_swap. clear E.
  induction polys as [|p l IH]; simpl; auto.
  rewrite flat_map_nth_error by (apply B; simpl; auto). apply Permutation_app_head, IH. intros q Hq. apply B. simpl; auto.
Qed.

(** The rings that are triangulated are every polygon's exterior and holes, each once. *)
Theorem mpoly_rings_complete {V} (polys : list (poly V)) :
  Permutation (mpoly_rings polys) (flat_map (fun p => exterior p :: holes p) polys).
Proof.
  unfold mpoly_rings. rewrite interior_rings_complete. induction polys as [|p l IH]; simpl; auto.
  constructor. rewrite <- IH, !app_assoc. apply Permutation_app_tail, Permutation_app_comm.
Qed.
Print Assumptions mpoly_rings_complete.

Example mpoly_rings_case :
  mpoly_rings [{| exterior := [0;1;2;0]; holes := [[3;4;5;3]; [6;7;8;6]] |};
               {| exterior := [9;10;11;9]; holes := [[12;13;14;12]] |}]%nat
  = [[0;1;2;0]; [9;10;11;9]; [3;4;5;3]; [12;13;14;12]; [6;7;8;6]]%nat.
Proof. reflexivity. Qed.

Example interior_rings_case :
  interior_rings [{| exterior := [0;1;2;0]; holes := [[3;4;5;3]; [6;7;8;6]] |};
                  {| exterior := [9;10;11;9]; holes := [[12;13;14;12]] |}]%nat
  = [[3;4;5;3]; [12;13;14;12]; [6;7;8;6]]%nat.
Proof. reflexivity. Qed.

(** ** Deleting the closing vertices *)
Lemma delete_app {A} (a b : list A) k idxs : delete_from k (a ++ b) idxs = delete_from k a idxs ++ delete_from (k + length a) b idxs.
Proof.
  revert k. induction a as [|x a IH]; intro k; simpl; [now rewrite Nat.add_0_r|].
  rewrite IH. replace (S k + length a)%nat with (k + S (length a))%nat by lia. destruct (existsb _ _); reflexivity.
Qed.

Lemma existsb_eqb k idxs : existsb (Nat.eqb k) idxs = true <-> In k idxs.
Proof.
  rewrite existsb_exists. split.
  - intros (x & H & E). apply Nat.eqb_eq in E. now subst.
  - intro H. exists k. split; auto. apply Nat.eqb_refl.
Qed.

Lemma delete_none {A} (a : list A) k idxs : (forall i, In i idxs -> (i < k \/ k + length a <= i)%nat) -> delete_from k a idxs = a.
Proof.
  revert k. induction a as [|x a IH]; intros k H; simpl; auto.
  destruct (existsb (Nat.eqb k) idxs) eqn:E.
  - apply existsb_eqb in E. apply H in E. simpl in E. lia.
  - f_equal. apply IH. intros i Hi. apply H in Hi. simpl in Hi. lia.
Qed.

(** the index of the last entry of every block, when the blocks start at k *)
Fixpoint block_ends (k : nat) (sizes : list nat) : list nat :=
  match sizes with [] => [] | p :: s => (k + p - 1)%nat :: block_ends (k + p) s end.

Lemma block_ends_ge k sizes i : Forall (fun p => (1 <= p)%nat) sizes -> In i (block_ends k sizes) -> (k <= i)%nat.
Proof.
  revert k. induction sizes as [|p s IH]; intros k F H; simpl in H; [tauto|]. inversion F; subst.
  destruct H as [<-|H]; [lia|]. apply IH in H; auto. lia.
Qed.

Lemma cumsum_block_ends sizes k : Forall (fun p => (1 <= p)%nat) sizes -> (1 <= k)%nat -> cumsum_from (k - 1) sizes = block_ends k sizes.
Proof.
  revert k. induction sizes as [|p s IH]; intros k F Hk; simpl; auto. inversion F; subst.
  f_equal; [lia|]. replace (k - 1 + p)%nat with (k + p - 1)%nat by lia. apply IH; auto. lia.
Qed.
Lemma cumsum_dec_first sizes : Forall (fun p => (1 <= p)%nat) sizes -> cumsum (dec_first sizes) = block_ends 0 sizes.
Proof.
  intro F. destruct sizes as [|p s]; simpl; auto. inversion F; subst. unfold cumsum. simpl.
  f_equal. apply cumsum_block_ends; auto.
Qed.

Lemma delete_blocks {A} (rings : list (list A)) : forall k old,
  Forall (fun r => r <> []) rings -> (forall i, In i old -> (i < k)%nat) ->
  delete_from k (concat rings) (old ++ block_ends k (map (@length A) rings)) = concat (map (@removelast A) rings).
Proof.
  induction rings as [|r rings IH]; intros k old F O; simpl; auto. inversion F as [|? ? Hr F']; subst.
  destruct (exists_last Hr) as (a & x & ->). rewrite delete_app, app_length. simpl length.
  rewrite removelast_last. f_equal.
  - rewrite delete_app. rewrite delete_none.
    + simpl. replace (existsb (Nat.eqb (k + length a)) _) with true; [apply app_nil_r|].
      symmetry. apply existsb_eqb, in_or_app. right. simpl. left. lia.
    + intros i Hi. apply in_app_or in Hi as [Hi|[<-|Hi]]; [apply O in Hi; lia|lia|].
      apply block_ends_ge in Hi; [lia|]. rewrite Forall_map. eapply Forall_impl; [|exact F'].
      intros q Hq. destruct q; simpl; [congruence|lia].
  - replace (old ++ (k + (length a + 1) - 1)%nat :: block_ends (k + (length a + 1)) (map (@length A) rings))
      with ((old ++ [(k + (length a + 1) - 1)%nat]) ++ block_ends (k + (length a + 1)) (map (@length A) rings)) by (now rewrite <- app_assoc).
    apply IH; auto. intros i Hi. apply in_app_or in Hi as [Hi|[<-|[]]]; [apply O in Hi|]; lia.
Qed.

Lemma ring_vertices_eq {V} (rings : list (list V)) : Forall (fun r => r <> []) rings ->
  ring_vertices rings = concat (map (@removelast V) rings).
Proof.
  intro F. unfold ring_vertices, np_delete.
  rewrite cumsum_dec_first.
  - apply (delete_blocks rings 0 []); auto. intros i [].
  - rewrite Forall_map. eapply Forall_impl; [|exact F]. intros r Hr. destruct r; simpl; [congruence|lia].
Qed.

(** ** The segments *)
(** one closed cycle of n vertices starting at index k *)
Definition cycle (k n : nat) : list nat := (k + n - 1)%nat :: seq k (n - 1).
Fixpoint cycles (k : nat) (sizes : list nat) : list nat :=
  match sizes with [] => [] | n :: s => cycle k n ++ cycles (k + n) s end.
(** positions of the block starts after each earlier block has lost an entry *)
Fixpoint block_starts (k : nat) (sizes : list nat) : list nat :=
  match sizes with [] => [] | n :: s => k :: block_starts (k + n - 1) s end.

Lemma inserted_app {A} k (l l' : list nat) (v v' : list A) : length l = length v ->
  inserted_at k (l ++ l') (v ++ v') = inserted_at k l v ++ inserted_at k l' v'.
Proof.
  intro H. unfold inserted_at. rewrite <- flat_map_app. f_equal.
  revert v H. induction l as [|x l IH]; intros [|y v] H; simpl in *; try lia; auto. f_equal. apply IH. lia.
Qed.
Lemma inserted_none {A} k (l : list nat) (v : list A) : (forall i, In i l -> i <> k) -> inserted_at k l v = [].
Proof.
  revert v. induction l as [|x l IH]; intros [|y v] H; unfold inserted_at in *; simpl; auto.
  destruct (Nat.eqb_spec x k) as [->|E]; [exfalso; apply (H k); simpl; auto|]. apply IH. intros i Hi. apply H. simpl; auto.
Qed.

Lemma block_starts_ge k sizes i : Forall (fun n => (1 <= n)%nat) sizes -> In i (block_starts k sizes) -> (k <= i)%nat.
Proof.
  revert k. induction sizes as [|n s IH]; intros k F H; simpl in H; [tauto|]. inversion F; subst.
  destruct H as [<-|H]; [lia|]. apply IH in H; auto. lia.
Qed.

(** Inserting while reading past a stretch with no insertion point in its interior. *)
Lemma insert_skip {A} (a b : list A) k idxs vals : (forall i, In i idxs -> (i <= k \/ k + length a <= i)%nat) -> a <> [] ->
  insert_from k (a ++ b) idxs vals = inserted_at k idxs vals ++ a ++ insert_from (k + length a) b idxs vals.
Proof.
  revert k. induction a as [|x a IH]; intros k H Ne; [congruence|]. simpl. f_equal. f_equal.
  destruct a as [|y a]; [simpl; now rewrite Nat.add_1_r|].
  rewrite IH; [|intros i Hi; apply H in Hi; simpl in *; lia|discriminate].
  rewrite inserted_none by (intros i Hi; apply H in Hi; simpl in *; lia). simpl app.
  simpl. do 3 f_equal. lia.
Qed.

Fixpoint rest_blocks (k : nat) (sizes : list nat) : list nat :=
  match sizes with [] => [] | n :: s => seq k (n - 1) ++ rest_blocks (k + n) s end.

(** the insertion restricted to what lies at or behind position j *)
Lemma insert_at_ext {A} (l : list A) k idxs vals idxs' vals' :
  (forall j, (k <= j)%nat -> inserted_at j idxs vals = inserted_at j idxs' vals') ->
  insert_from k l idxs vals = insert_from k l idxs' vals'.
Proof.
  revert k. induction l as [|x l IH]; intros k H; simpl; rewrite H by lia; auto.
  f_equal. f_equal. apply IH. intros j Hj. apply H. lia.
Qed.

Lemma insert_front {A} (l : list A) k i idxs (v : A) vals : i = k ->
  insert_from k l (i :: idxs) (v :: vals) = v :: insert_from k l idxs vals.
Proof.
  intros ->. assert (H : inserted_at k (k :: idxs) (v :: vals) = v :: inserted_at k idxs vals).
  { unfold inserted_at. simpl. now rewrite Nat.eqb_refl. }
  destruct l as [|x l]; simpl; rewrite H; simpl; auto. f_equal. f_equal. f_equal.
  apply insert_at_ext. intros j Hj. unfold inserted_at. simpl. destruct (Nat.eqb_spec k j); [lia|reflexivity].
Qed.

Lemma insert_blocks : forall sizes k p, Forall (fun n => (1 <= n)%nat) sizes ->
  insert_from p (rest_blocks k sizes) (block_starts p sizes) (block_ends k sizes) = cycles k sizes.
Proof.
  induction sizes as [|n s IH]; intros k p F; [reflexivity|]. inversion F as [|? ? Hn F']; subst.
  cbn [rest_blocks block_starts block_ends cycles]. rewrite insert_front by reflexivity. unfold cycle. simpl app. f_equal.
  destruct (Nat.eq_dec n 1) as [->|Ne].
  - simpl seq. simpl app. replace (p + 1 - 1)%nat with p by lia. apply IH; auto.
  - rewrite insert_skip.
    + rewrite seq_length. rewrite inserted_none; [|intros i Hi; apply block_starts_ge in Hi; auto; lia].
      simpl app. f_equal. replace (p + (n - 1))%nat with (p + n - 1)%nat by lia. apply IH; auto.
    + intros i Hi. apply block_starts_ge in Hi; auto. rewrite seq_length. lia.
    + destruct (n - 1)%nat eqn:E; [lia|]. discriminate.
Qed.

Lemma delete_seq : forall sizes k old, Forall (fun n => (1 <= n)%nat) sizes -> (forall i, In i old -> (i < k)%nat) ->
  delete_from k (seq k (list_sum sizes)) (old ++ block_ends k sizes) = rest_blocks k sizes.
Proof.
  induction sizes as [|n s IH]; intros k old F O; [reflexivity|]. inversion F as [|? ? Hn F']; subst.
  cbn [list_sum fold_right block_ends rest_blocks]. fold (list_sum s). rewrite seq_app, delete_app, seq_length.
  f_equal.
  - replace n with ((n - 1) + 1)%nat at 1 by lia. rewrite seq_app, delete_app, delete_none, seq_length.
    + simpl. replace (existsb _ _) with true; [apply app_nil_r|].
      symmetry. apply existsb_eqb, in_or_app. right. simpl. left. lia.
    + rewrite seq_length. intros i Hi. apply in_app_or in Hi as [Hi|[<-|Hi]]; [apply O in Hi; lia|lia|].
      apply block_ends_ge in Hi; auto. lia.
  - replace (old ++ (k + n - 1)%nat :: block_ends (k + n) s) with ((old ++ [(k + n - 1)%nat]) ++ block_ends (k + n) s) by (now rewrite <- app_assoc).
    apply IH; auto. intros i Hi. apply in_app_or in Hi as [Hi|[<-|[]]]; [apply O in Hi|]; lia.
Qed.

Lemma cycles_length sizes k : Forall (fun n => (1 <= n)%nat) sizes -> length (cycles k sizes) = list_sum sizes.
Proof.
  revert k. induction sizes as [|n s IH]; intros k F; auto. inversion F; subst. cbn [cycles].
  rewrite app_length, IH by auto. unfold cycle. simpl length. rewrite seq_length. simpl list_sum. lia.
Qed.

Lemma starts_eq : forall sizes acc k p, Forall (fun n => (1 <= n)%nat) sizes -> (k <= acc)%nat -> p = (acc - k)%nat ->
  map (fun q => (fst q - snd q)%nat) (combine (acc :: cumsum_from acc (removelast sizes)) (seq k (length sizes))) = block_starts p sizes.
Proof.
  induction sizes as [|n s IH]; intros acc k p F Hk ->; [reflexivity|]. inversion F as [|? ? Hn F']; subst.
  destruct s as [|n' s]; [reflexivity|].
  cbn [length]. simpl seq. cbn [combine map fst snd block_starts].
  f_equal. change (removelast (n :: n' :: s)) with (n :: removelast (n' :: s)). cbn [cumsum_from].
  apply (IH (acc + n)%nat (S k) (acc - k + n - 1)%nat); auto; lia.
Qed.

Lemma ring_segments_eq {V} (rings : list (list V)) : Forall (fun r => (2 <= length r)%nat) rings ->
  let sizes := map (fun r => (length r - 1)%nat) rings in
  ring_segments rings = combine (seq 0 (list_sum sizes)) (cycles 0 sizes).
Proof.
  intros F sizes.
  assert (Fs : Forall (fun n => (1 <= n)%nat) sizes).
  { unfold sizes. rewrite Forall_map. eapply Forall_impl; [|exact F]. simpl. intros; lia. }
  assert (Fn : Forall (fun r : list V => r <> []) rings).
  { eapply Forall_impl; [|exact F]. intros r H E. subst. simpl in H. lia. }
  unfold ring_segments. rewrite map_map. fold sizes.
  assert (NV : length (ring_vertices rings) = list_sum sizes).
  { rewrite ring_vertices_eq by auto. unfold sizes. clear - Fn. induction Fn as [|r l Hr _ IH]; auto.
    simpl. rewrite app_length, IH. f_equal. destruct (exists_last Hr) as (a & x & ->). rewrite removelast_last, app_length. simpl. lia. }
  rewrite NV, map_length. f_equal.
  rewrite cumsum_dec_first by auto. unfold np_delete.
  assert (DS : delete_from 0 (seq 0 (list_sum sizes)) (block_ends 0 sizes) = rest_blocks 0 sizes) by (apply (delete_seq sizes 0 []); auto; intros i []).
  rewrite DS.
  assert (P : map (fun p : nat * nat => (fst p - snd p)%nat)
     (combine (cumsum (0%nat :: map (fun p => (p - 1)%nat) (removelast (map (@length V) rings)))) (seq 0 (length rings))) = block_starts 0 sizes).
  { rewrite <- (starts_eq sizes 0 0 0) by (auto; lia). unfold cumsum. simpl cumsum_from. unfold sizes at 2. rewrite map_length.
    f_equal. f_equal. f_equal. f_equal. unfold sizes. clear. induction rings as [|r l IH]; auto.
    destruct l as [|r' l]; auto. change (removelast (map (@length V) (r :: r' :: l))) with (length r :: removelast (map (@length V) (r' :: l))).
    change (removelast (map (fun r0 : list V => (length r0 - 1)%nat) (r :: r' :: l))) with ((length r - 1)%nat :: removelast (map (fun r0 : list V => (length r0 - 1)%nat) (r' :: l))).
    simpl map at 1. f_equal. exact IH. }
  rewrite P. unfold np_insert. now apply insert_blocks.
Qed.

Lemma cycles_nth : forall pre k n post j, (1 <= n)%nat -> Forall (fun m => (1 <= m)%nat) pre -> (j < n)%nat ->
  nth (list_sum pre + j) (cycles k (pre ++ n :: post)) 0%nat = (k + list_sum pre + (j + n - 1) mod n)%nat.
Proof.
  induction pre as [|m pre IH]; intros k n post j Hn F Hj.
  - simpl app. cbn [cycles]. rewrite app_nth1 by (unfold cycle; simpl; rewrite seq_length; simpl; lia).
    simpl list_sum. unfold cycle. destruct j as [|j]; simpl nth.
    + rewrite Nat.mod_small by lia. lia.
    + rewrite seq_nth by lia. replace (S j + n - 1)%nat with (j + 1 * n)%nat by lia. rewrite Nat.mod_add, Nat.mod_small by lia. lia.
  - inversion F as [|? ? Hm F']; subst. simpl app. cbn [cycles].
    assert (L : length (cycle k m) = m) by (unfold cycle; simpl; rewrite seq_length; lia).
    change (list_sum (m :: pre)) with (m + list_sum pre)%nat.
    rewrite app_nth2 by lia. rewrite L. replace (m + list_sum pre + j - m)%nat with (list_sum pre + j)%nat by lia.
    rewrite IH by auto. lia.
Qed.

(** Every ring loses exactly its repeated closing vertex, and segment number off + j joins
    the ring's vertex j to its cyclic predecessor in the same ring. *)
Theorem rings_become_cycles {V} (rings : list (list V)) : Forall (fun r => (2 <= length r)%nat) rings ->
  ring_vertices rings = concat (map (@removelast V) rings) /\
  length (ring_segments rings) = length (ring_vertices rings) /\
  forall pre ring post, rings = pre ++ ring :: post ->
    let off := length (concat (map (@removelast V) pre)) in
    let n := (length ring - 1)%nat in
    forall j d, (j < n)%nat ->
      nth (off + j) (ring_segments rings) (0, 0)%nat = (off + j, off + (j + n - 1) mod n)%nat /\
      nth (off + j) (ring_vertices rings) d = nth j ring d.
Proof.
  intro F.
  assert (Fn : Forall (fun r : list V => r <> []) rings).
  { eapply Forall_impl; [|exact F]. intros r H E. subst. simpl in H. lia. }
  assert (Sum : forall l : list (list V), Forall (fun r => (2 <= length r)%nat) l ->
     length (concat (map (@removelast V) l)) = list_sum (map (fun r => (length r - 1)%nat) l)).
  { intros l Hl. induction Hl as [|r l Hr _ IH]; auto. simpl. rewrite app_length, IH. f_equal.
    assert (r <> []) by (intro; subst; simpl in Hr; lia).
    destruct (exists_last H) as (a & x & ->). rewrite removelast_last, app_length. simpl. lia. }
  assert (Fs : forall l : list (list V), Forall (fun r => (2 <= length r)%nat) l -> Forall (fun n => (1 <= n)%nat) (map (fun r => (length r - 1)%nat) l)).
  { intros l Hl. rewrite Forall_map. eapply Forall_impl; [|exact Hl]. simpl. intros; lia. }
  split; [now apply ring_vertices_eq|].
  assert (LS : length (ring_segments rings) = length (ring_vertices rings)).
  { rewrite ring_segments_eq, ring_vertices_eq by auto. rewrite combine_length, seq_length, cycles_length, Sum by auto. lia. }
  split; auto. intros pre ring post E off n j d Hj.
  assert (Fp : Forall (fun r => (2 <= length r)%nat) pre /\ (2 <= length ring)%nat).
  { rewrite E in F. apply Forall_app in F as [F1 F2]. inversion F2; auto. }
  destruct Fp as [Fp Fr].
  assert (Off : off = list_sum (map (fun r => (length r - 1)%nat) pre)) by (now apply Sum).
  split.
  - rewrite ring_segments_eq by auto. cbv zeta. rewrite combine_nth by (rewrite seq_length, cycles_length; auto).
    set (sizes := map _ rings).
    assert (Es : sizes = map (fun r => (length r - 1)%nat) pre ++ n :: map (fun r => (length r - 1)%nat) post).
    { unfold sizes. rewrite E, map_app. reflexivity. }
    assert (Ls : (off + j < list_sum sizes)%nat).
    { rewrite Es, list_sum_app, <- Off. change (list_sum (n :: ?l)) with (n + list_sum l)%nat. simpl. lia. }
    rewrite seq_nth by auto. f_equal. rewrite Es, Off, cycles_nth; auto. lia.
  - rewrite ring_vertices_eq by auto. rewrite E, map_app, concat_app. simpl.
    rewrite app_nth2 by (fold off; lia). fold off. replace (off + j - off)%nat with j by lia.
    assert (Hr : ring <> []) by (intro; subst; simpl in Fr; lia).
    destruct (exists_last Hr) as (a & x & Er). unfold n in Hj. rewrite Er in Hj |- *. rewrite removelast_last.
    rewrite app_length in Hj. simpl in Hj. rewrite !app_nth1 by lia. reflexivity.
Qed.

Example rings_become_cycles_case :
  ring_vertices [[10;11;12;10]; [20;21;22;23;20]]%nat = [10;11;12; 20;21;22;23]%nat /\
  ring_segments [[10;11;12;10]; [20;21;22;23;20]]%nat = [(0,2); (1,0); (2,1); (3,6); (4,3); (5,4); (6,5)]%nat.
Proof. split; reflexivity. Qed.

(** ** Sampling *)
Open Scope Q_scope.

(** the point is a convex combination of the corners *)
Definition in_triangle (t : triangle) (p : pt) : Prop :=
  exists a b c, 0 <= a /\ 0 <= b /\ 0 <= c /\ a + b + c == 1 /\
    fst p == a * fst (fst (fst t)) + b * fst (snd (fst t)) + c * fst (snd t) /\
    snd p == a * snd (fst (fst t)) + b * snd (snd (fst t)) + c * snd (snd t).

Definition same_pt (p q : pt) : Prop := fst p == fst q /\ snd p == snd q.

(** twice the signed area *)
Definition orient (t : triangle) : Q :=
  let '((x0, y0), (x1, y1), (x2, y2)) := t in (x1 - x0) * (y2 - y0) - (x2 - x0) * (y1 - y0).

Lemma fold_draw_cases x y : (x + y <= 1 /\ fold_draw x y = (x, y)) \/ (1 < x + y /\ fold_draw x y = (1 - x, 1 - y)).
Proof.
  unfold fold_draw. destruct (Qle_bool (x + y) 1) eqn:E.
  - left. apply Qle_bool_iff in E. auto.
  - right. split; auto. apply Qnot_le_lt. intro H. apply Qle_bool_iff in H. congruence.
Qed.

Theorem triangle_sample_inside t x y : 0 <= x < 1 -> 0 <= y < 1 -> in_triangle t (sample_in_triangle t x y).
Proof.
  intros Hx Hy. destruct t as [[[x0 y0] [x1 y1]] [x2 y2]]. unfold sample_in_triangle, in_triangle, affine. cbn [fst snd].
  destruct (fold_draw_cases x y) as [[H ->]|[H ->]]; cbn [fst snd].
  - exists (1 - x - y), x, y. repeat split; try lra; ring.
  - exists (x + y - 1), (1 - x), (1 - y). repeat split; try lra; ring.
Qed.

Example triangle_sample_case :
  same_pt (sample_in_triangle ((0, 0), (4, 0), (0, 2)) (3#4) (1#2)) (1, 1).
Proof. split; reflexivity. Qed.

(** Every point of the triangle but two corners is drawn, by exactly the two draws that are
    reflections of each other (one on the diagonal); the reflection keeps areas, so a
    uniform draw gives a uniform point. *)
Theorem triangle_sample_uniform t b c : ~ orient t == 0 -> 0 <= b -> 0 <= c -> b + c <= 1 -> b < 1 -> c < 1 ->
  let p := (fst (fst (fst t)) + b * (fst (snd (fst t)) - fst (fst (fst t))) + c * (fst (snd t) - fst (fst (fst t))),
            snd (fst (fst t)) + b * (snd (snd (fst t)) - snd (fst (fst t))) + c * (snd (snd t) - snd (fst (fst t)))) in
  forall x y, 0 <= x < 1 -> 0 <= y < 1 ->
    (same_pt (sample_in_triangle t x y) p <->
     (x == b /\ y == c) \/ (b + c < 1 /\ x == 1 - b /\ y == 1 - c)).
Proof.
  destruct t as [[[x0 y0] [x1 y1]] [x2 y2]]. intros D Hb Hc Hbc Hb1 Hc1 p x y Hx Hy. unfold p. clear p.
  unfold orient in D. cbn [fst snd].
  assert (Key : forall u v, same_pt (affine (x1 - x0) (x2 - x0) (y1 - y0) (y2 - y0) x0 y0 (u, v))
      (x0 + b * (x1 - x0) + c * (x2 - x0), y0 + b * (y1 - y0) + c * (y2 - y0)) <-> u == b /\ v == c).
  { intros u v. unfold same_pt, affine. cbn [fst snd]. split.
    - intros [A B].
      assert (E1 : (x1 - x0) * (u - b) + (x2 - x0) * (v - c) == 0) by lra.
      assert (E2 : (y1 - y0) * (u - b) + (y2 - y0) * (v - c) == 0) by lra.
      assert (F1 : ((x1 - x0) * (y2 - y0) - (x2 - x0) * (y1 - y0)) * (u - b) == 0).
      { setoid_replace (((x1 - x0) * (y2 - y0) - (x2 - x0) * (y1 - y0)) * (u - b)) with
          ((y2 - y0) * ((x1 - x0) * (u - b) + (x2 - x0) * (v - c)) - (x2 - x0) * ((y1 - y0) * (u - b) + (y2 - y0) * (v - c))) by ring.
        rewrite E1, E2. ring. }
      assert (F2 : ((x1 - x0) * (y2 - y0) - (x2 - x0) * (y1 - y0)) * (v - c) == 0).
      { setoid_replace (((x1 - x0) * (y2 - y0) - (x2 - x0) * (y1 - y0)) * (v - c)) with
          ((x1 - x0) * ((y1 - y0) * (u - b) + (y2 - y0) * (v - c)) - (y1 - y0) * ((x1 - x0) * (u - b) + (x2 - x0) * (v - c))) by ring.
        rewrite E1, E2. ring. }
      apply Qmult_integral in F1 as [F1|F1]; [contradiction|]. apply Qmult_integral in F2 as [F2|F2]; [contradiction|]. lra.
    - intros [-> ->]. split; ring. }
  unfold sample_in_triangle.
  destruct (fold_draw_cases x y) as [[H ->]|[H ->]]; rewrite Key.
  - split; [auto|]. intros [E|(L & E1 & E2)]; [auto|]. exfalso. lra.
  - split; [|intros [[E1 E2]|(L & E1 & E2)]; [exfalso; lra|split; lra]].
    intros [E1 E2]. right. split; [|split]; lra.
Qed.

Example triangle_sample_uniform_case :
  ~ orient ((0, 0), (4, 0), (0, 2)) == 0 /\
  same_pt (sample_in_triangle ((0, 0), (4, 0), (0, 2)) (1#4) (1#2)) (1, 1) /\
  same_pt (sample_in_triangle ((0, 0), (4, 0), (0, 2)) (3#4) (1#2)) (1, 1).
Proof. repeat split. discriminate. Qed.

Lemma area_nonneg t : 0 <= area t.
Proof. destruct t as [[[x0 y0] [x1 y1]] [x2 y2]]. unfold area. pose proof (Qabs_nonneg (x0 * (y1 - y2) + x1 * (y2 - y0) + x2 * (y0 - y1))). lra. Qed.

Lemma qsum_map_div l d : ~ d == 0 -> qsum (map (fun a => a / d) l) == qsum l / d.
Proof. intro H. unfold qsum. induction l as [|x l IH]; simpl; [field; auto|]. rewrite IH. field; auto. Qed.

Lemma qsum_nonneg ts : 0 <= qsum (map area ts).
Proof. induction ts as [|t ts IH]; simpl; [lra|]. pose proof (area_nonneg t). unfold qsum in *. simpl. lra. Qed.

(** Triangle weights form a distribution proportional to the areas, exactly when some
    triangle has positive area; otherwise drawing a triangle fails. *)
Theorem triangle_weights ts :
  (forall pmf, area_pmf ts = Some pmf ->
     length pmf = length ts /\ Forall (fun p => 0 <= p) pmf /\ qsum pmf == 1 /\
     forall i d, (i < length ts)%nat ->
       nth i pmf 0 * qsum (map (fun t => (1#2) * Qabs (orient t)) ts) == (1#2) * Qabs (orient (nth i ts d))) /\
  (area_pmf ts = None <-> forall t, In t ts -> orient t == 0).
Proof.
  assert (AO : forall t, area t == (1#2) * Qabs (orient t)).
  { intros [[[x0 y0] [x1 y1]] [x2 y2]]. unfold area, orient.
    setoid_replace (x0 * (y1 - y2) + x1 * (y2 - y0) + x2 * (y0 - y1)) with ((x1 - x0) * (y2 - y0) - (x2 - x0) * (y1 - y0)) by ring.
    reflexivity. }
  assert (SO : qsum (map area ts) == qsum (map (fun t => (1#2) * Qabs (orient t)) ts)).
  { unfold qsum. induction ts as [|t ts IH]; simpl; [reflexivity|]. rewrite IH, AO. reflexivity. }
  pose proof (qsum_nonneg ts) as NN.
  unfold area_pmf. destruct (Qeq_bool (qsum (map area ts)) 0) eqn:E.
  - apply Qeq_bool_iff in E. split; [discriminate|]. split; auto. intros _.
    clear SO NN. induction ts as [|t ts IH]; intros t' Ht; [destruct Ht|].
    simpl in E. unfold qsum in E. simpl in E. fold (qsum (map area ts)) in E. pose proof (area_nonneg t) as A. pose proof (qsum_nonneg ts) as B.
    destruct Ht as [<-|Ht]; [|apply IH; auto; lra].
    rewrite AO in A, E. assert (Z : Qabs (orient t) == 0) by lra. 
    pose proof (Qle_Qabs (orient t)). pose proof (Qle_Qabs (- orient t)) as Q'. rewrite Qabs_opp in Q'. lra.
  - assert (Ne : ~ qsum (map area ts) == 0) by (intro H; apply Qeq_bool_iff in H; congruence).
    split.
    + intros pmf H. injection H as <-. rewrite !map_length. split; auto. split; [|split].
      * rewrite !Forall_map. apply Forall_forall. intros t _. apply Qle_shift_div_l; [lra|]. pose proof (area_nonneg t). lra.
      * rewrite qsum_map_div by auto. field. auto.
      * intros i d Hi. rewrite <- SO, <- AO.
        assert (N : nth i (map (fun a => a / qsum (map area ts)) (map area ts)) 0 = area (nth i ts d) / qsum (map area ts)).
        { rewrite map_map. rewrite nth_indep with (d' := area d / qsum (map area ts)) by (rewrite map_length; auto).
          apply (map_nth (fun t => area t / qsum (map area ts))). }
        rewrite N. field. auto.
    + split; [discriminate|]. intro H. exfalso. apply Ne. rewrite SO. clear - H.
      unfold qsum. induction ts as [|t ts IH]; simpl; [reflexivity|]. rewrite IH by (intros; apply H; simpl; auto).
      rewrite (H t) by (simpl; auto). reflexivity.
Qed.

Example triangle_weights_case :
  exists pmf, area_pmf [((0, 0), (4, 0), (0, 2)); ((0, 0), (0, 1), (2, 0))] = Some pmf /\ Forall2 Qeq pmf [4#5; 1#5].
Proof. eexists. split; [reflexivity|]. repeat constructor. Qed.

Print Assumptions interior_rings_complete.
Print Assumptions rings_become_cycles.
Print Assumptions triangle_sample_inside.
Print Assumptions triangle_sample_uniform.
Print Assumptions triangle_weights.
