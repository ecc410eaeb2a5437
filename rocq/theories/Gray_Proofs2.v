(** Sampling, reference curve and motion check of the Gray-code corridor. *)
From Coq Require Import Arith ZArith QArith Qround List Bool Lia Lqa Qfield.
From Verif Require Import Gray_Model Gray_Spec Gray_Proofs.
Import ListNotations.
Open Scope Q_scope.

(** ** Lists *)
Lemma set_nth_length {A} i (v : A) l : (i < length l)%nat -> length (set_nth i v l) = length l.
Proof. intro H. unfold set_nth. rewrite app_length, firstn_length. cbn [length]. rewrite skipn_length. lia. Qed.
Lemma set_nth_nth {A} (v d : A) : forall l i j, (i < length l)%nat ->
  nth j (set_nth i v l) d = if (j =? i)%nat then v else nth j l d.
Proof.
  unfold set_nth. induction l as [|x l IH]; intros i j H; simpl in H; [lia|].
  destruct i as [|i]; destruct j as [|j]; simpl; auto. apply IH. lia.
Qed.
Lemma nth_repeat_lt {A} (a d : A) n i : (i < n)%nat -> nth i (repeat a n) d = a.
Proof. revert i. induction n; intros i H; [lia|]. destruct i; simpl; auto. apply IHn. lia. Qed.

Lemma swap0_length k l : (k < length l)%nat -> length (swap0 k l) = length l.
Proof. intro H. unfold swap0. rewrite set_nth_length; rewrite set_nth_length; auto; lia. Qed.
Lemma swap0_nth k l j : (k < length l)%nat ->
  nth j (swap0 k l) 0 = if (j =? k)%nat then nth 0 l 0 else if (j =? 0)%nat then nth k l 0 else nth j l 0.
Proof.
  intro H. unfold swap0. rewrite set_nth_nth by (rewrite set_nth_length; lia).
  destruct (j =? k)%nat eqn:E; auto. rewrite set_nth_nth by lia. reflexivity.
Qed.

Lemma qmul_length p q : length p = length q -> length (qmul p q) = length p.
Proof. intro H. unfold qmul. rewrite map_length, combine_length. lia. Qed.
Lemma qmul_nth p q i : length p = length q -> (i < length p)%nat -> nth i (qmul p q) 0 = nth i p 0 * nth i q 0.
Proof.
  intros L H. unfold qmul. rewrite nth_map_lt with (da := (0, 0)) by (rewrite combine_length; lia).
  rewrite combine_nth by auto. reflexivity.
Qed.
Lemma qadd_length p q : length p = length q -> length (qadd p q) = length p.
Proof. intro H. unfold qadd. rewrite map_length, combine_length. lia. Qed.
Lemma qadd_nth p q i : length p = length q -> (i < length p)%nat -> nth i (qadd p q) 0 = nth i p 0 + nth i q 0.
Proof.
  intros L H. unfold qadd. rewrite nth_map_lt with (da := (0, 0)) by (rewrite combine_length; lia).
  rewrite combine_nth by auto. reflexivity.
Qed.
Lemma zsub_length c d : length c = length d -> length (zsub c d) = length c.
Proof. intro H. unfold zsub. rewrite map_length, combine_length. lia. Qed.
Lemma zsub_nth c d i : length c = length d -> (i < length c)%nat -> nth i (zsub c d) 0%Z = (nth i c 0 - nth i d 0)%Z.
Proof.
  intros L H. unfold zsub. rewrite nth_map_lt with (da := (0%Z, 0%Z)) by (rewrite combine_length; lia).
  rewrite combine_nth by auto. reflexivity.
Qed.
Lemma at_time_length t p q : length p = length q -> length (at_time t p q) = length p.
Proof. intro H. unfold at_time. rewrite map_length, combine_length. lia. Qed.
Lemma at_time_nth t p q i : length p = length q -> (i < length p)%nat ->
  nth i (at_time t p q) 0 = nth i p 0 + t * (nth i q 0 - nth i p 0).
Proof.
  intros L H. unfold at_time. rewrite nth_map_lt with (da := (0, 0)) by (rewrite combine_length; lia).
  rewrite combine_nth by auto. reflexivity.
Qed.
Lemma center_length c : length (center c) = length c.
Proof. apply map_length. Qed.
Lemma center_nth c i : (i < length c)%nat -> nth i (center c) 0 = inject_Z (nth i c 0%Z) + (1#2).
Proof. intro H. unfold center. now rewrite nth_map_lt with (da := 0%Z) by auto. Qed.

Lemma where_nonzero_spec d : (exists i, (i < length d)%nat /\ nth i d 0%Z <> 0%Z) ->
  (where_nonzero d < length d)%nat /\ nth (where_nonzero d) d 0%Z <> 0%Z.
Proof.
  induction d as [|x d IH]; intros (i & Hi & H); simpl in *; [lia|].
  destruct (Z.eqb_spec x 0) as [->|Hx]; [|split; [lia|auto]].
  destruct i as [|i]; [congruence|]. destruct IH as [A B]; [exists i; split; [lia|auto]|]. split; [lia|auto].
Qed.

(** the axis along which two neighbouring cubes differ *)
Lemma axis_spec c d : one_step c d -> let k := where_nonzero (zsub d c) in
  (k < length c)%nat /\ (nth k d 0 = nth k c 0 + 1 \/ nth k d 0 = nth k c 0 - 1)%Z /\
  (nth k (zsub d c) 0 = nth k d 0 - nth k c 0)%Z /\
  forall j, j <> k -> nth j c 0%Z = nth j d 0%Z.
Proof.
  intros (L & i & Hi & A & E). cbv zeta.
  destruct (where_nonzero_spec (zsub d c)) as [B C].
  { exists i. rewrite zsub_length by auto. split; [lia|]. rewrite zsub_nth by lia. lia. }
  rewrite zsub_length in B by auto. rewrite zsub_nth in C by lia.
  set (k := where_nonzero (zsub d c)) in *.
  assert (k = i). { destruct (Nat.eq_dec k i); auto. rewrite (E k) in C by auto. lia. }
  rewrite zsub_nth by lia. rewrite H in *. split; [lia|]. split; [lia|]. split; auto.
Qed.

(** ** Position on the path *)
Lemma consecutive_nth {A} (l : list A) c d x : consecutive l c d <->
  exists k, (S k < length l)%nat /\ nth k l x = c /\ nth (S k) l x = d.
Proof.
  split.
  - intros (l1 & l2 & ->). exists (length l1). rewrite app_length. simpl. split; [lia|].
    rewrite app_nth2, Nat.sub_diag by lia. split; auto. rewrite app_nth2 by lia.
    replace (S (length l1) - length l1)%nat with 1%nat by lia. reflexivity.
  - intros (k & Hk & <- & <-). revert k Hk. induction l as [|a l IH]; intros k Hk; simpl in Hk; [lia|].
    destruct k as [|k].
    + destruct l as [|b l]; [simpl in Hk; lia|]. exists [], l. reflexivity.
    + destruct (IH k ltac:(lia)) as (l1 & l2 & E). exists (a :: l1), l2. simpl. now rewrite E at 1.
Qed.

Lemma nth_unique (path : list cube) i j : NoDup path -> (i < length path)%nat -> (j < length path)%nat ->
  nth i path [] = nth j path [] -> i = j.
Proof. intros N Hi Hj E. apply (proj1 (NoDup_nth path []) N); auto. Qed.

Lemma consecutive_pred_unique (path : list cube) c d d' : NoDup path -> consecutive path d c -> consecutive path d' c -> d = d'.
Proof.
  intros N H H'. apply (consecutive_nth path d c []) in H as (i & Hi & <- & E1).
  apply (consecutive_nth path d' c []) in H' as (j & Hj & <- & E2).
  assert (S i = S j) by (apply (nth_unique path); auto; congruence). congruence.
Qed.
Lemma consecutive_succ_unique (path : list cube) c d d' : NoDup path -> consecutive path c d -> consecutive path c d' -> d = d'.
Proof.
  intros N H H'. apply (consecutive_nth path c d []) in H as (i & Hi & E1 & <-).
  apply (consecutive_nth path c d' []) in H' as (j & Hj & E2 & <-).
  assert (i = j) by (apply (nth_unique path); auto; try lia; congruence). congruence.
Qed.

Lemma pred_hd path c d : NoDup path -> consecutive path d c -> exists l, predecessors path c = d :: l.
Proof.
  intros N H. destruct (predecessors path c) as [|e l] eqn:E.
  - apply predecessors_In in H. now rewrite E in H.
  - exists l. f_equal. apply (consecutive_pred_unique path c); auto. apply predecessors_In. rewrite E. simpl; auto.
Qed.
Lemma succ_hd path c d : NoDup path -> consecutive path c d -> exists l, successors path c = d :: l.
Proof.
  intros N H. destruct (successors path c) as [|e l] eqn:E.
  - apply successors_In in H. now rewrite E in H.
  - exists l. f_equal. apply (consecutive_succ_unique path c); auto. apply successors_In. rewrite E. simpl; auto.
Qed.

(** ** Sampling *)
Lemma global_nth (r : list Q) c i : length r = length c -> (i < length c)%nat ->
  nth i (map (fun p => fst p + inject_Z (snd p) + (1#2)) (combine r c)) 0 = nth i r 0 + inject_Z (nth i c 0%Z) + (1#2).
Proof.
  intros L H. rewrite nth_map_lt with (da := (0, 0%Z)) by (rewrite combine_length; lia).
  rewrite combine_nth by auto. reflexivity.
Qed.

Lemma sample_center dim path th u c r : length c = dim -> unit_draws dim u -> 0 <= th -> th < 1#2 -> is_center r = true ->
  let x := transform_sample dim path th u c r in
  length x = dim /\ cube_of x c /\ margin path c th x /\
  forall i, (i < dim)%nat -> inject_Z (nth i c 0%Z) + th <= nth i x 0 < inject_Z (nth i c 0%Z) + 1 - th.
Proof.
  intros Lc [Lu U] T0 T1 R. cbv zeta. unfold transform_sample. rewrite R.
  set (w := map _ (qmul u _)).
  assert (Lw : length w = dim).
  { unfold w. rewrite map_length, qmul_length; auto. unfold cube_center_lengths. now rewrite repeat_length. }
  assert (W : forall i, (i < dim)%nat -> nth i w 0 = nth i u 0 * (1 - 2 * th) - (1 - 2 * th) / 2).
  { intros i Hi. unfold w. assert (E : length u = length (cube_center_lengths dim th)).
    { unfold cube_center_lengths. now rewrite repeat_length. }
    rewrite nth_map_lt with (da := 0) by (rewrite qmul_length; auto; lia).
    rewrite qmul_nth by (auto; lia). unfold cube_center_lengths. now rewrite nth_repeat_lt. }
  set (x := map _ (combine w c)).
  assert (Lx : length x = dim) by (unfold x; rewrite map_length, combine_length; lia).
  assert (X : forall i, (i < dim)%nat -> inject_Z (nth i c 0%Z) + th <= nth i x 0 < inject_Z (nth i c 0%Z) + 1 - th).
  { intros i Hi. unfold x. rewrite global_nth by lia. rewrite W by auto. specialize (U i Hi).
    set (z := inject_Z _). set (v := nth i u 0) in *.
    assert (E : (1 - 2 * th) / 2 == (1#2) - th) by field. rewrite E.
    assert (P : 0 <= v * (1 - 2 * th)) by nra. assert (P' : 0 < (1 - v) * (1 - 2 * th)) by nra. split; lra. }
  split; auto. split; [|split; auto].
  - split; [lia|]. intros i Hi. specialize (X i ltac:(lia)). lra.
  - intros i Hi. specialize (X i ltac:(lia)). split; intro C; exfalso; lra.
Qed.

Lemma sample_passage dim path th u c r : corridor dim path -> In c path -> unit_draws dim u -> 0 < th -> th < 1#2 ->
  is_center r = false ->
  let ix := match r with EndPassage | MidPassage1 => 0%nat | _ => 1%nat end in
  (ix < length (neighbors path c))%nat ->
  let x := transform_sample dim path th u c r in
  length x = dim /\ cube_of x c /\ margin path c th x /\ in_opening th c (nth ix (neighbors path c) []) x.
Proof.
  intros K Hc [Lu U] T0 T1 R ix Hix. cbv zeta. unfold transform_sample. rewrite R. fold ix.
  pose proof K as (N & HL & HS). assert (Lc := HL c Hc).
  set (d := nth ix (neighbors path c) []).
  assert (Hd : In d (neighbors path c)) by (now apply nth_In).
  assert (Cd : consecutive path c d \/ consecutive path d c) by (now apply neighbors_In).
  assert (Sd : one_step c d) by (destruct Cd; [auto|now apply one_step_sym, HS]).
  destruct (axis_spec c d Sd) as (Hk & Dk & Zk & Ej).
  set (k := where_nonzero (zsub d c)) in *.
  assert (Ld : length d = length c) by (destruct Sd; auto).
  assert (Low : length (open_wall_lengths dim th) = dim).
  { unfold open_wall_lengths. simpl. rewrite repeat_length. lia. }
  set (q := qmul u (open_wall_lengths dim th)).
  assert (Lq : length q = dim) by (unfold q; rewrite qmul_length; lia).
  assert (Q0 : nth 0 q 0 = nth 0 u 0 * th).
  { unfold q. rewrite qmul_nth by lia. reflexivity. }
  assert (Qj : forall j, (1 <= j < dim)%nat -> nth j q 0 = nth j u 0 * (1 - 2 * th)).
  { intros j Hj. unfold q. rewrite qmul_nth by lia. unfold open_wall_lengths. destruct j; [lia|]. simpl nth.
    rewrite nth_repeat_lt by lia. reflexivity. }
  set (tr := set_nth k _ (repeat (- (1#2) + th) dim)).
  assert (Ltr : length tr = dim) by (unfold tr; rewrite set_nth_length; rewrite repeat_length; lia).
  assert (Tk : nth k tr 0 = if (0 <? nth k d 0 - nth k c 0)%Z then (1#2) - th else - (1#2)).
  { unfold tr. rewrite set_nth_nth by (rewrite repeat_length; lia). rewrite Nat.eqb_refl, Zk. reflexivity. }
  assert (Tj : forall j, (j < dim)%nat -> j <> k -> nth j tr 0 = - (1#2) + th).
  { intros j Hj Ne. unfold tr. rewrite set_nth_nth by (rewrite repeat_length; lia).
    apply Nat.eqb_neq in Ne. rewrite Ne. now rewrite nth_repeat_lt. }
  assert (Lsw : length (swap0 k q) = dim) by (rewrite swap0_length; lia).
  set (w := qadd (swap0 k q) tr).
  assert (Lw : length w = dim) by (unfold w; rewrite qadd_length; lia).
  set (x := map _ (combine w c)).
  assert (Lx : length x = dim) by (unfold x; rewrite map_length, combine_length; lia).
  assert (Xk : nth k x 0 = nth 0 u 0 * th + nth k tr 0 + inject_Z (nth k c 0%Z) + (1#2)).
  { unfold x. rewrite global_nth by lia. unfold w. rewrite qadd_nth by lia. rewrite swap0_nth by lia.
    rewrite Nat.eqb_refl, Q0. reflexivity. }
  assert (Xj : forall j, (j < dim)%nat -> j <> k ->
     inject_Z (nth j c 0%Z) + th <= nth j x 0 < inject_Z (nth j c 0%Z) + 1 - th).
  { intros j Hj Ne. unfold x. rewrite global_nth by lia. unfold w. rewrite qadd_nth by lia. rewrite swap0_nth by lia.
    rewrite Tj by auto. assert (Ne' := Ne). apply Nat.eqb_neq in Ne'. rewrite Ne'.
    assert (V : exists v, 0 <= v < 1 /\ (if (j =? 0)%nat then nth k q 0 else nth j q 0) = v * (1 - 2 * th)).
    { destruct (j =? 0)%nat eqn:J.
      - apply Nat.eqb_eq in J. exists (nth k u 0). split; [apply U; lia|]. apply Qj. lia.
      - apply Nat.eqb_neq in J. exists (nth j u 0). split; [apply U; lia|]. apply Qj. lia. }
    destruct V as (v & V & ->). set (z := inject_Z _).
    assert (P : 0 <= v * (1 - 2 * th)) by nra. assert (P' : 0 < (1 - v) * (1 - 2 * th)) by nra. split; lra. }
  assert (U0 := U 0%nat ltac:(lia)).
  assert (XK : (nth k d 0 = nth k c 0 + 1)%Z /\ inject_Z (nth k c 0%Z) + 1 - th <= nth k x 0 < inject_Z (nth k c 0%Z) + 1 \/
               (nth k d 0 = nth k c 0 - 1)%Z /\ inject_Z (nth k c 0%Z) <= nth k x 0 < inject_Z (nth k c 0%Z) + th).
  { rewrite Xk, Tk. set (z := inject_Z _). set (v := nth 0 u 0) in *. destruct Dk as [D|D]; [left|right]; split; auto; rewrite D.
    - replace (0 <? nth k c 0 + 1 - nth k c 0)%Z with true by (symmetry; apply Z.ltb_lt; lia). split; nra.
    - replace (0 <? nth k c 0 - 1 - nth k c 0)%Z with false by (symmetry; apply Z.ltb_ge; lia). split; nra. }
  split; auto. split; [|split].
  - split; [lia|]. intros i Hi. destruct (Nat.eq_dec i k) as [->|Ne]; [destruct XK as [[_ E]|[_ E]]; lra|].
    specialize (Xj i ltac:(lia) Ne). lra.
  - intros i Hi. destruct (Nat.eq_dec i k) as [->|Ne].
    + split; intro C.
      * destruct XK as [[_ E]|[D E]]; [exfalso; lra|]. exists d. split; [auto|lia].
      * destruct XK as [[D E]|[_ E]]; [|exfalso; lra]. exists d. split; auto.
    + specialize (Xj i ltac:(lia) Ne). split; intro C; exfalso; lra.
  - exists k. split; [lia|]. split; auto. intros j Hj Ne. apply Xj; [lia|auto].
Qed.

Lemma first_last_neighbors (path : list cube) c : NoDup path -> In c path ->
  (c <> hd [] path -> exists d, consecutive path d c) /\ (c <> last path [] -> exists d, consecutive path c d).
Proof.
  intros N H. apply (In_nth _ _ []) in H as (i & Hi & <-). split; intro Ne.
  - destruct i as [|i]; [destruct path; simpl in *; congruence|].
    exists (nth i path []). apply (consecutive_nth path _ _ []). exists i. split; auto.
  - destruct (Nat.eq_dec (S i) (length path)) as [E|E].
    + exfalso. apply Ne. clear - E. revert i E. induction path as [|a l IH]; intros i E; simpl in *; [lia|].
      destruct l as [|b l]; simpl in *.
      * now replace i with 0%nat by lia.
      * destruct i as [|i]; [lia|]. apply IH. lia.
    + exists (nth (S i) path []). apply (consecutive_nth path _ _ []). exists i. split; [lia|]. auto.
Qed.

(** number of neighbours: what the region indices rely on *)
Lemma neighbors_count (path : list cube) c : NoDup path -> (2 <= length path)%nat -> In c path ->
  (1 <= length (neighbors path c))%nat /\
  (c <> hd [] path -> c <> last path [] -> (2 <= length (neighbors path c))%nat).
Proof.
  intros N L H. destruct (first_last_neighbors path c N H) as [P S]. unfold neighbors. rewrite app_length.
  assert (A : forall d, consecutive path d c -> (1 <= length (predecessors path c))%nat).
  { intros d Hd. destruct (pred_hd path c d N Hd) as [l ->]. simpl. lia. }
  assert (B : forall d, consecutive path c d -> (1 <= length (successors path c))%nat).
  { intros d Hd. destruct (succ_hd path c d N Hd) as [l ->]. simpl. lia. }
  split.
  - destruct (list_eq_dec Z.eq_dec c (hd [] path)) as [->|Ne].
    + destruct path as [|a [|b l]]; simpl in L; try lia.
      assert (G : consecutive (a :: b :: l) (hd [] (a :: b :: l)) b) by (exists [], l; reflexivity).
      specialize (B b G). lia.
    + destruct (P Ne) as [d Hd]. specialize (A d Hd). lia.
  - intros Ne Ne'. destruct (P Ne) as [d Hd], (S Ne') as [d' Hd']. specialize (A d Hd). specialize (B d' Hd'). lia.
Qed.
