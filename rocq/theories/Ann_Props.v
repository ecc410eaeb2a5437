(** Property C33: neighbour files (ann.py). *)
From Coq Require Import Arith List Reals Lra Lia Bool.
From Verif Require Import Ann_Model.
Import ListNotations.
Open Scope R_scope.

(** ** Specification *)

(** the tokens of "id1 d1 id2 d2 ..." *)
Fixpoint interleave {A} (l : list (A * A)) : list A :=
  match l with [] => [] | (a, b) :: l' => a :: b :: interleave l' end.

(** squared Euclidean distance; missing coordinates of the shorter row count as zero *)
Fixpoint sqnorm (q : list R) : R := match q with [] => 0 | y :: q' => y * y + sqnorm q' end.
Fixpoint sqdist (p q : list R) : R :=
  match p, q with
  | [], _ => sqnorm q
  | x :: p', [] => x * x + sqdist p' []
  | x :: p', y :: q' => (x - y) * (x - y) + sqdist p' q'
  end.
Definition euclid (p q : list R) : R := sqrt (sqdist p q).

(** ** Lemmas *)
Lemma evens_cons2 {A} (a b : A) l : evens (a :: b :: l) = a :: evens l.
Proof. reflexivity. Qed.

Lemma evens_interleave {A} (l : list (A * A)) : evens (interleave l) = map fst l.
Proof. induction l as [|[a b] l IH]; simpl; congruence. Qed.

Lemma evens_tl_interleave {A} (l : list (A * A)) : evens (tl (interleave l)) = map snd l.
Proof.
  induction l as [|[a b] l IH]; [reflexivity|].
  cbn [interleave tl map snd]. destruct l as [|[a' b'] l]; [reflexivity|].
  cbn [interleave] in *. rewrite evens_cons2. f_equal. exact IH.
Qed.

Theorem parse_line_aligned : forall (tok : Type) k (n : tok) (l : list (tok * tok)),
  parse_line tok k (n :: interleave l) = (map fst (firstn k l), map snd (firstn k l)).
Proof.
  intros. unfold parse_line. cbn [tl]. rewrite evens_interleave, evens_tl_interleave.
  now rewrite !firstn_map.
Qed.
Print Assumptions parse_line_aligned.

Lemma sqnorm_zeros p m : sqnorm (p ++ repeat 0 m) = sqnorm p.
Proof. induction p; simpl; [induction m; simpl; lra|lra]. Qed.
Lemma sqdist_zeros_nil p m : sqdist (p ++ repeat 0 m) [] = sqdist p [].
Proof. induction p; simpl; [induction m; simpl in *; lra|lra]. Qed.
Lemma sqdist_zeros_l : forall k q, sqdist (repeat 0 k) q = sqnorm q.
Proof.
  induction k as [|k IH]; intros [|y q]; simpl; auto.
  - rewrite IH. simpl. lra.
  - rewrite IH. replace ((0 - y) * (0 - y)) with (y * y) by ring. reflexivity.
Qed.
Lemma sqdist_zeros_r : forall q k, sqdist q (repeat 0 k) = sqdist q [].
Proof.
  induction q as [|y q IH]; intros [|k]; simpl; auto.
  - pose proof (sqnorm_zeros [] k). simpl in H. lra.
  - rewrite IH. replace ((y - 0) * (y - 0)) with (y * y) by ring. reflexivity.
Qed.

Lemma sqdist_padded : forall p q k m, sqdist (p ++ repeat 0 k) (q ++ repeat 0 m) = sqdist p q.
Proof.
  induction p as [|x p IH]; intros [|y q] k m.
  - simpl. rewrite sqdist_zeros_l. apply (sqnorm_zeros []).
  - cbn [app]. rewrite sqdist_zeros_l. apply (sqnorm_zeros (y :: q)).
  - cbn [app]. rewrite (sqdist_zeros_r _ m). apply (sqdist_zeros_nil (x :: p)).
  - simpl. now rewrite IH.
Qed.

Lemma map_opt_all {A B} (f : A -> option B) : forall l r, map_opt f l = Some r ->
  length r = length l /\ forall i a, nth_error l i = Some a -> exists b, nth_error r i = Some b /\ f a = Some b.
Proof.
  induction l as [|a l IH]; simpl; intros r H.
  - injection H as <-. split; auto. intros [|i] a Ha; discriminate.
  - destruct (f a) as [b|] eqn:Ef; [|discriminate]. destruct (map_opt f l) as [bs|]; [|discriminate].
    injection H as <-. destruct (IH bs eq_refl) as [L N]. split; [simpl; congruence|].
    intros [|i] a' Ha; simpl in *; [injection Ha as <-; eauto|eauto].
Qed.

Lemma map_opt_some {A B} (f : A -> option B) (g : A -> B) : forall l,
  (forall a, In a l -> f a = Some (g a)) -> map_opt f l = Some (map g l).
Proof.
  induction l as [|a l IH]; simpl; intros H; auto.
  rewrite (H a) by auto. rewrite IH; auto.
Qed.

(** ** Padding *)

(** The embedding width is the least multiple of four that fits. *)
Theorem padding_width : forall d, (exists m, embedded_dim d = (4 * m)%nat) /\
  (d <= embedded_dim d <= d + 3)%nat.
Proof.
  intro d. unfold embedded_dim. split; [exists ((d + 3) / 4)%nat; lia|].
  pose proof (Nat.div_mod (d + 3) 4). pose proof (Nat.mod_upper_bound (d + 3) 4). lia.
Qed.
Print Assumptions padding_width.

Theorem padding_keeps_distances : forall f32 w p q, length p = length q ->
  length (embed_row f32 w p) = Nat.max w (length p) /\
  euclid (embed_row f32 w p) (embed_row f32 w q) = euclid (map f32 p) (map f32 q).
Proof.
  intros f32 w p q L. unfold embed_row, euclid. split.
  - rewrite app_length, map_length, repeat_length. lia.
  - now rewrite sqdist_padded.
Qed.
Print Assumptions padding_keeps_distances.

(** ** Reading the file *)

(** The result for a file whose line for row i lists (id, half squared distance) pairs, at
    least k of them: row i of the result names the first k ids, in order, each with the
    Euclidean distance between the (rounded) data rows. *)
Definition lists_halves {tok} (to_int : tok -> option nat) (to_float : tok -> option R)
    (rows : list (list R)) (i : nat) (l : list (tok * tok)) : Prop :=
  exists p, nth_error rows i = Some p /\
    Forall (fun t => exists j q, to_int (fst t) = Some j /\ nth_error rows j = Some q /\
                                 to_float (snd t) = Some (sqdist p q / 2)) l.

Lemma rect_firstn {A} k (ls : list (list A)) : Forall (fun l => (k <= length l)%nat) ls ->
  rectangular (map (firstn k) ls) = true.
Proof.
  intro F. destruct ls as [|l ls]; [reflexivity|]. simpl. apply forallb_forall. intros r Hr.
  apply in_map_iff in Hr. destruct Hr as [l' [<- Hl]]. apply Nat.eqb_eq.
  rewrite !firstn_length. inversion F; subst. rewrite Forall_forall in H2. apply H2 in Hl. lia.
Qed.

Theorem neighbour_file_read : forall (tok : Type) to_int to_float f32 kg dim data k header entries,
  Forall (fun r => length r = dim) data ->
  let emb := map (embed_row f32 (embedded_dim dim)) data in
  kg emb k = header :: map (fun e => fst e :: interleave (snd e)) entries ->
  length entries = length data ->
  Forall (fun e => (k <= length (snd e))%nat) entries ->
  (forall i e, nth_error entries i = Some e -> lists_halves to_int to_float emb i (snd e)) ->
  exists ids ds st,
    new_graph tok to_int to_float f32 kg dim data k = (Ok (ids, ds), st) /\
    length ids = length data /\ length ds = length data /\
    forall i p, nth_error data i = Some p -> exists es ri rd,
      nth_error entries i = Some es /\ nth_error ids i = Some ri /\ nth_error ds i = Some rd /\
      length ri = k /\ length rd = k /\
      forall a t, (a < k)%nat -> nth_error (snd es) a = Some t -> exists j q,
        to_int (fst t) = Some j /\ nth_error ri a = Some j /\ nth_error data j = Some q /\
        nth_error rd a = Some (euclid (map f32 p) (map f32 q)).
Proof.
  intros tok to_int to_float f32 kg dim data k header entries Hdim emb Hkg Len Hk Hl.
  unfold new_graph. fold emb. rewrite Hkg. cbn [tl].
  assert (Parsed : map (parse_line tok k) (map (fun e => fst e :: interleave (snd e)) entries) =
                   map (fun e => (map fst (firstn k (snd e)), map snd (firstn k (snd e)))) entries).
  { rewrite map_map. apply map_ext. intros [n l]. apply parse_line_aligned. }
  rewrite Parsed. rewrite !map_map.
  set (A := map (fun e => fst (map fst (firstn k (snd e)), map snd (firstn k (snd e)))) entries).
  set (B := map (fun e => snd (map fst (firstn k (snd e)), map snd (firstn k (snd e)))) entries).
  assert (EA : A = map (firstn k) (map (fun e => map fst (snd e)) entries)).
  { unfold A. rewrite map_map. apply map_ext. intro e. simpl. now rewrite firstn_map. }
  assert (EB : B = map (firstn k) (map (fun e => map snd (snd e)) entries)).
  { unfold B. rewrite map_map. apply map_ext. intro e. simpl. now rewrite firstn_map. }
  assert (RA : rectangular A = true).
  { rewrite EA. apply rect_firstn. apply Forall_forall. intros l Hin. apply in_map_iff in Hin.
    destruct Hin as [e [<- He]]. rewrite map_length. rewrite Forall_forall in Hk. auto. }
  assert (RB : rectangular B = true).
  { rewrite EB. apply rect_firstn. apply Forall_forall. intros l Hin. apply in_map_iff in Hin.
    destruct Hin as [e [<- He]]. rewrite map_length. rewrite Forall_forall in Hk. auto. }
  set (gi := fun t => match to_int t with Some j => j | None => 0%nat end).
  set (gf := fun t => match to_float t with Some x => x | None => 0%R end).
  assert (All : forall e, In e entries -> forall t, In t (snd e) ->
            to_int (fst t) = Some (gi (fst t)) /\ to_float (snd t) = Some (gf (snd t))).
  { intros e He t Ht. apply In_nth_error in He. destruct He as [i Hi].
    destruct (Hl i e Hi) as (p & _ & F). rewrite Forall_forall in F.
    destruct (F t Ht) as (j & q & E1 & _ & E2). unfold gi, gf. now rewrite E1, E2. }
  assert (FirstIn : forall (e : tok * list (tok * tok)) t, In t (firstn k (snd e)) -> In t (snd e)).
  { intros e t Ht. rewrite <- (firstn_skipn k (snd e)). apply in_or_app. auto. }
  assert (MA : map_opt (map_opt to_int) A = Some (map (map gi) A)).
  { apply map_opt_some. intros l Hin. apply in_map_iff in Hin. destruct Hin as [e [<- He]]. simpl.
    apply map_opt_some. intros x Hx. apply in_map_iff in Hx. destruct Hx as [t [<- Ht]].
    apply (All e He t). auto. }
  assert (MB : map_opt (map_opt to_float) B = Some (map (map gf) B)).
  { apply map_opt_some. intros l Hin. apply in_map_iff in Hin. destruct Hin as [e [<- He]]. simpl.
    apply map_opt_some. intros x Hx. apply in_map_iff in Hx. destruct Hx as [t [<- Ht]].
    apply (All e He t). auto. }
  unfold to_array. rewrite RA, RB, MA, MB.
  eexists _, _, _. split; [reflexivity|].
  assert (LA : length A = length data) by (unfold A; rewrite map_length; auto).
  assert (LB : length B = length data) by (unfold B; rewrite map_length; auto).
  split; [now rewrite map_length|]. split; [now rewrite !map_length|].
  intros i p Hp.
  assert (Hi : (i < length entries)%nat) by (rewrite Len; apply nth_error_Some; congruence).
  destruct (nth_error entries i) as [es|] eqn:Ee; [|apply nth_error_None in Ee; lia].
  exists es. eexists. eexists. split; [reflexivity|].
  split; [apply map_nth_error; unfold A; now rewrite (map_nth_error _ _ _ Ee)|].
  split; [apply map_nth_error; apply map_nth_error; unfold B; now rewrite (map_nth_error _ _ _ Ee)|].
  assert (Lk : (k <= length (snd es))%nat).
  { rewrite Forall_forall in Hk. apply Hk. eapply nth_error_In; eauto. }
  cbn [fst snd]. rewrite !map_length, firstn_length. split; [lia|]. split; [lia|].
  intros a t Ha Ht.
  destruct (Hl i es Ee) as (p' & Hp' & F). rewrite Forall_forall in F.
  destruct (F t (nth_error_In _ _ Ht)) as (j & q' & E1 & E2 & E3).
  unfold emb in Hp', E2.
  rewrite (map_nth_error _ _ _ Hp) in Hp'. injection Hp' as <-.
  destruct (nth_error data j) as [q|] eqn:Hq.
  2: { rewrite nth_error_map, Hq in E2. discriminate. }
  rewrite (map_nth_error _ _ _ Hq) in E2. injection E2 as <-.
  exists j, q. split; auto.
  assert (Hta : nth_error (firstn k (snd es)) a = Some t).
  { clear - Ha Ht. revert a Ha Ht. generalize (snd es). induction k; intros l a Ha Ht; [lia|].
    destruct l; [destruct a; discriminate|]. destruct a; simpl in *; auto. apply IHk; auto. lia. }
  split; [rewrite (map_nth_error _ _ _ (map_nth_error fst _ _ Hta)); unfold gi; now rewrite E1|].
  split; [auto|].
  rewrite (map_nth_error _ _ _ (map_nth_error gf _ _ (map_nth_error snd _ _ Hta))).
  unfold gf. rewrite E3. f_equal. unfold euclid. f_equal.
  rewrite <- (sqdist_padded (map f32 p) (map f32 q) (embedded_dim dim - length p) (embedded_dim dim - length q)).
  unfold embed_row. field.
Qed.
Print Assumptions neighbour_file_read.

(** A row with another number of entries than the first makes the call fail. *)
Theorem ragged_file_rejected : forall (tok : Type) to_int to_float f32 kg dim data k l1 l2 header lines,
  kg (map (embed_row f32 (embedded_dim dim)) data) k = header :: lines ->
  In l1 lines -> In l2 lines ->
  length (fst (parse_line tok k l1)) <> length (fst (parse_line tok k l2)) ->
  fst (new_graph tok to_int to_float f32 kg dim data k) = Err ValueError.
Proof.
  intros. unfold new_graph. rewrite H. cbn [tl].
  assert (R : rectangular (map fst (map (parse_line tok k) lines)) = false).
  { destruct (rectangular (map fst (map (parse_line tok k) lines))) eqn:E; auto. exfalso. apply H2.
    assert (G : forall (ls : list (list tok)), rectangular ls = true -> forall a b, In a ls -> In b ls -> length a = length b).
    { clear. intros [|r ls] E a b Ha Hb; [contradiction|]. simpl in E. rewrite forallb_forall in E.
      assert (X : forall c, In c (r :: ls) -> length c = length r).
      { intros c [<-|Hc]; auto. apply E in Hc. now apply Nat.eqb_eq in Hc. }
      rewrite (X a), (X b); auto. }
    apply (G _ E); apply in_map; now apply in_map. }
  unfold to_array at 1. now rewrite R.
Qed.
Print Assumptions ragged_file_rejected.

(** ** Updating *)

Definition same_dim (dim : nat) (rows : list (list R)) : Prop := Forall (fun r => length r = dim) rows.

Lemma embed_embed f32 w r : (forall x, f32 (f32 x) = f32 x) -> f32 0 = 0 ->
  (length r <= w)%nat -> embed_row f32 w (embed_row f32 w r) = embed_row f32 w r.
Proof.
  intros Id Z L. unfold embed_row. rewrite map_app, map_map.
  rewrite (map_ext _ f32 Id). rewrite app_length, map_length, repeat_length.
  replace (w - (length r + (w - length r)))%nat with 0%nat by lia. simpl. rewrite app_nil_r.
  f_equal. induction (w - length r)%nat; simpl; congruence.
Qed.
Lemma embed_padded f32 w r : f32 0 = 0 -> (length r <= w)%nat ->
  embed_row f32 w (r ++ repeat 0 (w - length r)) = embed_row f32 w r.
Proof.
  intros Z L. unfold embed_row. rewrite map_app, app_length, repeat_length.
  replace (w - (length r + (w - length r)))%nat with 0%nat by lia. simpl. rewrite app_nil_r.
  f_equal. induction (w - length r)%nat; simpl; congruence.
Qed.
Lemma embedded_dim_twice d : embedded_dim (embedded_dim d) = embedded_dim d.
Proof.
  unfold embedded_dim. set (m := ((d + 3) / 4)%nat).
  replace (m * 4 + 3)%nat with (3 + m * 4)%nat by lia. rewrite Nat.div_add by lia.
  replace (3 / 4)%nat with 0%nat by reflexivity. lia.
Qed.

(** Any sequence of updates after a build gives the answer and the state of one build on
    all rows.  The rounding is idempotent and keeps zero, as float32 rounding is. *)
Fixpoint run_updates {tok} to_int to_float f32 (kg : list (list R) -> nat -> list (list tok)) (dim : nat)
    (st : ann_state) (batches : list (list (list R))) : ann_state :=
  match batches with
  | [] => st
  | b :: bs => run_updates to_int to_float f32 kg dim
                 (snd (update_graph tok to_int to_float f32 kg (embedded_dim dim) dim st b)) bs
  end.

Theorem updates_equal_rebuild : forall (tok : Type) to_int to_float f32 kg dim k data batches fresh,
  (forall x, f32 (f32 x) = f32 x) -> f32 0 = 0 ->
  same_dim dim data -> Forall (same_dim dim) batches -> same_dim dim fresh ->
  let st := run_updates to_int to_float f32 kg dim (snd (new_graph tok to_int to_float f32 kg dim data k)) batches in
  update_graph tok to_int to_float f32 kg (embedded_dim dim) dim st fresh =
  new_graph tok to_int to_float f32 kg dim (data ++ concat batches ++ fresh) k.
Proof.
  intros tok to_int to_float f32 kg dim k data batches fresh Id Z Hd Hb Hf.
  destruct (padding_width dim) as [_ [W _]].
  assert (St : forall data, snd (new_graph tok to_int to_float f32 kg dim data k) =
               mkAnn (Some k) (map (embed_row f32 (embedded_dim dim)) data)).
  { intro d. unfold new_graph. destruct (to_array _ _ _); [|reflexivity].
    destruct (to_array _ _ _); reflexivity. }
  assert (Up : forall data fresh, same_dim dim data -> same_dim dim fresh ->
            update_graph tok to_int to_float f32 kg (embedded_dim dim) dim
              (snd (new_graph tok to_int to_float f32 kg dim data k)) fresh =
            new_graph tok to_int to_float f32 kg dim (data ++ fresh) k).
  { clear - Id Z W St. intros data fresh Hd Hf. rewrite St. unfold update_graph. cbn [a_k a_embedded].
    replace (embedded_dim dim <? dim) with false by (symmetry; apply Nat.ltb_ge; lia).
    assert (E : map (embed_row f32 (embedded_dim (embedded_dim dim)))
                  (map (embed_row f32 (embedded_dim dim)) data ++
                   map (fun r => r ++ repeat 0 (embedded_dim dim - length r)) fresh) =
                map (embed_row f32 (embedded_dim dim)) (data ++ fresh)).
    { rewrite embedded_dim_twice, !map_app, !map_map. f_equal; apply map_ext_in; intros r Hr.
      - apply embed_embed; auto. unfold same_dim in Hd. rewrite Forall_forall in Hd. rewrite (Hd r Hr). lia.
      - apply embed_padded; auto. unfold same_dim in Hf. rewrite Forall_forall in Hf. rewrite (Hf r Hr). lia. }
    unfold new_graph. now rewrite E. }
  cbv zeta. revert data Hd. induction Hb as [|b bs Hb1 Hbs IH]; intros data Hd.
  - cbn [run_updates concat app]. auto.
  - cbn [run_updates concat]. rewrite Up by auto. rewrite IH.
    + now rewrite <- !app_assoc.
    + unfold same_dim in *. apply Forall_app. auto.
Qed.
Print Assumptions updates_equal_rebuild.

Theorem update_before_build_rejected : forall (tok : Type) to_int to_float f32 kg a b fresh,
  update_graph tok to_int to_float f32 kg a b ann_new fresh = (Err RuntimeError, ann_new).
Proof. reflexivity. Qed.
Print Assumptions update_before_build_rejected.

(** ** Examples *)
Example parse_line_case :
  parse_line nat 2 [9; 4; 40; 5; 50; 6; 60]%nat = ([4; 5], [40; 50])%nat.
Proof. reflexivity. Qed.

Example padding_width_case : map embedded_dim [1; 2; 4; 5; 8; 9]%nat = [4; 4; 4; 8; 8; 12]%nat.
Proof. reflexivity. Qed.

(** two points (0,0) and (3,4) at distance 5: the file says 12.5 *)
Definition ex_tok := (nat + R)%type.
Definition ex_int (t : ex_tok) := match t with inl n => Some n | inr _ => None end.
Definition ex_float (t : ex_tok) := match t with inr x => Some x | inl _ => None end.
Definition ex_line (id : nat) : list ex_tok := [inl 1%nat; inl id; inr (25 / 2)].
Definition ex_kg (_ : list (list R)) (_ : nat) : list (list ex_tok) := [[inl 2%nat]; ex_line 1; ex_line 0].

Example neighbour_file_case :
  fst (new_graph ex_tok ex_int ex_float (fun x => x) ex_kg 2 [[0; 0]; [3; 4]] 1) =
  Ok ([[1%nat]; [0%nat]], [[5]; [5]]).
Proof.
  assert (S : sqrt (25 / 2 * 2) = 5).
  { replace (25 / 2 * 2) with (5 * 5) by field. apply sqrt_square. lra. }
  unfold new_graph, ex_kg. simpl. rewrite S. reflexivity.
Qed.

Example neighbour_file_hypotheses :
  forall i e, nth_error [(inl 1%nat : ex_tok, [(inl 1%nat : ex_tok, inr (25 / 2) : ex_tok)]);
                         (inl 1%nat : ex_tok, [(inl 0%nat : ex_tok, inr (25 / 2) : ex_tok)])] i = Some e ->
  lists_halves ex_int ex_float (map (embed_row (fun x => x) (embedded_dim 2)) [[0; 0]; [3; 4]]) i (snd e).
Proof.
  assert (E : embedded_dim 2 = 4%nat) by reflexivity. rewrite E.
  intros [|[|[|i]]] e H; simpl in H; try discriminate; injection H as <-; cbn [snd].
  - eexists. split; [reflexivity|]. constructor; [|constructor].
    exists 1%nat. eexists. split; [reflexivity|]. split; [reflexivity|]. simpl. f_equal. field.
  - eexists. split; [reflexivity|]. constructor; [|constructor].
    exists 0%nat. eexists. split; [reflexivity|]. split; [reflexivity|]. simpl. f_equal. field.
Qed.
