(** Properties of the bins of exps/tamp_environment/kuka_carry/run.py: the region the hollow
    shapes fill, the grid of bins, and the clearance given to the sample bound. *)
From Coq Require Import Reals List Bool Arith ZArith Lra Lia Psatz.
From Verif Require Import Sat_Model Sat_Props Box_Model Box_Props Search_Model Bound_Model Bound_Props Bin_Model.
Import ListNotations.
Open Scope R_scope.

(** ** Specification *)
(** points of an unrotated box *)
Definition in_oobb (o : oobb) (p : vec) : Prop :=
  forall i, (i < 3)%nat -> o_point o i + o_lower o i <= p i <= o_point o i + o_upper o i.
Definition inside_oobb (o : oobb) (p : vec) : Prop :=
  forall i, (i < 3)%nat -> o_point o i + o_lower o i < p i < o_point o i + o_upper o i.
Definition in_walls (l : list oobb) (p : vec) : Prop := exists o, In o l /\ in_oobb o p.

(** the solid box of the given dimensions standing on the plane z = 0, centred over the origin *)
Definition lo (w l h : R) (i : nat) : R := match i with O => - (w / 2) | S O => - (l / 2) | _ => 0 end.
Definition hi (w l h : R) (i : nat) : R := match i with O => w / 2 | S O => l / 2 | _ => h end.
Definition in_block (w l h : R) (p : vec) : Prop := forall i, (i < 3)%nat -> lo w l h i <= p i <= hi w l h i.
(** within t of the face of the block that the sign selects *)
Definition near_face (w l h t : R) (i : nat) (s : Z) (p : vec) : Prop :=
  (s = (-1)%Z /\ p i <= lo w l h i + t) \/ (s = 1%Z /\ hi w l h i - t <= p i).

(** ** Hollow shapes *)
Lemma insert_sign_In x y l : In x (insert_sign y l) <-> x = y \/ In x l.
Proof.
  induction l as [|z l IH]; cbn; [intuition|]. destruct (y <=? z)%Z; cbn; intuition.
Qed.
Lemma sorted_signs_In x l : In x (sorted_signs l) <-> In x l.
Proof. induction l as [|y l IH]; cbn; [tauto|]. rewrite insert_sign_In, IH. intuition. Qed.

Lemma sorted_signs_length l : length (sorted_signs l) = length l.
Proof.
  assert (E : forall x k, length (insert_sign x k) = S (length k)).
  { intros x k. induction k as [|y k IH]; cbn; auto. destruct (x <=? y)%Z; cbn; auto. }
  induction l as [|y l IH]; auto. change (sorted_signs (y :: l)) with (insert_sign y (sorted_signs l)). rewrite E, IH. reflexivity.
Qed.

Ltac idx3 := match goal with H : (?i < 3)%nat |- _ =>
  assert ((i = 0 \/ i = 1 \/ i = 2)%nat) as [-> | [-> | ->]] by lia; clear H end.

Lemma wall_exact w l h t i s p : (i < 3)%nat -> (s = (-1)%Z \/ s = 1%Z) ->
  0 <= t -> t <= w -> t <= l -> t <= h ->
  (in_oobb (wall (vec3 w l h) t i s) p <-> in_block w l h p /\ near_face w l h t i s p).
Proof.
  intros Hi Hs T W L H. unfold in_oobb, in_block, near_face. split.
  - intro A. pose proof (A 0%nat ltac:(lia)) as A0. pose proof (A 1%nat ltac:(lia)) as A1. pose proof (A 2%nat ltac:(lia)) as A2.
    idx3; destruct Hs as [-> | ->]; cbn in *;
      (split; [intros j Hj; idx3; cbn; lra|]); (left; split; [reflexivity|]; lra) || (right; split; [reflexivity|]; lra).
  - intros (B & N) j Hj. pose proof (B 0%nat ltac:(lia)) as A0. pose proof (B 1%nat ltac:(lia)) as A1. pose proof (B 2%nat ltac:(lia)) as A2.
    destruct N as [(-> & N)|(-> & N)]; idx3; idx3; cbn in *; lra.
Qed.

(** C95.  The walls fill exactly the part of the block within the thickness of a chosen face. *)
Theorem hollow_shape_exact : forall indices w l h t, length indices = 3%nat ->
  (forall signs s, In signs indices -> In s signs -> s = (-1)%Z \/ s = 1%Z) ->
  0 <= t -> t <= w -> t <= l -> t <= h ->
  exists walls, create_hollow_shapes indices w l h t = Some walls /\
    length walls = length (concat indices) /\
    forall p, in_walls walls p <->
      in_block w l h p /\ exists i s, In s (nth i indices []) /\ (i < 3)%nat /\ near_face w l h t i s p.
Proof.
  intros indices w l h t L S T W Ll H.
  destruct indices as [|a [|b [|c [|]]]]; try discriminate. clear L.
  eexists. split; [reflexivity|]. split.
  - cbn [combine seq flat_map fst snd concat]. rewrite !app_length, !map_length.
    rewrite !sorted_signs_length. cbn [length]. lia.
  - intro p. unfold in_walls. split.
    + intros (o & I & P). apply in_flat_map in I as ((i & signs) & I1 & I2). cbn [fst snd] in I2.
      apply in_map_iff in I2 as (s & <- & Is). rewrite sorted_signs_In in Is.
      assert (Hn : (i < 3)%nat /\ nth i [a; b; c] [] = signs).
      { cbn in I1. destruct I1 as [E|[E|[E|[]]]]; injection E as <- <-; cbn; split; auto; lia. }
      destruct Hn as (Hi & Hn).
      assert (Hs : s = (-1)%Z \/ s = 1%Z) by (apply (S signs); [rewrite <- Hn; apply nth_In; cbn; lia|auto]).
      apply wall_exact in P as (P1 & P2); auto. split; auto. exists i, s. rewrite Hn. auto.
    + intros (B & i & s & Is & Hi & N). exists (wall (vec3 w l h) t i s). split.
      * apply in_flat_map. exists (i, nth i [a; b; c] []). split.
        { idx3; cbn; auto. }
        cbn [fst snd]. apply in_map, sorted_signs_In, Is.
      * apply wall_exact; auto. apply (S (nth i [a; b; c] [])); [apply nth_In; cbn; lia|auto].
Qed.
Print Assumptions hollow_shape_exact.

(** a fence (no floor): the middle of its bottom face is free, the middle of a side is not *)
Example fence_shape : exists walls, create_hollow_shapes fence_indices (3/10) (4/10) (15/100) (1/100) = Some walls /\ length walls = 4%nat /\
  ~ in_walls walls (vec3 0 0 0) /\ in_walls walls (vec3 (3/20) 0 (1/10)).
Proof.
  destruct (hollow_shape_exact fence_indices (3/10) (4/10) (15/100) (1/100)) as (ws & E & L & H); try lra; auto.
  { intros signs s [<-|[<-|[<-|[]]]]; cbn; intros; intuition lia. }
  exists ws. repeat split; auto.
  - intro I. apply H in I as (_ & i & s & Is & Hi & N). unfold near_face in N. idx3; cbn in *; destruct N as [(-> & N)|(-> & N)]; try lra; intuition.
  - apply H. split; [intros i Hi; idx3; cbn; lra|]. exists 0%nat, 1%Z. cbn. split; [auto|]. split; [lia|]. right. split; auto. cbn. lra.
Qed.

(** ** The bin's cavity *)
Definition bin_shape (w l h t : R) : list oobb := match create_hollow_shapes bin_indices w l h t with Some ws => ws | None => [] end.
Definition cavity (w l h t : R) (p : vec) : Prop :=
  Rabs (p 0%nat) < w / 2 - t /\ Rabs (p 1%nat) < l / 2 - t /\ t < p 2%nat <= h.

Lemma bin_walls w l h t p : 0 <= t -> t <= w -> t <= l -> t <= h ->
  (in_walls (bin_shape w l h t) p <-> in_block w l h p /\
     (p 0%nat <= - (w / 2) + t \/ w / 2 - t <= p 0%nat \/ p 1%nat <= - (l / 2) + t \/ l / 2 - t <= p 1%nat \/ p 2%nat <= t)).
Proof.
  intros T W L H. destruct (hollow_shape_exact bin_indices w l h t) as (ws & E & _ & X); auto.
  { intros signs s [<-|[<-|[<-|[]]]]; cbn; intros; intuition lia. }
  unfold bin_shape. rewrite E, X. apply and_iff_compat_l. split.
  - intros (i & s & Is & Hi & N). unfold near_face in N. idx3; cbn in *; destruct N as [(-> & N)|(-> & N)]; auto; try (right; right; right; right; lra); intuition discriminate.
  - intros [N|[N|[N|[N|N]]]]; [exists 0%nat, (-1)%Z|exists 0%nat, 1%Z|exists 1%nat, (-1)%Z|exists 1%nat, 1%Z|exists 2%nat, (-1)%Z]; cbn;
      (split; [auto|split; [lia|]]); unfold near_face; cbn; first [left; split; [reflexivity|lra]|(right; split; [reflexivity|lra])].
Qed.

(** C95.  The part of the block that the bin leaves free is the cavity, open at the top only. *)
Theorem bin_cavity_exact : forall w l h t p, 0 <= t -> t <= w -> t <= l -> t <= h -> in_block w l h p ->
  (~ in_walls (bin_shape w l h t) p <-> cavity w l h t p).
Proof.
  intros w l h t p T W L H B. rewrite bin_walls by auto.
  pose proof (B 2%nat ltac:(lia)) as B2. cbn in B2. unfold cavity. split.
  - intro N. assert (C : forall P : Prop, (P -> in_block w l h p /\
      (p 0%nat <= - (w / 2) + t \/ w / 2 - t <= p 0%nat \/ p 1%nat <= - (l / 2) + t \/ l / 2 - t <= p 1%nat \/ p 2%nat <= t)) -> ~ P) by tauto.
    assert (~ p 0%nat <= - (w / 2) + t) by tauto. assert (~ w / 2 - t <= p 0%nat) by tauto.
    assert (~ p 1%nat <= - (l / 2) + t) by tauto. assert (~ l / 2 - t <= p 1%nat) by tauto. assert (~ p 2%nat <= t) by tauto.
    split; [apply Rabs_def1; lra|]. split; [apply Rabs_def1; lra|lra].
  - intros (A0 & A1 & A2) (_ & N). apply Rabs_def2 in A0, A1. lra.
Qed.
Print Assumptions bin_cavity_exact.

Example bin_middle_free : cavity (1/10) (1/10) (15/100) (1/100) (vec3 0 0 (11/100)) /\
  ~ in_walls (bin_shape (1/10) (1/10) (15/100) (1/100)) (vec3 0 0 (11/100)) /\
  in_walls (bin_shape (1/10) (1/10) (15/100) (1/100)) (vec3 (45/1000) 0 (11/100)).
Proof.
  assert (C : cavity (1/10) (1/10) (15/100) (1/100) (vec3 0 0 (11/100))).
  { unfold cavity. cbn. rewrite Rabs_R0. lra. }
  split; auto. split.
  - apply bin_cavity_exact; auto; try lra. intros i Hi. idx3; cbn; lra.
  - apply bin_walls; try lra. split; [intros i Hi; idx3; cbn; lra|]. right; left. cbn. lra.
Qed.

(** C95.  A continuous curve that leaves the cavity touches a wall or passes the opening. *)
Lemma continuity_max f g : continuity f -> continuity g -> continuity (fun x => Rmax (f x) (g x)).
Proof.
  intros F G.
  assert (E : forall x, (f x + g x + Rabs (f x - g x)) / 2 = Rmax (f x) (g x)).
  { intro x. unfold Rmax. destruct (Rle_dec (f x) (g x)); [rewrite Rabs_left1 by lra|rewrite Rabs_right by lra]; lra. }
  intro x. apply (continuity_pt_locally_ext (fun x => (f x + g x + Rabs (f x - g x)) / 2) _ 1); auto; try lra. revert x.
  change (continuity (div_fct (fun x => f x + g x + Rabs (f x - g x)) (fct_cte 2))).
  apply continuity_div; [|apply continuity_const; intros a b; reflexivity|intro x; unfold fct_cte; lra].
  apply (continuity_plus (fun x => f x + g x) (fun x => Rabs (f x - g x))); [now apply continuity_plus|].
  apply (continuity_comp (fun x => f x - g x) Rabs); [now apply continuity_minus|apply Rcontinuity_abs].
Qed.

Theorem bin_escape : forall w l h t (c : R -> vec), 0 <= t -> t <= w -> t <= l -> t <= h ->
  (forall i, (i < 3)%nat -> continuity (fun s => c s i)) -> cavity w l h t (c 0) -> ~ cavity w l h t (c 1) ->
  exists s, 0 <= s <= 1 /\
    (in_walls (bin_shape w l h t) (c s) \/ (cavity w l h t (c s) /\ c s 2%nat = h)).
Proof.
  intros w l h t c T W L H K (A0 & A1 & A2) N.
  set (g := fun s => Rmax (Rmax (Rabs (c s 0%nat) - (w / 2 - t)) (Rabs (c s 1%nat) - (l / 2 - t))) (Rmax (t - c s 2%nat) (c s 2%nat - h))).
  assert (G : continuity g).
  { assert (A : forall i k, (i < 3)%nat -> continuity (fun s => Rabs (c s i) - k)).
    { intros i k Hi. apply (continuity_minus (fun s => Rabs (c s i)) (fun _ => k)).
      - apply (continuity_comp (fun s => c s i) Rabs); auto. apply Rcontinuity_abs.
      - apply continuity_const. intros a b. reflexivity. }
    unfold g. apply continuity_max; apply continuity_max; auto.
    - apply (continuity_minus (fun _ => t) (fun s => c s 2%nat)); auto. apply continuity_const. intros a b. reflexivity.
    - apply (continuity_minus (fun s => c s 2%nat) (fun _ => h)); auto. apply continuity_const. intros a b. reflexivity. }
  assert (G0 : g 0 <= 0).
  { unfold g. repeat apply Rmax_lub; lra. }
  assert (G1 : 0 <= g 1).
  { destruct (Rle_lt_dec 0 (g 1)); auto. exfalso. apply N. unfold g in r.
    pose proof (Rmax_l (Rmax (Rabs (c 1 0%nat) - (w / 2 - t)) (Rabs (c 1 1%nat) - (l / 2 - t))) (Rmax (t - c 1 2%nat) (c 1 2%nat - h))).
    pose proof (Rmax_r (Rmax (Rabs (c 1 0%nat) - (w / 2 - t)) (Rabs (c 1 1%nat) - (l / 2 - t))) (Rmax (t - c 1 2%nat) (c 1 2%nat - h))).
    pose proof (Rmax_l (Rabs (c 1 0%nat) - (w / 2 - t)) (Rabs (c 1 1%nat) - (l / 2 - t))).
    pose proof (Rmax_r (Rabs (c 1 0%nat) - (w / 2 - t)) (Rabs (c 1 1%nat) - (l / 2 - t))).
    pose proof (Rmax_l (t - c 1 2%nat) (c 1 2%nat - h)). pose proof (Rmax_r (t - c 1 2%nat) (c 1 2%nat - h)).
    unfold cavity. lra. }
  destruct (IVT_cor g 0 1 G ltac:(lra) ltac:(nra)) as (s & Hs & Z).
  exists s. split; auto.
  unfold g in Z.
  pose proof (Rmax_l (Rmax (Rabs (c s 0%nat) - (w / 2 - t)) (Rabs (c s 1%nat) - (l / 2 - t))) (Rmax (t - c s 2%nat) (c s 2%nat - h))).
  pose proof (Rmax_r (Rmax (Rabs (c s 0%nat) - (w / 2 - t)) (Rabs (c s 1%nat) - (l / 2 - t))) (Rmax (t - c s 2%nat) (c s 2%nat - h))).
  pose proof (Rmax_l (Rabs (c s 0%nat) - (w / 2 - t)) (Rabs (c s 1%nat) - (l / 2 - t))) as M1.
  pose proof (Rmax_r (Rabs (c s 0%nat) - (w / 2 - t)) (Rabs (c s 1%nat) - (l / 2 - t))) as M2.
  pose proof (Rmax_l (t - c s 2%nat) (c s 2%nat - h)) as M3. pose proof (Rmax_r (t - c s 2%nat) (c s 2%nat - h)) as M4.
  assert (B0 : - (w / 2 - t) <= c s 0%nat <= w / 2 - t) by (pose proof (Rle_abs (c s 0%nat)); pose proof (Rle_abs (- c s 0%nat)); rewrite Rabs_Ropp in *; lra).
  assert (B1 : - (l / 2 - t) <= c s 1%nat <= l / 2 - t) by (pose proof (Rle_abs (c s 1%nat)); pose proof (Rle_abs (- c s 1%nat)); rewrite Rabs_Ropp in *; lra).
  assert (Blk : in_block w l h (c s)) by (intros i Hi; idx3; cbn; lra).
  destruct (Rlt_le_dec (Rabs (c s 0%nat)) (w / 2 - t)) as [C0|C0].
  2:{ left. apply bin_walls; auto. split; auto. unfold Rabs in C0. destruct (Rcase_abs (c s 0%nat)); lra. }
  destruct (Rlt_le_dec (Rabs (c s 1%nat)) (l / 2 - t)) as [C1|C1].
  2:{ left. apply bin_walls; auto. split; auto. unfold Rabs in C1. destruct (Rcase_abs (c s 1%nat)); lra. }
  destruct (Rlt_le_dec t (c s 2%nat)) as [C2|C2]; [|left; apply bin_walls; auto; split; [auto|tauto]].
  right. unfold cavity. split; [lra|].
  unfold Rmax in Z. repeat destruct (Rle_dec _ _); lra.
Qed.
Print Assumptions bin_escape.

(** lifting straight up leaves through the opening *)
Example lift_out : exists s, 0 <= s <= 1 /\
  (in_walls (bin_shape (1/10) (1/10) (15/100) (1/100)) (vec3 0 0 (11/100 + s)) \/
   (cavity (1/10) (1/10) (15/100) (1/100) (vec3 0 0 (11/100 + s)) /\ 11/100 + s = 15/100)).
Proof.
  destruct (bin_escape (1/10) (1/10) (15/100) (1/100) (fun s => vec3 0 0 (11/100 + s))) as (s & Hs & D); try lra.
  - intros i Hi. idx3; cbn; try (apply continuity_const; intros a b; reflexivity).
    apply (continuity_plus (fun _ => 11/100) id); [apply continuity_const; intros a b; reflexivity|].
    apply derivable_continuous, derivable_id.
  - unfold cavity. cbn. rewrite Rabs_R0. lra.
  - unfold cavity. cbn. lra.
  - exists s. split; auto.
Qed.

(** ** The grid of bins *)
Definition shift (at_ : R * R) (p : vec) : vec := fun i => p i - vec3 (fst at_) (snd at_) 0 i.
(** a bin of load_world at the given position *)
Definition bin_at (w h : R) (at_ : R * R) : list oobb := map (place at_) (bin_shape w w h thickness).

Lemma in_place at_ o p : in_oobb (place at_ o) p <-> in_oobb o (shift at_ p).
Proof.
  unfold in_oobb, shift. cbn [place o_lower o_upper o_point].
  split; intros H i Hi; specialize (H i Hi); idx3; cbn in *; lra.
Qed.
Lemma inside_place at_ o p : inside_oobb (place at_ o) p <-> inside_oobb o (shift at_ p).
Proof.
  unfold inside_oobb, shift. cbn [place o_lower o_upper o_point].
  split; intros H i Hi; specialize (H i Hi); idx3; cbn in *; lra.
Qed.

Lemma sink_bins gap : sink_obstacle_oobbs gap = map (bin_at (container_size gap) container_height) (bin_positions gap).
Proof. reflexivity. Qed.

Lemma bin_list w l h t : bin_shape w l h t =
  [wall (vec3 w l h) t 0 (-1); wall (vec3 w l h) t 0 1; wall (vec3 w l h) t 1 (-1); wall (vec3 w l h) t 1 1; wall (vec3 w l h) t 2 (-1)].
Proof. reflexivity. Qed.

Lemma wall_inside w l h t o p : 0 <= t -> t <= w -> t <= l -> t <= h -> In o (bin_shape w l h t) -> inside_oobb o p ->
  - (w / 2) < p 0%nat < w / 2 /\ - (l / 2) < p 1%nat < l / 2 /\ 0 < p 2%nat < h.
Proof.
  intros T W L H I P. rewrite bin_list in I.
  pose proof (P 0%nat ltac:(lia)) as P0. pose proof (P 1%nat ltac:(lia)) as P1. pose proof (P 2%nat ltac:(lia)) as P2.
  destruct I as [<-|[<-|[<-|[<-|[<-|[]]]]]]; cbn in *; lra.
Qed.

Lemma bin_position gap k at_ : nth_error (bin_positions gap) k = Some at_ -> (k < 8)%nat /\
  at_ = (INR (k / 4) * container_size gap + - (68 / 100), INR (k mod 4) * container_size gap + - (container_size gap * (INR 4 - 1)) / 2).
Proof.
  intro E. assert (L : (k < 8)%nat).
  { change 8%nat with (length (bin_positions gap)). apply nth_error_Some. congruence. }
  split; auto. do 8 (destruct k as [|k]; [injection E as <-; reflexivity|]). lia.
Qed.
Lemma grid_line w a b : 0 < w -> - w < INR a * w - INR b * w < w -> a = b.
Proof.
  intros W H. destruct (Nat.lt_trichotomy a b) as [L|[L|L]]; auto; exfalso; apply lt_INR in L as L';
    apply le_INR in L; rewrite S_INR in L; nra.
Qed.

(** C96.  The eight bins stand side by side: no two of them share an interior point, and each
    has five walls. *)
Theorem bins_disjoint : forall gap, - (5 / 100) <= gap ->
  length (sink_obstacle_oobbs gap) = 8%nat /\
  (forall b, In b (sink_obstacle_oobbs gap) -> length b = 5%nat) /\
  forall i j bi bj oi oj p, nth_error (sink_obstacle_oobbs gap) i = Some bi -> nth_error (sink_obstacle_oobbs gap) j = Some bj ->
    In oi bi -> In oj bj -> inside_oobb oi p -> inside_oobb oj p -> i = j.
Proof.
  intros gap G. split; [reflexivity|]. split.
  { intros b I. rewrite sink_bins in I. apply in_map_iff in I as (at_ & <- & _). reflexivity. }
  intros i j bi bj oi oj p Ei Ej Ii Ij Pi Pj.
  rewrite sink_bins in Ei, Ej. rewrite nth_error_map in Ei, Ej.
  destruct (nth_error (bin_positions gap) i) as [ai|] eqn:Ai; [|discriminate]. destruct (nth_error (bin_positions gap) j) as [aj|] eqn:Aj; [|discriminate].
  cbn [option_map] in Ei, Ej. injection Ei as <-. injection Ej as <-.
  apply in_map_iff in Ii as (wi & <- & Ii). apply in_map_iff in Ij as (wj & <- & Ij).
  rewrite inside_place in Pi, Pj.
  assert (T1 : 0 <= thickness) by (unfold thickness; lra). assert (T2 : thickness <= container_size gap) by (unfold thickness, container_size; lra).
  assert (T3 : thickness <= container_height) by (unfold thickness, container_height; lra).
  apply (wall_inside _ _ _ _ _ _ T1 T2 T2 T3 Ii) in Pi as (X1 & Y1 & _). apply (wall_inside _ _ _ _ _ _ T1 T2 T2 T3 Ij) in Pj as (X2 & Y2 & _).
  apply bin_position in Ai as (Li & ->). apply bin_position in Aj as (Lj & ->).
  unfold shift in *. cbn [vec3 fst snd] in *.
  assert (W : 0 < container_size gap) by (unfold container_size; lra).
  assert (Ex : (i / 4 = j / 4)%nat) by (apply (grid_line (container_size gap)); auto; lra).
  assert (Ey : (i mod 4 = j mod 4)%nat) by (apply (grid_line (container_size gap)); auto; lra).
  rewrite (Nat.div_mod i 4), (Nat.div_mod j 4) by lia. congruence.
Qed.
Print Assumptions bins_disjoint.

(** neighbouring bins touch: a point in the wall of bin 0 and in the wall of bin 1 *)
Example bins_touch : exists b0 b1 o0 o1 p, nth_error (sink_obstacle_oobbs (4/100)) 0 = Some b0 /\ nth_error (sink_obstacle_oobbs (4/100)) 1 = Some b1 /\
  In o0 b0 /\ In o1 b1 /\ in_oobb o0 p /\ in_oobb o1 p.
Proof.
  do 2 eexists. exists (place (0 * container_size (4/100) + - (68/100), 0 * container_size (4/100) + - (container_size (4/100) * (INR 4 - 1)) / 2) (wall (vec3 (1/10) (1/10) (15/100)) thickness 1 1)).
  exists (place (0 * container_size (4/100) + - (68/100), 1 * container_size (4/100) + - (container_size (4/100) * (INR 4 - 1)) / 2) (wall (vec3 (1/10) (1/10) (15/100)) thickness 1 (-1))).
  assert (W : container_size (4/100) = 1/10) by (unfold container_size; lra).
  assert (I3 : INR 4 = 4) by (cbn; lra).
  exists (vec3 (- (68/100)) (- (1/10)) (1/10)).
  split; [reflexivity|]. split; [reflexivity|].
  split; [rewrite W; right; right; right; left; reflexivity|]. split; [rewrite W; right; right; left; reflexivity|].
  rewrite W, I3. split; apply in_place; intros i Hi; unfold shift; idx3; cbn; unfold thickness; lra.
Qed.

(** ** The clearance *)
(** the body, a box of the given half extents centred at c, reaches into the interior of a wall *)
Definition penetrates (half c : vec) (walls : list oobb) : Prop :=
  exists o p, In o walls /\ inside_oobb o p /\ forall i, (i < 3)%nat -> Rabs (p i - c i) <= half i.
Definition move_x (c : vec) (d : R) : vec := vec3 (c 0%nat + d) (c 1%nat) (c 2%nat).
(** the body can be pushed sideways by up to delta from c in both directions *)
Definition side_clearance (half c : vec) (walls : list oobb) (delta : R) : Prop :=
  forall d, Rabs d <= delta -> ~ penetrates half (move_x c d) walls.
(** c is a point inside the cavity of the bin standing at the given position *)
Definition in_bin (w h : R) (at_ : R * R) (c : vec) : Prop := cavity w w h thickness (shift at_ c) /\ c 2%nat < h.

Lemma thick : thickness = 1 / 100. Proof. reflexivity. Qed.

Lemma bin_reach w h at_ half c delta : thickness < w -> thickness < h -> in_bin w h at_ c -> (forall i, (i < 3)%nat -> 0 <= half i) ->
  0 <= delta -> side_clearance half c (bin_at w h at_) delta ->
  delta + half 0%nat <= w / 2 - thickness - (c 0%nat - fst at_) /\ delta + half 0%nat <= w / 2 - thickness + (c 0%nat - fst at_).
Proof.
  intros W H ((C0 & C1 & C2) & C3) Hh D S. pose proof thick as T.
  unfold shift in C0, C1, C2. cbn [vec3] in C0, C1, C2. apply Rabs_def2 in C0, C1.
  pose proof (Hh 0%nat ltac:(lia)) as H0. pose proof (Hh 1%nat ltac:(lia)) as H1. pose proof (Hh 2%nat ltac:(lia)) as H2.
  set (x := c 0%nat - fst at_) in *.
  split; (match goal with |- ?a <= ?b => destruct (Rle_lt_dec a b) as [L|L]; auto end); exfalso.
  - set (q := Rmin (w / 2 - thickness / 2) (x + delta + half 0%nat)).
    assert (Q1 : w / 2 - thickness < q) by (unfold q; apply Rmin_glb_lt; lra).
    assert (Q2 : q <= w / 2 - thickness / 2) by apply Rmin_l. assert (Q3 : q <= x + delta + half 0%nat) by apply Rmin_r.
    apply (S (Rmax 0 (q - half 0%nat - x))).
    { rewrite Rabs_right by (apply Rle_ge, Rmax_l). apply Rmax_lub; lra. }
    exists (place at_ (wall (vec3 w w h) thickness 0 1)), (vec3 (fst at_ + q) (c 1%nat) (c 2%nat)). split; [|split].
    + apply in_map. rewrite bin_list. right; left; reflexivity.
    + apply inside_place. intros i Hi. unfold shift. idx3; cbn; lra.
    + intros i Hi. unfold move_x. idx3; cbn [vec3].
      * unfold Rmax. destruct (Rle_dec _ _); apply Rabs_le; unfold x in *; lra.
      * rewrite Rminus_diag_eq by reflexivity. now rewrite Rabs_R0.
      * rewrite Rminus_diag_eq by reflexivity. now rewrite Rabs_R0.
  - set (q := Rmin (w / 2 - thickness / 2) (- x + delta + half 0%nat)).
    assert (Q1 : w / 2 - thickness < q) by (unfold q; apply Rmin_glb_lt; lra).
    assert (Q2 : q <= w / 2 - thickness / 2) by apply Rmin_l. assert (Q3 : q <= - x + delta + half 0%nat) by apply Rmin_r.
    apply (S (- Rmax 0 (q - half 0%nat + x))).
    { rewrite Rabs_Ropp, Rabs_right by (apply Rle_ge, Rmax_l). apply Rmax_lub; lra. }
    exists (place at_ (wall (vec3 w w h) thickness 0 (-1))), (vec3 (fst at_ - q) (c 1%nat) (c 2%nat)). split; [|split].
    + apply in_map. rewrite bin_list. left; reflexivity.
    + apply inside_place. intros i Hi. unfold shift. idx3; cbn; lra.
    + intros i Hi. unfold move_x. idx3; cbn [vec3].
      * unfold Rmax. destruct (Rle_dec _ _); apply Rabs_le; unfold x in *; lra.
      * rewrite Rminus_diag_eq by reflexivity. now rewrite Rabs_R0.
      * rewrite Rminus_diag_eq by reflexivity. now rewrite Rabs_R0.
Qed.

(** C97.  A body of the given half extents fits into a bin with sideways clearance delta exactly
    when delta is at most half of what the inner width leaves. *)
Theorem bin_clearance_exact : forall w h at_ half delta, thickness < w -> thickness < h -> (forall i, (i < 3)%nat -> 0 <= half i) ->
  half 1%nat < w / 2 - thickness -> half 2%nat < h - thickness -> 0 <= delta -> 0 < half 0%nat + delta ->
  ((exists c, in_bin w h at_ c /\ side_clearance half c (bin_at w h at_) delta) <->
   delta <= (w - 2 * thickness - 2 * half 0%nat) / 2).
Proof.
  intros w h at_ half delta W H Hh H1 H2 D P. pose proof thick as T. split.
  - intros (c & I & S). destruct (bin_reach w h at_ half c delta W H I Hh D S). lra.
  - intro L. exists (vec3 (fst at_) (snd at_) ((thickness + half 2%nat + h) / 2)). split.
    + unfold in_bin, cavity, shift. cbn [vec3]. replace (fst at_ - fst at_) with 0 by lra. replace (snd at_ - snd at_) with 0 by lra. rewrite Rabs_R0.
      pose proof (Hh 1%nat ltac:(lia)). pose proof (Hh 0%nat ltac:(lia)). pose proof (Hh 2%nat ltac:(lia)). repeat split; lra.
    + intros d Hd (o & p & I & Q & B). apply in_map_iff in I as (o' & <- & I). apply inside_place in Q.
      pose proof (B 0%nat ltac:(lia)) as B0. pose proof (B 1%nat ltac:(lia)) as B1. pose proof (B 2%nat ltac:(lia)) as B2.
      unfold move_x in B0, B1, B2. cbn [vec3] in B0, B1, B2.
      assert (A : forall x y, Rabs x <= y -> - y <= x <= y) by (intros x y; unfold Rabs; destruct (Rcase_abs x); lra).
      apply A in Hd, B0, B1, B2. rewrite bin_list in I.
      pose proof (Q 0%nat ltac:(lia)) as Q0. pose proof (Q 1%nat ltac:(lia)) as Q1. pose proof (Q 2%nat ltac:(lia)) as Q2.
      unfold shift in Q0, Q1, Q2. destruct I as [<-|[<-|[<-|[<-|[<-|[]]]]]]; cbn in Q0, Q1, Q2; lra.
Qed.
Print Assumptions bin_clearance_exact.

(** C97.  The clearance the code computes, for every bin of the grid. *)
Lemma wall_gap w h at_ : hallway_size (bin_at w h at_) = Some (w - thickness).
Proof. unfold hallway_size. cbn. f_equal. lra. Qed.

Theorem insert_delta_value : forall gap b lower upper buffer, In b (sink_obstacle_oobbs gap) ->
  insert_delta b lower upper buffer = Some (container_size gap - thickness - (upper 0%nat - lower 0%nat + buffer) / 2).
Proof.
  intros gap b lower upper buffer I. rewrite sink_bins in I. apply in_map_iff in I as (at_ & <- & _).
  unfold insert_delta. now rewrite wall_gap.
Qed.
Print Assumptions insert_delta_value.

(** C97.  It is a clearance of the body only when the buffer is as large as the bin. *)
Theorem insert_delta_clearance_partial : forall gap at_ lower upper buffer delta, - (5/100) < gap -> In at_ (bin_positions gap) ->
  (forall i, (i < 3)%nat -> lower i < upper i) ->
  upper 1%nat - lower 1%nat < container_size gap - 2 * thickness -> (upper 2%nat - lower 2%nat) / 2 < container_height - thickness ->
  insert_delta (bin_at (container_size gap) container_height at_) lower upper buffer = Some delta -> 0 <= delta ->
  ((exists c, in_bin (container_size gap) container_height at_ c /\
      side_clearance (fun i => (upper i - lower i) / 2) c (bin_at (container_size gap) container_height at_) delta) <->
   container_size gap <= buffer).
Proof.
  intros gap at_ lower upper buffer delta G I B B1 B2 E D. pose proof thick as T.
  rewrite (insert_delta_value gap) in E by (rewrite sink_bins; now apply in_map). injection E as E.
  pose proof (B 0%nat ltac:(lia)). pose proof (B 1%nat ltac:(lia)). pose proof (B 2%nat ltac:(lia)).
  rewrite bin_clearance_exact; [split; intro; lra| | |intros i Hi; specialize (B i Hi); lra| | | |]; unfold container_size, container_height in *; lra.
Qed.
Print Assumptions insert_delta_clearance_partial.

(** C97.  With the default arguments (gap 0.04, buffer 0.02) and the widest object the computed
    value is 0.05, five times the clearance 0.01 there is. *)
Theorem insert_delta_clearance_refuted : exists gap at_ lower upper buffer delta, In at_ (bin_positions gap) /\
  (forall i, (i < 3)%nat -> lower i < upper i) /\
  insert_delta (bin_at (container_size gap) container_height at_) lower upper buffer = Some delta /\ 0 < delta /\
  (exists c, in_bin (container_size gap) container_height at_ c /\
      side_clearance (fun i => (upper i - lower i) / 2) c (bin_at (container_size gap) container_height at_) (delta / 5)) /\
  forall c, in_bin (container_size gap) container_height at_ c ->
    ~ side_clearance (fun i => (upper i - lower i) / 2) c (bin_at (container_size gap) container_height at_) delta.
Proof.
  set (at_ := (INR 0 * container_size (4/100) + - (68/100), INR 0 * container_size (4/100) + - (container_size (4/100) * (INR 4 - 1)) / 2)).
  exists (4/100), at_, (vec3 (- (3/100)) (- (3/100)) (- (1/10))), (vec3 (3/100) (3/100) (1/10)), (2/100), (5/100).
  pose proof thick as T.
  assert (P : In at_ (bin_positions (4/100))) by (left; reflexivity).
  assert (W : container_size (4/100) = 1/10) by (unfold container_size; lra).
  assert (V : insert_delta (bin_at (container_size (4/100)) container_height at_) (vec3 (- (3/100)) (- (3/100)) (- (1/10))) (vec3 (3/100) (3/100) (1/10)) (2/100) = Some (5/100)).
  { rewrite (insert_delta_value (4/100)) by (rewrite sink_bins; now apply in_map). cbn. rewrite W. unfold thickness. f_equal. lra. }
  split; auto. split; [intros i Hi; idx3; cbn; lra|]. split; auto. split; [lra|]. split.
  - apply bin_clearance_exact; rewrite ?W; unfold thickness, container_height; cbn; try lra. intros i Hi; idx3; cbn; lra.
  - intros c I S.
    assert (X : container_size (4/100) <= 2/100).
    { apply (insert_delta_clearance_partial (4/100) at_ (vec3 (- (3/100)) (- (3/100)) (- (1/10))) (vec3 (3/100) (3/100) (1/10)) (2/100) (5/100)); auto;
        rewrite ?W; unfold thickness, container_height; cbn; try lra; [intros i Hi; idx3; cbn; lra|]. exists c. rewrite W in I, S. auto. }
    lra.
Qed.
Print Assumptions insert_delta_clearance_refuted.

(** C97.  So the sample count computed from it is at most the count for the true clearance. *)
Theorem insert_samples_too_few : forall gap b lower upper buffer delta p v dim fuel z r, In b (sink_obstacle_oobbs gap) ->
  buffer <= container_size gap ->
  insert_delta b lower upper buffer = Some delta ->
  0 <= (container_size gap - 2 * thickness - (upper 0%nat - lower 0%nat)) / 2 -> 0 < p -> 0 < v -> (1000 <= fuel)%nat ->
  compute_numerical_bound ((container_size gap - 2 * thickness - (upper 0%nat - lower 0%nat)) / 2) p v dim None fuel = Some (Ret z, r) ->
  exists z' r', compute_numerical_bound delta p v dim None fuel = Some (Ret z', r') /\ (z' <= z)%Z.
Proof.
  intros gap b lower upper buffer delta p v dim fuel z r Ib Bu E C P V F N.
  rewrite (insert_delta_value gap) in E by auto. injection E as E. pose proof thick as T.
  apply (numerical_bound_monotone ((container_size gap - 2 * thickness - (upper 0%nat - lower 0%nat)) / 2) delta p p v v None None dim fuel fuel z r); auto; try lra.
  exact I.
Qed.
Print Assumptions insert_samples_too_few.

Example insert_samples_case : exists b delta z r, In b (sink_obstacle_oobbs 2) /\
  insert_delta b (vec3 0 0 0) (vec3 (4/100) (4/100) (2/10)) (2/100) = Some delta /\ 2 < delta /\
  compute_numerical_bound delta (1/2) 2 1 None 1000 = Some (Ret z, r) /\ (z <= 30)%Z.
Proof.
  destruct numerical_bound_least_case as (m & r & E & Hm). pose proof thick as T.
  assert (W : container_size 2 = 206/100) by (unfold container_size; lra).
  assert (I : In (hd [] (sink_obstacle_oobbs 2)) (sink_obstacle_oobbs 2)) by (left; reflexivity).
  assert (V : insert_delta (hd [] (sink_obstacle_oobbs 2)) (vec3 0 0 0) (vec3 (4/100) (4/100) (2/10)) (2/100) = Some (202/100)).
  { rewrite (insert_delta_value 2) by exact I. cbn [vec3]. f_equal. lra. }
  destruct (insert_samples_too_few 2 _ (vec3 0 0 0) (vec3 (4/100) (4/100) (2/10)) (2/100) (202/100) (1/2) 2 1 1000 m r I) as (z & r' & E' & Z);
    cbn [vec3]; rewrite ?W; auto; try lra.
  - replace ((206 / 100 - 2 * thickness - (4 / 100 - 0)) / 2) with 1 by lra. exact E.
  - eexists _, _, z, r'. split; [exact I|]. split; [exact V|]. split; [lra|]. split; [exact E'|lia].
Qed.
