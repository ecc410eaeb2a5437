(** Properties of the turtlebot world (exps/tamp_environment/turtlebot_move/problems.py): the walls
    enclose the rooms and the hallway, the clearance of the hallway, and the sample count derived
    from it. *)
From Coq Require Import Reals List Bool Arith ZArith Lra Lia Psatz Classical Ranalysis.
From Verif Require Import Search_Model Plane Sat_Model World_Model Bound_Model Bound_Props.
Import ListNotations.
Open Scope R_scope.

(** ** Specification *)
Definition rect_has (o : rect) (p : rpt) : Prop :=
  r_x o - r_w o / 2 <= fst p <= r_x o + r_w o / 2 /\ r_y o - r_l o / 2 <= snd p <= r_y o + r_l o / 2.
Definition in_walls (walls : list rect) (p : rpt) : Prop := exists o, In o walls /\ rect_has o p.

(** a closed body with half extents a, b, centred at p, touches no wall *)
Definition body_free (walls : list rect) (a b : R) (p : rpt) : Prop :=
  forall v, Rabs (fst v - fst p) <= a -> Rabs (snd v - snd p) <= b -> ~ in_walls walls v.

(** the rooms and the hallway between the inner faces of the walls *)
Definition inner (rl hl gap : R) (p : rpt) : Prop :=
  (- hl / 2 - rl < fst p < - hl / 2 - 5/100 /\ 5/100 < snd p < rl - 5/100) \/
  (hl / 2 + 5/100 < fst p < hl / 2 + rl /\ 5/100 < snd p < rl - 5/100) \/
  (- hl / 2 - rl < fst p < hl / 2 + rl /\ rl / 2 - gap / 2 < snd p < rl / 2 + gap / 2).
(** between the rooms, beyond the walls of the hallway *)
Definition pocket (rl hl gap : R) (p : rpt) : Prop :=
  - hl / 2 + 5/100 < fst p < hl / 2 - 5/100 /\
  (snd p < rl / 2 - gap / 2 - 1/10 \/ rl / 2 + gap / 2 + 1/10 < snd p).
(** the bounding rectangle of the walls *)
Definition outline (rl hl : R) (p : rpt) : Prop :=
  - hl / 2 - rl - 1/10 <= fst p <= hl / 2 + rl + 1/10 /\ - 5/100 <= snd p <= rl + 5/100.

(** continuous curves *)
Definition curve (c : R -> rpt) : Prop := continuity (fun t => fst (c t)) /\ continuity (fun t => snd (c t)).

(** ** The walls *)
Ltac pick n := match n with 0%nat => left | S ?m => right; pick m end.

Lemma walls_iff rl hl gap p : in_walls (hallway_walls rl hl gap) p <->
  let x := fst p in let y := snd p in
  let lo := rl / 2 - gap / 2 in let hi := rl / 2 + gap / 2 in
  (- hl / 2 - rl - 5/100 <= x <= - hl / 2 + 5/100 /\ (-5/100 <= y <= 5/100 \/ rl - 5/100 <= y <= rl + 5/100)) \/
  (hl / 2 - 5/100 <= x <= hl / 2 + rl + 5/100 /\ (-5/100 <= y <= 5/100 \/ rl - 5/100 <= y <= rl + 5/100)) \/
  (- hl / 2 - rl - 1/10 <= x <= - hl / 2 - rl /\ -5/100 <= y <= rl + 5/100) \/
  (hl / 2 + rl <= x <= hl / 2 + rl + 1/10 /\ -5/100 <= y <= rl + 5/100) \/
  (- hl / 2 - 5/100 <= x <= - hl / 2 + 5/100 /\ (-5/100 <= y <= lo \/ hi <= y <= rl + 5/100)) \/
  (hl / 2 - 5/100 <= x <= hl / 2 + 5/100 /\ (-5/100 <= y <= lo \/ hi <= y <= rl + 5/100)) \/
  (- hl / 2 <= x <= hl / 2 /\ (lo - 1/10 <= y <= lo \/ hi <= y <= hi + 1/10)).
Proof.
  cbn zeta. unfold in_walls, hallway_walls, rect_has, wall_thickness, mound_height. cbn [In]. split.
  - intros (o & [<-|[<-|[<-|[<-|[<-|[<-|[<-|[<-|[<-|[<-|[<-|[<-|[]]]]]]]]]]]]] & H1 & H2); cbn [r_x r_y r_w r_l] in *.
    + left. split; [lra|left; lra].
    + left. split; [lra|right; lra].
    + right; right; left. split; lra.
    + do 4 right; left. split; [lra|right; lra].
    + do 5 right; left. split; [lra|left; lra].
    + right; left. split; [lra|right; lra].
    + right; left. split; [lra|left; lra].
    + do 3 right; left. split; lra.
    + do 4 right; left. split; [lra|left; lra].
    + do 5 right; left. split; [lra|right; lra].
    + do 6 right. split; [lra|right; lra].
    + do 6 right. split; [lra|left; lra].
  - intros [(X & [Y|Y])|[(X & [Y|Y])|[(X & Y)|[(X & Y)|[(X & [Y|Y])|[(X & [Y|Y])|(X & [Y|Y])]]]]]].
    + eexists; split; [left; reflexivity|cbn [r_x r_y r_w r_l]; lra].
    + eexists; split; [do 1 right; left; reflexivity|cbn [r_x r_y r_w r_l]; lra].
    + eexists; split; [do 6 right; left; reflexivity|cbn [r_x r_y r_w r_l]; lra].
    + eexists; split; [do 5 right; left; reflexivity|cbn [r_x r_y r_w r_l]; lra].
    + eexists; split; [do 2 right; left; reflexivity|cbn [r_x r_y r_w r_l]; lra].
    + eexists; split; [do 7 right; left; reflexivity|cbn [r_x r_y r_w r_l]; lra].
    + eexists; split; [do 8 right; left; reflexivity|cbn [r_x r_y r_w r_l]; lra].
    + eexists; split; [do 3 right; left; reflexivity|cbn [r_x r_y r_w r_l]; lra].
    + eexists; split; [do 4 right; left; reflexivity|cbn [r_x r_y r_w r_l]; lra].
    + eexists; split; [do 9 right; left; reflexivity|cbn [r_x r_y r_w r_l]; lra].
    + eexists; split; [do 11 right; left; reflexivity|cbn [r_x r_y r_w r_l]; lra].
    + eexists; split; [do 10 right; left; reflexivity|cbn [r_x r_y r_w r_l]; lra].
Qed.

Definition world_ok (rl hl gap : R) : Prop := 0 < gap /\ gap + 1/10 <= rl /\ 1/10 <= hl.

Lemma inner_free rl hl gap p : world_ok rl hl gap -> inner rl hl gap p -> ~ in_walls (hallway_walls rl hl gap) p.
Proof.
  intros (G & W & L) I H. apply walls_iff in H. cbn zeta in H.
  destruct H as [(X & [Y|Y])|[(X & [Y|Y])|[(X & Y)|[(X & Y)|[(X & [Y|Y])|[(X & [Y|Y])|(X & [Y|Y])]]]]]];
    destruct I as [[I J]|[[I J]|[I J]]]; lra.
Qed.

(** the closed region between the walls adds only points of the walls *)
Definition inner_closed (rl hl gap : R) (p : rpt) : Prop :=
  (- hl / 2 - rl <= fst p <= - hl / 2 - 5/100 /\ 5/100 <= snd p <= rl - 5/100) \/
  (hl / 2 + 5/100 <= fst p <= hl / 2 + rl /\ 5/100 <= snd p <= rl - 5/100) \/
  (- hl / 2 - rl <= fst p <= hl / 2 + rl /\ rl / 2 - gap / 2 <= snd p <= rl / 2 + gap / 2).

Lemma inner_closure rl hl gap p : world_ok rl hl gap -> inner_closed rl hl gap p ->
  inner rl hl gap p \/ in_walls (hallway_walls rl hl gap) p.
Proof.
  intros (G & W & L) I. rewrite walls_iff. cbn zeta. unfold inner. set (x := fst p) in *. set (y := snd p) in *.
  assert (C : (- hl / 2 - rl <= x <= hl / 2 + rl) /\ 5/100 <= y <= rl - 5/100).
  { destruct I as [[I J]|[[I J]|[I J]]]; fold x y in I, J; lra. }
  destruct C as [CX CY].
  destruct (Rle_lt_dec x (- hl / 2 - rl)); [right; do 2 right; left; lra|].
  destruct (Rle_lt_dec (hl / 2 + rl) x); [right; do 3 right; left; lra|].
  destruct (Rlt_le_dec x (- hl / 2 - 5/100)) as [X1|X1].
  { destruct (Rle_lt_dec y (5/100)); [right; left; split; [lra|left; lra]|].
    destruct (Rle_lt_dec (rl - 5/100) y); [right; left; split; [lra|right; lra]|]. left; left; lra. }
  destruct (Rlt_le_dec (hl / 2 + 5/100) x) as [X2|X2].
  { destruct (Rle_lt_dec y (5/100)); [right; right; left; split; [lra|left; lra]|].
    destruct (Rle_lt_dec (rl - 5/100) y); [right; right; left; split; [lra|right; lra]|]. left; right; left; lra. }
  destruct (Rle_lt_dec y (rl / 2 - gap / 2)) as [Y1|Y1].
  { destruct (Rle_lt_dec x (- hl / 2 + 5/100)); [right; do 4 right; left; split; [lra|left; lra]|].
    destruct (Rle_lt_dec (hl / 2 - 5/100) x); [right; do 5 right; left; split; [lra|left; lra]|].
    right; do 6 right. split; [lra|]. left. destruct I as [[I J]|[[I J]|[I J]]]; fold x y in I, J; lra. }
  destruct (Rle_lt_dec (rl / 2 + gap / 2) y) as [Y2|Y2].
  { destruct (Rle_lt_dec x (- hl / 2 + 5/100)); [right; do 4 right; left; split; [lra|right; lra]|].
    destruct (Rle_lt_dec (hl / 2 - 5/100) x); [right; do 5 right; left; split; [lra|right; lra]|].
    right; do 6 right. split; [lra|]. right. destruct I as [[I J]|[[I J]|[I J]]]; fold x y in I, J; lra. }
  left; right; right. lra.
Qed.

(** ** Curves cannot leave *)
Lemma connected01 (P : R -> Prop) : P 0 ->
  (forall t, 0 <= t <= 1 -> P t -> exists e, 0 < e /\ forall s, Rabs (s - t) < e -> P s) ->
  (forall t, 0 <= t <= 1 -> ~ P t -> exists e, 0 < e /\ forall s, Rabs (s - t) < e -> ~ P s) ->
  forall t, 0 <= t <= 1 -> P t.
Proof.
  intros P0 Op Cl. set (E := fun x => 0 <= x <= 1 /\ forall s, 0 <= s <= x -> P s).
  assert (B : bound E) by (exists 1; intros x [Hx _]; lra).
  assert (N : exists x, E x) by (exists 0; split; [lra|]; intros s Hs; replace s with 0 by lra; auto).
  destruct (completeness E B N) as (m & U & Lm).
  assert (M : 0 <= m <= 1).
  { split; [apply U; split; [lra|]; intros s Hs; replace s with 0 by lra; auto|]. apply Lm. intros x [Hx _]. lra. }
  assert (Bel : forall s, 0 <= s < m -> P s).
  { intros s Hs. apply NNPP. intro H. assert (m <= s); [|lra]. apply Lm. intros x [Hx HP].
    destruct (Rle_lt_dec x s); auto. exfalso. apply H, HP. lra. }
  assert (Pm : P m).
  { apply NNPP. intro H. destruct (Cl m M H) as (e & He & K). destruct (Req_dec m 0) as [Z|Z]; [subst; contradiction|].
    set (s := m - Rmin (e / 2) m).
    assert (0 < Rmin (e / 2) m) by (apply Rmin_glb_lt; lra). pose proof (Rmin_l (e / 2) m). pose proof (Rmin_r (e / 2) m).
    apply (K s); [unfold s; rewrite Rabs_left; lra|apply Bel; unfold s; lra]. }
  destruct (Req_dec m 1) as [Z|Z].
  { subst m. intros t Ht. destruct (Req_dec t 1) as [->|]; auto. apply Bel. lra. }
  exfalso. destruct (Op m M Pm) as (e & He & K). set (x := Rmin (m + e / 2) 1).
  assert (m < x) by (unfold x; apply Rmin_glb_lt; lra). assert (x <= 1) by apply Rmin_r. assert (x <= m + e / 2) by apply Rmin_l.
  assert (E x); [|assert (x <= m) by (apply U; auto); lra].
  split; [lra|]. intros s Hs. destruct (Rlt_le_dec s m); [apply Bel; lra|]. apply K. rewrite Rabs_pos_eq; lra.
Qed.

(** strict inequalities on a continuous function persist nearby *)
Lemma cont_lt f t k : continuity f -> f t < k -> exists e, 0 < e /\ forall s, Rabs (s - t) < e -> f s < k.
Proof.
  intros C H. destruct (C t (k - f t) ltac:(lra)) as (e & He & K). exists e. split; auto. intros s Hs.
  destruct (Req_dec t s) as [->|N]; auto.
  specialize (K s ltac:(split; [split; [exact I|exact N]|exact Hs])). cbn in K. unfold R_dist in K. apply Rabs_def2 in K. lra.
Qed.
Lemma cont_gt f t k : continuity f -> k < f t -> exists e, 0 < e /\ forall s, Rabs (s - t) < e -> k < f s.
Proof.
  intros C H. destruct (cont_lt (fun t => - f t) t (- k)) as (e & He & K); [now apply continuity_opp|lra|].
  exists e. split; auto. intros s Hs. specialize (K s Hs). lra.
Qed.
Definition nearby (P : R -> Prop) (t : R) : Prop := exists e, 0 < e /\ forall s, Rabs (s - t) < e -> P s.
Lemma nearby_and P Q t : nearby P t -> nearby Q t -> nearby (fun s => P s /\ Q s) t.
Proof.
  intros (e & He & H) (e' & He' & H'). exists (Rmin e e'). split; [now apply Rmin_glb_lt|]. intros s Hs.
  pose proof (Rmin_l e e'). pose proof (Rmin_r e e'). split; [apply H|apply H']; lra.
Qed.
Lemma nearby_impl (P Q : R -> Prop) t : nearby P t -> (forall s, P s -> Q s) -> nearby Q t.
Proof. intros (e & He & H) I. exists e. split; auto. Qed.

Lemma open_box_nearby f g a b c d t : continuity f -> continuity g -> a < f t < b /\ c < g t < d ->
  nearby (fun s => a < f s < b /\ c < g s < d) t.
Proof.
  intros F G [[H1 H2] [H3 H4]]. repeat apply nearby_and; [now apply cont_gt|now apply cont_lt|now apply cont_gt|now apply cont_lt].
Qed.
Lemma closed_box_nearby f g a b c d t : continuity f -> continuity g -> ~ (a <= f t <= b /\ c <= g t <= d) ->
  nearby (fun s => ~ (a <= f s <= b /\ c <= g s <= d)) t.
Proof.
  intros F G H.
  destruct (Rlt_le_dec (f t) a) as [H1|H1]; [eapply nearby_impl; [now apply (cont_lt f t a)|intros s Hs; cbn in Hs; lra]|].
  destruct (Rlt_le_dec b (f t)) as [H2|H2]; [eapply nearby_impl; [now apply (cont_gt f t b)|intros s Hs; cbn in Hs; lra]|].
  destruct (Rlt_le_dec (g t) c) as [H3|H3]; [eapply nearby_impl; [now apply (cont_lt g t c)|intros s Hs; cbn in Hs; lra]|].
  destruct (Rlt_le_dec d (g t)) as [H4|H4]; [eapply nearby_impl; [now apply (cont_gt g t d)|intros s Hs; cbn in Hs; lra]|].
  exfalso. apply H. lra.
Qed.

Lemma stays_inner rl hl gap c : world_ok rl hl gap -> curve c -> inner rl hl gap (c 0) ->
  (forall t, 0 <= t <= 1 -> ~ in_walls (hallway_walls rl hl gap) (c t)) ->
  forall t, 0 <= t <= 1 -> inner rl hl gap (c t).
Proof.
  intros W [F G] I0 H. apply (connected01 (fun t => inner rl hl gap (c t))); auto.
  - intros t Ht [I|[I|I]].
    + eapply nearby_impl; [apply (open_box_nearby _ _ _ _ _ _ t F G I)|]. intros s Hs. now left.
    + eapply nearby_impl; [apply (open_box_nearby _ _ _ _ _ _ t F G I)|]. intros s Hs. right; now left.
    + eapply nearby_impl; [apply (open_box_nearby _ _ _ _ _ _ t F G I)|]. intros s Hs. right; now right.
  - intros t Ht N.
    assert (K : ~ inner_closed rl hl gap (c t)).
    { intro K. destruct (inner_closure rl hl gap (c t) W K); [contradiction|now apply (H t Ht)]. }
    apply not_or_and in K. destruct K as [K1 K]. apply not_or_and in K. destruct K as [K2 K3].
    eapply nearby_impl; [apply nearby_and; [apply (closed_box_nearby _ _ _ _ _ _ t F G K1)|
      apply nearby_and; [apply (closed_box_nearby _ _ _ _ _ _ t F G K2)|apply (closed_box_nearby _ _ _ _ _ _ t F G K3)]]|].
    intros s (A1 & A2 & A3) [I|[I|I]]; [apply A1|apply A2|apply A3]; lra.
Qed.

(** from the middle of one room to the middle of the other *)
Definition centreline (rl hl t : R) : rpt := (- hl / 2 - rl / 2 + t * (hl + rl), rl / 2).

(** ** C107 *)

(** Inside their bounding rectangle the walls leave free exactly the rooms with the hallway and the
    two pockets between the rooms. *)
Theorem hallway_free_exact rl hl gap p : world_ok rl hl gap -> outline rl hl p ->
  (~ in_walls (hallway_walls rl hl gap) p <-> inner rl hl gap p \/ pocket rl hl gap p).
Proof.
  intros W [OX OY]. split.
  - intro N. rewrite walls_iff in N. cbn zeta in N. destruct W as (G & W & L).
    apply not_or_and in N. destruct N as [N1 N]. apply not_or_and in N. destruct N as [N2 N]. apply not_or_and in N. destruct N as [N3 N].
    apply not_or_and in N. destruct N as [N4 N]. apply not_or_and in N. destruct N as [N5 N]. apply not_or_and in N. destruct N as [N6 N7].
    set (x := fst p) in *. set (y := snd p) in *.
    assert (X1 : - hl / 2 - rl < x) by (destruct (Rlt_le_dec (- hl / 2 - rl) x); auto; exfalso; apply N3; lra).
    assert (X2 : x < hl / 2 + rl) by (destruct (Rlt_le_dec x (hl / 2 + rl)); auto; exfalso; apply N4; lra).
    destruct (Rlt_le_dec x (- hl / 2 - 5/100)) as [X3|X3].
    { left; left. fold x y.
      destruct (Rle_lt_dec y (5/100)); [exfalso; apply N1; split; [lra|left; lra]|].
      destruct (Rle_lt_dec (rl - 5/100) y); [exfalso; apply N1; split; [lra|right; lra]|]. lra. }
    destruct (Rlt_le_dec (hl / 2 + 5/100) x) as [X4|X4].
    { left; right; left. fold x y.
      destruct (Rle_lt_dec y (5/100)); [exfalso; apply N2; split; [lra|left; lra]|].
      destruct (Rle_lt_dec (rl - 5/100) y); [exfalso; apply N2; split; [lra|right; lra]|]. lra. }
    destruct (Rlt_le_dec (rl / 2 - gap / 2) y) as [Y1|Y1]; [destruct (Rlt_le_dec y (rl / 2 + gap / 2)) as [Y2|Y2]|].
    + left; right; right. fold x y. lra.
    + right. unfold pocket. fold x y.
      destruct (Rle_lt_dec x (- hl / 2 + 5/100)); [exfalso; apply N5; split; [lra|right; lra]|].
      destruct (Rle_lt_dec (hl / 2 - 5/100) x); [exfalso; apply N6; split; [lra|right; lra]|].
      split; [lra|right]. destruct (Rlt_le_dec (rl / 2 + gap / 2 + 1/10) y); auto. exfalso. apply N7. split; [lra|right; lra].
    + right. unfold pocket. fold x y.
      destruct (Rle_lt_dec x (- hl / 2 + 5/100)); [exfalso; apply N5; split; [lra|left; lra]|].
      destruct (Rle_lt_dec (hl / 2 - 5/100) x); [exfalso; apply N6; split; [lra|left; lra]|].
      split; [lra|left]. destruct (Rlt_le_dec y (rl / 2 - gap / 2 - 1/10)); auto. exfalso. apply N7. split; [lra|left; lra].
  - intros [I|[PX PY]]; [now apply inner_free|]. intro H. apply walls_iff in H. cbn zeta in H. destruct W as (G & W & L).
    destruct H as [(X & Y)|[(X & Y)|[(X & Y)|[(X & Y)|[(X & Y)|[(X & Y)|(X & [Y|Y])]]]]]]; lra.
Qed.

Print Assumptions hallway_free_exact.

(** The rooms and the hallway are closed off: a continuous motion of a point that starts there and
    touches no wall stays there; it never reaches the pockets or the outside. *)
Theorem hallway_enclosed rl hl gap c : world_ok rl hl gap -> curve c -> inner rl hl gap (c 0) ->
  (forall t, 0 <= t <= 1 -> ~ in_walls (hallway_walls rl hl gap) (c t)) ->
  forall t, 0 <= t <= 1 -> inner rl hl gap (c t).
Proof. apply stays_inner. Qed.
Print Assumptions hallway_enclosed.

(** hallway_manip() with one target, hallway_length 3, room_length 1.5, gap 0.3716 *)
Lemma manip_ok : world_ok (3/2) 3 (hallway_gap (target_sizes (1/5) []) (1/10)).
Proof. unfold world_ok, hallway_gap, target_sizes, lmax, max_object_size, min_object_size, BOT_RADIUS. cbn. lra. Qed.
Lemma manip_gap : hallway_gap (target_sizes (1/5) []) (1/10) = 3716/10000.
Proof. unfold hallway_gap, target_sizes, lmax, max_object_size, min_object_size, BOT_RADIUS. cbn. lra. Qed.

Example hallway_free_case :
  ~ in_walls (hallway_walls (3/2) 3 (3716/10000)) (0, 3/4) /\ in_walls (hallway_walls (3/2) 3 (3716/10000)) (0, 1) /\
  ~ in_walls (hallway_walls (3/2) 3 (3716/10000)) (0, 11/10).
Proof.
  pose proof manip_ok as W. rewrite manip_gap in W. split; [|split].
  - apply hallway_free_exact; auto; [unfold outline; cbn; lra|]. left. right; right. cbn. lra.
  - apply walls_iff. cbn zeta. do 6 right. cbn. split; [lra|right; lra].
  - apply hallway_free_exact; auto; [unfold outline; cbn; lra|]. right. unfold pocket. cbn. split; [lra|right; lra].
Qed.

Lemma line_continuous k m : continuity (fun t => k + t * m).
Proof. apply continuity_plus; [apply continuity_const; intros x y; reflexivity|]. apply continuity_mult; [apply derivable_continuous, derivable_id|apply continuity_const; intros x y; reflexivity]. Qed.
Lemma centreline_curve rl hl : curve (centreline rl hl).
Proof. split; [apply (line_continuous (- hl / 2 - rl / 2) (hl + rl))|apply continuity_const; intros x y; reflexivity]. Qed.

(** a motion through the hallway of hallway_manip() *)
Example hallway_enclosed_case : forall t, 0 <= t <= 1 -> inner (3/2) 3 (3716/10000) (centreline (3/2) 3 t).
Proof.
  pose proof manip_ok as W. rewrite manip_gap in W.
  assert (I : forall t, 0 <= t <= 1 -> inner (3/2) 3 (3716/10000) (centreline (3/2) 3 t)).
  { intros t Ht. right; right. unfold centreline. cbn [fst snd]. lra. }
  apply hallway_enclosed; auto; [apply centreline_curve|apply I; lra|]. intros t Ht. apply inner_free; auto.
Qed.

(** ** C108, C109: clearance *)
Definition room1 (hl : R) (p : rpt) : Prop := fst p <= - hl / 2.
Definition room2 (hl : R) (p : rpt) : Prop := hl / 2 <= fst p.

(** every configuration within delta of the curve is free *)
Definition clear_along (walls : list rect) (a b delta : R) (c : R -> rpt) : Prop :=
  forall t q, 0 <= t <= 1 -> sqrt ((fst q - fst (c t)) * (fst q - fst (c t)) + (snd q - snd (c t)) * (snd q - snd (c t))) <= delta ->
    body_free walls a b q.

Lemma norm_coord x y d : sqrt (x * x + y * y) <= d -> Rabs x <= d /\ Rabs y <= d.
Proof.
  intro H. split; (eapply Rle_trans; [|exact H]); rewrite <- sqrt_Rsqr_abs; unfold Rsqr; apply sqrt_le_1_alt; nra.
Qed.

(** The centreline between the rooms has clearance delta for every delta below half of what the body
    leaves of the gap, and no curve from one room to the other has more. *)
Theorem hallway_clearance rl hl gap a b delta : world_ok rl hl gap -> 0 <= a -> 0 <= b -> 0 <= delta ->
  (delta < (gap - 2 * b) / 2 -> a + delta < rl / 2 -> clear_along (hallway_walls rl hl gap) a b delta (centreline rl hl)) /\
  (forall c, curve c -> inner rl hl gap (c 0) -> room1 hl (c 0) -> room2 hl (c 1) ->
     clear_along (hallway_walls rl hl gap) a b delta c -> delta < (gap - 2 * b) / 2).
Proof.
  intros W A B D. split.
  - intros Dl S t q Ht Hq v Vx Vy. apply norm_coord in Hq. destruct Hq as [Q1 Q2]. unfold centreline in Q1, Q2. cbn [fst snd] in Q1, Q2.
    assert (Ab : forall z k, Rabs z <= k -> - k <= z <= k) by (intros z k Hz; pose proof (Rle_abs z); pose proof (Rle_abs (- z)); rewrite Rabs_Ropp in *; lra).
    apply Ab in Q1. apply Ab in Q2. apply Ab in Vx. apply Ab in Vy. destruct W as (Gp & Wd & Lh).
    assert (Tl : 0 <= t * (hl + rl) <= hl + rl) by nra.
    apply inner_free; [unfold world_ok; lra|]. right; right. lra.
  - intros c [F G] I0 R1 R2 Cl. pose proof W as (Gp & Wd & Lh).
    assert (Free : forall t, 0 <= t <= 1 -> ~ in_walls (hallway_walls rl hl gap) (c t)).
    { intros t Ht. apply (Cl t (c t) Ht).
      - replace (fst (c t) - fst (c t)) with 0 by ring. replace (snd (c t) - snd (c t)) with 0 by ring. replace (0 * 0 + 0 * 0) with 0 by ring. rewrite sqrt_0. auto.
      - replace (fst (c t) - fst (c t)) with 0 by ring. now rewrite Rabs_R0.
      - replace (snd (c t) - snd (c t)) with 0 by ring. now rewrite Rabs_R0. }
    pose proof (stays_inner rl hl gap c W (conj F G) I0 Free) as St.
    unfold room1, room2 in R1, R2.
    destruct (IVT_cor (fun t => fst (c t)) 0 1 F ltac:(lra) ltac:(nra)) as (t & Ht & Z). cbn in Z.
    specialize (St t Ht). assert (Y : rl / 2 - gap / 2 < snd (c t) < rl / 2 + gap / 2).
    { destruct St as [[X _]|[[X _]|[_ Y]]]; try lra. }
    assert (Hit : forall k, (k = rl / 2 + gap / 2 \/ k = rl / 2 - gap / 2) -> Rabs (k - snd (c t)) <= delta + b -> False).
    { intros k Hk Ha.
      set (e := if Rle_dec (Rabs (k - snd (c t))) delta then k - snd (c t) else if Rle_dec 0 (k - snd (c t)) then delta else - delta).
      assert (E1 : Rabs e <= delta) by (unfold e; repeat destruct (Rle_dec _ _); rewrite ?Rabs_Ropp, ?(Rabs_pos_eq delta) by auto; lra).
      assert (E2 : Rabs (k - (snd (c t) + e)) <= b).
      { unfold e. destruct (Rle_dec (Rabs (k - snd (c t))) delta) as [H1|H1]; [replace (k - (snd (c t) + (k - snd (c t)))) with 0 by ring; rewrite Rabs_R0; auto|].
        destruct (Rle_dec 0 (k - snd (c t))) as [H2|H2].
        - rewrite Rabs_pos_eq in Ha, H1 by auto. rewrite Rabs_pos_eq; lra.
        - rewrite Rabs_left in Ha, H1 by lra. rewrite Rabs_left1; lra. }
      apply (Cl t (fst (c t), snd (c t) + e) Ht) with (v := (0, k)); cbn [fst snd].
      - replace (fst (c t) - fst (c t)) with 0 by ring. replace (snd (c t) + e - snd (c t)) with e by ring.
        replace (0 * 0 + e * e) with (Rsqr e) by (unfold Rsqr; ring). rewrite sqrt_Rsqr_abs. auto.
      - rewrite Z. replace (0 - 0) with 0 by ring. rewrite Rabs_R0. auto.
      - auto.
      - apply walls_iff. cbn zeta. do 6 right. cbn [fst snd]. split; [lra|]. destruct Hk as [-> | ->]; [right|left]; lra. }
    destruct (Rlt_le_dec delta ((gap - 2 * b) / 2)) as [|H]; auto. exfalso.
    destruct (Rle_lt_dec (rl / 2) (snd (c t))).
    + apply (Hit (rl / 2 + gap / 2)); [now left|]. rewrite Rabs_pos_eq; lra.
    + apply (Hit (rl / 2 - gap / 2)); [now right|]. rewrite Rabs_left1; lra.
Qed.
Print Assumptions hallway_clearance.

(** in hallway_manip() with dd = 0.1 the largest target has clearance up to 0.05 in the hallway *)
Example hallway_clearance_case :
  clear_along (hallway_walls (3/2) 3 (3716/10000)) (1358/10000) (1358/10000) (4/100) (centreline (3/2) 3) /\
  forall c, curve c -> inner (3/2) 3 (3716/10000) (c 0) -> room1 3 (c 0) -> room2 3 (c 1) ->
    ~ clear_along (hallway_walls (3/2) 3 (3716/10000)) (1358/10000) (1358/10000) (6/100) c.
Proof.
  pose proof manip_ok as W. rewrite manip_gap in W. split.
  - apply hallway_clearance; auto; lra.
  - intros c C I R1 R2 H. pose proof (proj2 (hallway_clearance (3/2) 3 (3716/10000) (1358/10000) (1358/10000) (6/100) W ltac:(lra) ltac:(lra) ltac:(lra)) c C I R1 R2 H). lra.
Qed.

(** The sample count of the adaptive mode is computed from a clearance that no curve has; it is
    therefore at most the count for the true clearance. *)
Theorem adaptive_delta_unreachable rl hl gap ex c : world_ok rl hl gap -> 0 <= ex <= gap + 5/100 ->
  curve c -> inner rl hl gap (c 0) -> room1 hl (c 0) -> room2 hl (c 1) ->
  ~ clear_along (hallway_walls rl hl gap) (ex / 2) (ex / 2) (adaptive_delta gap ex) c.
Proof.
  intros W E C I R1 R2 H. set (d := adaptive_delta gap ex) in H. assert (D : d = gap - ex + 5/100) by (unfold d, adaptive_delta; lra).
  pose proof (proj2 (hallway_clearance rl hl gap (ex / 2) (ex / 2) d W ltac:(lra) ltac:(lra) ltac:(lra)) c C I R1 R2 H). lra.
Qed.
Print Assumptions adaptive_delta_unreachable.

Theorem adaptive_samples_too_few gap ex p v dim fuel fuel' z r : 0 <= ex <= gap -> 0 < p -> 0 < v -> (1000 <= fuel')%nat ->
  compute_numerical_bound ((gap - ex) / 2) p v dim None fuel = Some (Ret z, r) ->
  exists z' r', compute_numerical_bound (adaptive_delta gap ex) p v dim None fuel' = Some (Ret z', r') /\ (z' <= z)%Z.
Proof.
  intros E P V F H. apply (numerical_bound_monotone ((gap - ex) / 2) (adaptive_delta gap ex) p p v v None None dim fuel fuel' z r); auto; try lra.
  - unfold adaptive_delta. lra.
  - exact I.
Qed.
Print Assumptions adaptive_samples_too_few.

Example adaptive_samples_case : exists z r, compute_numerical_bound (adaptive_delta 3 1) (1/2) 2 1 None 1000 = Some (Ret z, r) /\ (z <= 30)%Z.
Proof.
  destruct numerical_bound_least_case as (m & r & E & Hm).
  destruct (adaptive_samples_too_few 3 1 (1/2) 2 1 1000 1000 m r) as (z & r' & E' & Z); try lra; [apply le_n| |exists z, r'; split; [exact E'|lia]].
  replace ((3 - 1) / 2) with 1 by lra. exact E.
Qed.

(** So in hallway_manip() a largest target passes the hallway with positive clearance, yet no curve
    has the clearance for which samples are counted; in hallway() the counted clearance is negative
    although the robot passes. *)
Theorem adaptive_delta_refuted : exists rl hl gap ex, world_ok rl hl gap /\ 0 < ex < gap /\
  clear_along (hallway_walls rl hl gap) (ex / 2) (ex / 2) (4/100) (centreline rl hl) /\
  4/100 < adaptive_delta gap ex /\
  forall c, curve c -> inner rl hl gap (c 0) -> room1 hl (c 0) -> room2 hl (c 1) ->
    ~ clear_along (hallway_walls rl hl gap) (ex / 2) (ex / 2) (adaptive_delta gap ex) c.
Proof.
  pose proof manip_ok as W. rewrite manip_gap in W.
  exists (3/2), 3, (3716/10000), (2716/10000). split; [auto|]. split; [lra|]. split; [apply hallway_clearance; auto; lra|].
  split; [unfold adaptive_delta; lra|]. intros c. apply adaptive_delta_unreachable; auto. lra.
Qed.
Print Assumptions adaptive_delta_refuted.

Theorem plain_hallway_delta_refuted : exists rl hl scale dd, let gap := hallway_gap_plain scale dd in let ex := 2 * (scale * BOT_RADIUS) in
  world_ok rl hl gap /\ clear_along (hallway_walls rl hl gap) (ex / 2) (ex / 2) (4/100) (centreline rl hl) /\
  adaptive_delta problem_gap_plain ex < 0.
Proof.
  exists 1, 3, (1/5), (1/10). cbn zeta.
  assert (G : hallway_gap_plain (1/5) (1/10) = 1716/10000) by (unfold hallway_gap_plain, BOT_RADIUS; lra). rewrite G.
  assert (E : 2 * (1 / 5 * BOT_RADIUS) = 716/10000) by (unfold BOT_RADIUS; lra). rewrite E.
  assert (W : world_ok 1 3 (1716/10000)) by (unfold world_ok; lra).
  split; auto. split; [apply hallway_clearance; auto; lra|]. unfold adaptive_delta, problem_gap_plain. lra.
Qed.
Print Assumptions plain_hallway_delta_refuted.
