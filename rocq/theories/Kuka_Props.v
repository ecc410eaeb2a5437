(** Properties of the kuka task domain and of the kuka commands. *)
From Coq Require Import Arith List Bool Lia.
From Verif Require Import Strips Kuka_Model.
Import ListNotations.

(** ** Specification *)
Record consistent (objects : list nat) (s : state) : Prop := {
  one_conf : exists q, s (AtConf q) = true /\ forall q', s (AtConf q') = true -> q' = q;
  hand : s HandEmpty = true <-> forall o g, s (AtGrasp o g) = false;
  one_grasp : forall o g o' g', s (AtGrasp o g) = true -> s (AtGrasp o' g') = true -> o = o' /\ g = g';
  somewhere : forall o, In o objects ->
    ((exists g, s (AtGrasp o g) = true) /\ forall p, s (AtPose o p) = false) \/
    ((forall g, s (AtGrasp o g) = false) /\ exists p, s (AtPose o p) = true /\ forall p', s (AtPose o p') = true -> p' = p)
}.
Definition is_move (a : action) : bool := match a with MoveFree _ _ _ | MoveHolding _ _ _ _ _ | MoveInsert _ _ _ _ _ => true | _ => false end.
Definition is_manip (a : action) : bool := match a with Pick _ _ _ _ | Place _ _ _ _ => true | _ => false end.

(** ** The domain as a machine *)
Record world := World { conf : nat; held : option (nat * nat); place : nat -> option nat; can : bool; clean : nat -> bool; cooked : nat -> bool }.
Definition upd {A} (f : nat -> A) (k : nat) (x : A) : nat -> A := fun k' => if k' =? k then x else f k'.
Definition free (w : world) (o : nat) : Prop := forall g, held w <> Some (o, g).
Inductive wstep (F : facts) : world -> action -> world -> Prop :=
| WFree q pl cl ck q2 t : FreeMotion F q t q2 = true ->
    wstep F (World q None pl true cl ck) (MoveFree q q2 t) (World q2 None pl false cl ck)
| WHolding q pl cl ck q2 o g t : HoldingMotion F q t q2 o g = true ->
    wstep F (World q (Some (o, g)) pl true cl ck) (MoveHolding q q2 o g t) (World q2 (Some (o, g)) pl false cl ck)
| WInsert q pl cl ck q2 o g t : InsertMotion F q t q2 o g = true ->
    wstep F (World q (Some (o, g)) pl true cl ck) (MoveInsert q q2 o g t) (World q2 (Some (o, g)) pl false cl ck)
| WPick q pl b cl ck o p g : Kin F o p g q = true -> pl o = Some p ->
    wstep F (World q None pl b cl ck) (Pick o p g q) (World q (Some (o, g)) pl true cl ck)
| WPlace q pl b cl ck o p g : Kin F o p g q = true ->
    wstep F (World q (Some (o, g)) pl b cl ck) (Place o p g q) (World q None (upd pl o (Some p)) true cl ck)
| WClean w o r p : Stackable F o r = true -> Sink F r = true -> In p (poses F) -> Supported F o p r = true -> place w o = Some p -> free w o ->
    wstep F w (Clean o r) (World (conf w) (held w) (place w) (can w) (upd (clean w) o true) (cooked w))
| WCook w o r p : Stackable F o r = true -> Stove F r = true -> In p (poses F) -> Supported F o p r = true -> place w o = Some p -> free w o -> clean w o = true ->
    wstep F w (Cook o r) (World (conf w) (held w) (place w) (can w) (upd (clean w) o false) (upd (cooked w) o true)).
Inductive wrun (F : facts) : world -> list action -> world -> Prop :=
| WDone w : wrun F w [] w
| WStep w a w1 plan w2 : wstep F w a w1 -> wrun F w1 plan w2 -> wrun F w (a :: plan) w2.
Record agrees (s : state) (w : world) : Prop := {
  ag_conf : forall q, s (AtConf q) = true <-> q = conf w;
  ag_hand : s HandEmpty = true <-> held w = None;
  ag_can : s CanMove = true <-> can w = true;
  ag_grasp : forall o g, s (AtGrasp o g) = true <-> held w = Some (o, g);
  ag_pose : forall o p, s (AtPose o p) = true <-> (free w o /\ place w o = Some p);
  ag_clean : forall o, s (Cleaned o) = true <-> clean w o = true;
  ag_cooked : forall o, s (Cooked o) = true <-> cooked w o = true
}.

Ltac eqbs := repeat match goal with
  | H : (_ =? _) = true |- _ => apply Nat.eqb_eq in H
  | H : (_ =? _) = false |- _ => apply Nat.eqb_neq in H
  | H : _ && _ = true |- _ => apply andb_true_iff in H; destruct H
  end.
Lemma fluent_eqb_eq a b : fluent_eqb a b = true <-> a = b.
Proof.
  destruct a, b; simpl; split; intro H; try congruence; eqbs; subst; auto; inversion H; subst; rewrite ?Nat.eqb_refl; auto.
Qed.
Lemma step_some F s a s' : step F s a = Some s' ->
  static_pre F s a = true /\ (forall f, In f (pre a) -> s f = true) /\ forall f, s' f = true <-> In f (adds a) \/ (s f = true /\ ~ In f (dels a)).
Proof.
  unfold step. destruct (static_pre F s a); simpl; [|discriminate]. unfold holds. destruct (forallb s (pre a)) eqn:E; [|discriminate].
  intro H. inversion H; subst. split; auto. split; [now apply forallb_forall|]. intro f. apply update_in. exact fluent_eqb_eq.
Qed.
Lemma on_spec F s w o r : agrees s w -> On F s o r = true <-> exists p, In p (poses F) /\ Supported F o p r = true /\ place w o = Some p /\ free w o.
Proof.
  intro A. unfold On. rewrite existsb_exists. split; intros (p & Hp & H); exists p.
  - eqbs. apply (ag_pose _ _ A) in H0. tauto.
  - split; auto. apply andb_true_iff. split; [tauto|]. apply (ag_pose _ _ A). tauto.
Qed.

Lemma agrees_update F s a s' w w' : agrees s w -> step F s a = Some s' -> wstep F w a w' -> agrees s' w'.
Proof.
  intros [A1 A2 A3 A4 A5 A6 A7] H W. apply step_some in H. destruct H as (_ & PR & UP).
  inversion W; subst; simpl in *; unfold free in *; simpl in *;
  (constructor; intros; rewrite UP; unfold free, upd; simpl;
   rewrite ?A1, ?A2, ?A3, ?A4, ?A5, ?A6, ?A7;
   repeat match goal with |- context [?x =? ?y] => destruct (x =? y) eqn:?; eqbs; subst end;
   try solve [intuition (try congruence)]).
Qed.

Lemma step_agrees F s w a : agrees s w ->
  (forall s', step F s a = Some s' -> exists w', wstep F w a w' /\ agrees s' w') /\
  (forall w', wstep F w a w' -> exists s', step F s a = Some s' /\ agrees s' w').
Proof.
  intro A. split.
  - intros s' H. pose proof H as H0. apply step_some in H0. destruct H0 as (SP & PR & _).
    assert (E : exists w', wstep F w a w').
    { pose proof A as [A1 A2 A3 A4 A5 A6 A7]. destruct w as [c h pl b cl ck].
      destruct a as [q1 q2 t|q1 q2 o g t|q1 q2 o g t|o p g q|o p g q|o r|o r]; simpl in SP, PR.
      - assert (E1 : q1 = c) by (apply A1; auto). assert (E2 : h = None) by (apply A2; auto). assert (E3 : b = true) by (apply A3; auto 6). subst. eexists. constructor. auto.
      - assert (E1 : q1 = c) by (apply A1; auto). assert (E2 : h = Some (o, g)) by (apply A4; auto). assert (E3 : b = true) by (apply A3; auto 6). subst. eexists. constructor. auto.
      - assert (E1 : q1 = c) by (apply A1; auto). assert (E2 : h = Some (o, g)) by (apply A4; auto). assert (E3 : b = true) by (apply A3; auto 6). subst. eexists. constructor. auto.
      - assert (E1 : s (AtPose o p) = true) by auto. apply A5 in E1. assert (E2 : h = None) by (apply A2; auto). assert (E3 : q = c) by (apply A1; auto 6). subst. eexists. constructor; auto. apply E1.
      - assert (E1 : h = Some (o, g)) by (apply A4; auto). assert (E3 : q = c) by (apply A1; auto). subst. eexists. constructor. auto.
      - eqbs. apply (on_spec F s _ o r A) in H1. destruct H1 as (p & P1 & P2 & P3 & P4). eexists. eapply WClean; eauto.
      - eqbs. apply (on_spec F s _ o r A) in H1. destruct H1 as (p & P1 & P2 & P3 & P4). eexists. eapply WCook; eauto. simpl. apply A6. auto. }
    destruct E as [w' W]. exists w'. split; auto. eapply agrees_update; eauto.
  - intros w' W. assert (E : exists s', step F s a = Some s').
    { unfold step. assert (static_pre F s a && holds fluent s (pre a) = true) as ->; [|eauto].
      unfold holds. apply andb_true_iff. rewrite forallb_forall. pose proof A as [A1 A2 A3 A4 A5 A6 A7].
      inversion W; subst; simpl in *.
      - split; auto. intros f [<-|[<-|[<-|[]]]]; [apply A1|apply A2|apply A3]; auto.
      - split; auto. intros f [<-|[<-|[<-|[]]]]; [apply A1|apply A4|apply A3]; auto.
      - split; auto. intros f [<-|[<-|[<-|[]]]]; [apply A1|apply A4|apply A3]; auto.
      - split; auto. intros f [<-|[<-|[<-|[]]]]; [apply A5|apply A2|apply A1]; auto. split; auto. unfold free. simpl. discriminate.
      - split; auto. intros f [<-|[<-|[]]]; [apply A4|apply A1]; auto.
      - split; [|tauto]. rewrite H, H0. simpl. apply (on_spec F s w o r A). eauto.
      - rewrite H, H0. simpl. split; [apply (on_spec F s w o r A); eauto|]. intros f [<-|[]]. now apply A6. }
    destruct E as [s' E]. exists s'. split; auto. eapply agrees_update; eauto.
Qed.

(** For any facts and any plan: the plan is executable in the planning domain iff the machine
    can run it, and the final states agree. *)
Theorem kuka_is_machine F s w plan : agrees s w ->
  (forall s', run F s plan = Some s' -> exists w', wrun F w plan w' /\ agrees s' w') /\
  (forall w', wrun F w plan w' -> exists s', run F s plan = Some s' /\ agrees s' w').
Proof.
  revert s w. induction plan as [|a plan IH]; intros s w A.
  - split; simpl.
    + intros s' H. inversion H; subst. exists w. split; [constructor|auto].
    + intros w' H. inversion H; subst. eauto.
  - destruct (step_agrees F s w a A) as [S1 S2]. split; simpl.
    + intros s' H. destruct (step F s a) as [s1|] eqn:E; [|discriminate]. destruct (S1 s1 eq_refl) as (w1 & W1 & A1).
      destruct (IH s1 w1 A1) as [I1 _]. destruct (I1 s' H) as (w' & W' & A'). exists w'. split; auto. econstructor; eauto.
    + intros w' H. inversion H; subst. destruct (S2 _ H3) as (s1 & -> & A1). destruct (IH s1 w1 A1) as [_ I2]. auto.
Qed.

(** ** The initial state *)
Definition look (l : list (nat * nat)) (o : nat) : option nat := option_map snd (find (fun x => o =? fst x) l).
Definition init_world (start : nat) (movable : list (nat * nat)) : world :=
  World start None (look movable) true (fun _ => false) (fun _ => false).
Lemma look_in l o p : NoDup (map fst l) -> look l o = Some p <-> In (o, p) l.
Proof.
  intros N. unfold look. destruct (find (fun x => o =? fst x) l) as [[o' p']|] eqn:E; simpl.
  - apply find_some in E. destruct E as [E1 E2]. simpl in E2. eqbs. subst o'. split; [intro H; inversion H; subst; auto|].
    clear -N E1. intro H. f_equal. revert E1 H. induction l as [|[a b] l IH]; simpl; [tauto|]. simpl in N. inversion N; subst.
    intros [E|E] [E'|E']; try (inversion E; subst); try (inversion E'; subst); auto.
    + elim H1. apply in_map_iff. exists (o, p). auto.
    + elim H1. apply in_map_iff. exists (o, p'). auto.
  - split; [discriminate|]. intro H. pose proof (find_none _ _ E _ H) as X. simpl in X. rewrite Nat.eqb_refl in X. discriminate.
Qed.
Lemma init_agrees start movable : NoDup (map fst movable) -> agrees (init_state start movable) (init_world start movable).
Proof.
  intro N. constructor; simpl; try (intuition discriminate); try tauto.
  - intro q. apply Nat.eqb_eq.
  - intros o p. rewrite (look_in movable o p N), existsb_exists. unfold free. simpl. split.
    + intros ([o' p'] & Hi & E). simpl in E. eqbs. subst. split; [discriminate|auto].
    + intros [_ Hi]. exists (o, p). split; auto. simpl. now rewrite !Nat.eqb_refl.
Qed.

Lemma wrun_known F plan : forall w w' o, wrun F w plan w' -> place w o <> None -> place w' o <> None.
Proof.
  induction plan as [|a plan IH]; intros w w' o W H; inversion W; subst; auto. eapply IH; eauto.
  inversion H3; subst; simpl in *; auto. unfold upd. destruct (o =? o0); auto. discriminate.
Qed.

(** From the problem's initial state every plan of any length keeps the world consistent. *)
Theorem kuka_consistent F start movable plan s : NoDup (map fst movable) ->
  run F (init_state start movable) plan = Some s -> consistent (map fst movable) s.
Proof.
  intros N H. destruct (proj1 (kuka_is_machine F _ _ plan (init_agrees start movable N)) s H) as (w & W & [A1 A2 A3 A4 A5 A6 A7]).
  constructor.
  - exists (conf w). split; [now apply A1|]. intros q' Hq. now apply A1.
  - rewrite A2. split.
    + intros E o g. apply not_true_iff_false. rewrite A4, E. discriminate.
    + intro E. destruct (held w) as [[o g]|] eqn:Eh; auto. specialize (E o g). rewrite (proj2 (A4 o g)) in E; congruence.
  - intros o g o' g' H1 H2. apply A4 in H1, H2. rewrite H1 in H2. inversion H2; auto.
  - intros o Ho. apply in_map_iff in Ho. destruct Ho as ([o' p] & E & Hi). simpl in E. subst o'. apply (look_in _ _ _ N) in Hi.
    assert (K : place w o <> None) by (eapply wrun_known; [exact W|]; simpl; congruence).
    assert (D : (exists g, held w = Some (o, g)) \/ free w o).
    { unfold free. destruct (held w) as [[o1 g]|]; [|right; discriminate]. destruct (Nat.eq_dec o1 o) as [->|]; [left; eauto|right; congruence]. }
    destruct D as [[g Hg]|Fr].
    + left. split; [exists g; now apply A4|]. intro p'. apply not_true_iff_false. rewrite A5. unfold free. intros [X _]. elim (X g). auto.
    + right. split; [intro g; apply not_true_iff_false; rewrite A4; auto|]. destruct (place w o) as [p'|] eqn:Ep; [|congruence].
      exists p'. split; [now apply A5|]. intros p2 H2. apply A5 in H2. destruct H2 as [_ H2]. congruence.
Qed.

(** ** Moves and manipulations *)
Lemma wrun_app F p1 : forall p2 w w2, wrun F w (p1 ++ p2) w2 <-> exists w1, wrun F w p1 w1 /\ wrun F w1 p2 w2.
Proof.
  induction p1 as [|a p1 IH]; intros p2 w w2; simpl.
  - split; [intro; exists w; split; [constructor|auto]|]. intros (w1 & H1 & H2). inversion H1; subst; auto.
  - split.
    + intro H. inversion H; subst. apply IH in H5. destruct H5 as (w1' & H1 & H2). exists w1'. split; auto. econstructor; eauto.
    + intros (w1 & H1 & H2). inversion H1; subst. econstructor; eauto. apply IH. eauto.
Qed.
Lemma after_move F w a w' : wstep F w a w' -> is_move a = true -> can w' = false.
Proof. intro W. inversion W; simpl; auto; discriminate. Qed.
Lemma stuck F mid : forall w w', wrun F w mid w' -> can w = false -> (forall a, In a mid -> is_manip a = false) -> can w' = false /\ held w' = held w.
Proof.
  induction mid as [|a mid IH]; intros w w' W C H; inversion W; subst; auto.
  assert (C1 : can w1 = false /\ held w1 = held w).
  { pose proof (H a (or_introl eq_refl)) as M. inversion H3; subst; simpl in *; auto; discriminate. }
  destruct C1 as [C1 C2]. rewrite <- C2. apply IH; auto. intros b Hb. apply H. right. auto.
Qed.
Lemma stuck_place F mid o g : forall w w', wrun F w mid w' -> held w = Some (o, g) -> can w = false ->
  (forall p q, ~ In (Place o p g q) mid) -> can w' = false.
Proof.
  induction mid as [|a mid IH]; intros w w' W Hh C N; inversion W; subst; auto.
  assert (C1 : can w1 = false /\ held w1 = Some (o, g)).
  { inversion H2; subst; simpl in *; auto; try discriminate. inversion Hh; subst. elim (N p q). auto. }
  destruct C1 as [C1 C2]. apply (IH w1); auto. intros p q Hi. apply (N p q). right. auto.
Qed.

(** Between two moves there is a pick or a place, in any plan from any state of the machine. *)
Theorem moves_separated F start movable p1 m1 mid m2 p2 s : NoDup (map fst movable) ->
  run F (init_state start movable) (p1 ++ m1 :: mid ++ m2 :: p2) = Some s -> is_move m1 = true -> is_move m2 = true ->
  exists a, In a mid /\ is_manip a = true.
Proof.
  intros N H M1 M2. destruct (proj1 (kuka_is_machine F _ _ _ (init_agrees start movable N)) s H) as (w & W & _).
  apply wrun_app in W. destruct W as (w1 & _ & W). inversion W; subst. apply wrun_app in H5. destruct H5 as (w3 & W3 & W4). inversion W4; subst.
  destruct (existsb is_manip mid) eqn:E; [apply existsb_exists in E; exact E|].
  assert (E' : forall a, In a mid -> is_manip a = false).
  { intros a Ha. apply not_true_iff_false. intro X. assert (existsb is_manip mid = true) by (apply existsb_exists; eauto). congruence. }
  destruct (stuck F mid _ _ W3 (after_move F _ _ _ H3 M1) E') as [C _]. inversion H4; subst; simpl in *; discriminate.
Qed.

(** After a move that carries an object, that object is put down before the next move. *)
Theorem carried_object_put_down F start movable p1 q1 q2 o g t mid m2 p2 m1 s : NoDup (map fst movable) ->
  m1 = MoveHolding q1 q2 o g t \/ m1 = MoveInsert q1 q2 o g t ->
  run F (init_state start movable) (p1 ++ m1 :: mid ++ m2 :: p2) = Some s -> is_move m2 = true ->
  exists p q, In (Place o p g q) mid.
Proof.
  intros N M1 H M2. destruct (proj1 (kuka_is_machine F _ _ _ (init_agrees start movable N)) s H) as (w & W & _).
  apply wrun_app in W. destruct W as (w1 & _ & W). inversion W; subst. apply wrun_app in H5. destruct H5 as (w3 & W3 & W4). inversion W4; subst.
  set (f := fun a => match a with Place o' _ g' _ => (o' =? o) && (g' =? g) | _ => false end).
  destruct (existsb f mid) eqn:E.
  - apply existsb_exists in E. destruct E as (a & Ha & Hf). destruct a; simpl in Hf; try discriminate. eqbs. subst. eauto.
  - exfalso. assert (E' : forall p q, ~ In (Place o p g q) mid).
    { intros p q Ha. assert (existsb f mid = true); [|congruence]. apply existsb_exists. exists (Place o p g q). split; auto. simpl. now rewrite !Nat.eqb_refl. }
    assert (C : held w2 = Some (o, g) /\ can w2 = false) by (destruct M1 as [-> | ->]; inversion H3; subst; simpl; auto).
    destruct C as [C1 C2]. pose proof (stuck_place F mid o g _ _ W3 C1 C2 E') as C. inversion H4; subst; simpl in *; discriminate.
Qed.

(** ** The kuka task: facts built by pddlstream_from_problem (run.py 325-392) and the streams *)
Record item := Item { obj : nat; grasp : nat; sink : nat; ipose : nat; prepose : nat; postpose : nat; iconf : nat; preconf : nat; postconf : nat }.
Definition movable_of (items : list item) : list (nat * nat) := map (fun it => (obj it, ipose it)) items.
Definition confs_of (start : nat) (items : list item) : list nat := start :: map iconf items ++ map preconf items ++ map postconf items.
Record task (F : facts) (start : nat) (items : list item) : Prop := {
  tk_objects : NoDup (map obj items);
  tk_confs : NoDup (confs_of start items);
  tk_poses : forall it, In it items -> ipose it <> prepose it /\ ipose it <> postpose it /\ prepose it <> postpose it;
  tk_kin : forall o p g q, Kin F o p g q = true <-> exists it, In it items /\ o = obj it /\ g = grasp it /\
    ((p = ipose it /\ q = iconf it) \/ (p = prepose it /\ q = preconf it) \/ (p = postpose it /\ q = postconf it));
  tk_sink : forall it, In it items -> Sink F (sink it) = true /\ Stackable F (obj it) (sink it) = true /\ In (postpose it) (poses F) /\ Supported F (obj it) (postpose it) (sink it) = true;
  tk_supported : forall o p r, Sink F r = true -> Supported F o p r = true -> exists it, In it items /\ o = obj it /\ p = postpose it;
  tk_holding : forall q1 t q2 o g, HoldingMotion F q1 t q2 o g = true -> In q2 (map preconf items);
  tk_insert : forall q1 t q2 o g, InsertMotion F q1 t q2 o g = true -> In q1 (map preconf items) /\ In q2 (map postconf items)
}.
(** every motion the streams are asked for exists *)
Record connected (F : facts) (start : nat) (items : list item) : Prop := {
  cn_free : forall q1 q2, In q1 (confs_of start items) -> In q2 (confs_of start items) -> exists t, FreeMotion F q1 t q2 = true;
  cn_holding : forall q1 it, In q1 (confs_of start items) -> In it items -> exists t, HoldingMotion F q1 t (preconf it) (obj it) (grasp it) = true;
  cn_insert : forall it, In it items -> exists t, InsertMotion F (preconf it) t (postconf it) (obj it) (grasp it) = true
}.

Lemma nodup_map_eq {A B} (f : A -> B) l x y : NoDup (map f l) -> In x l -> In y l -> f x = f y -> x = y.
Proof.
  induction l as [|a l IH]; simpl; [tauto|]. intros N Hx Hy E. inversion N; subst.
  destruct Hx as [->|Hx], Hy as [->|Hy]; auto; exfalso; apply H1; apply in_map_iff; eauto.
Qed.
Lemma NoDup_app_l {A} (l1 l2 : list A) : NoDup (l1 ++ l2) -> NoDup l1 /\ NoDup l2 /\ forall x, In x l1 -> In x l2 -> False.
Proof.
  induction l1 as [|a l IH]; simpl; intro N; [repeat split; auto; constructor|]. inversion N; subst. destruct (IH H2) as (I1 & I2 & I3).
  split; [constructor; auto; intro; apply H1; apply in_or_app; auto|]. split; auto. intros x [->|Hx] Hx2; [apply H1; apply in_or_app; auto|eauto].
Qed.

Section Task.
Variable F : facts.
Variable start : nat.
Variable items : list item.
Hypothesis TK : task F start items.

Lemma confs_split : ~ In start (map iconf items ++ map preconf items ++ map postconf items) /\ NoDup (map iconf items) /\ NoDup (map preconf items) /\ NoDup (map postconf items) /\
  (forall q, In q (map iconf items) -> In q (map preconf items) -> False) /\ (forall q, In q (map iconf items) -> In q (map postconf items) -> False) /\
  (forall q, In q (map preconf items) -> In q (map postconf items) -> False).
Proof.
  pose proof (tk_confs _ _ _ TK) as N. unfold confs_of in N. inversion N as [|? ? N1 N2]; subst. apply NoDup_app_l in N2. destruct N2 as (I1 & I2 & I3). apply NoDup_app_l in I2. destruct I2 as (J1 & J2 & J3).
  split; auto. repeat split; auto; intros; eapply I3; eauto; apply in_or_app; auto.
Qed.
Lemma same_obj it it' : In it items -> In it' items -> obj it = obj it' -> it = it'.
Proof. apply nodup_map_eq. apply TK. Qed.
Lemma in_iconf it : In it items -> In (iconf it) (map iconf items). Proof. apply in_map. Qed.
Lemma in_preconf it : In it items -> In (preconf it) (map preconf items). Proof. apply in_map. Qed.
Lemma in_postconf it : In it items -> In (postconf it) (map postconf items). Proof. apply in_map. Qed.

(** *** A plan *)
Definition solve_one (it : item) (q t1 t2 t3 : nat) : list action :=
  [MoveFree q (iconf it) t1; Pick (obj it) (ipose it) (grasp it) (iconf it); MoveHolding (iconf it) (preconf it) (obj it) (grasp it) t2;
   Place (obj it) (prepose it) (grasp it) (preconf it); Pick (obj it) (prepose it) (grasp it) (preconf it);
   MoveInsert (preconf it) (postconf it) (obj it) (grasp it) t3; Place (obj it) (postpose it) (grasp it) (postconf it); Clean (obj it) (sink it)].
Lemma upd_same {A} (f : nat -> A) k x : upd f k x k = x.
Proof. unfold upd. now rewrite Nat.eqb_refl. Qed.
Lemma upd_other {A} (f : nat -> A) k x k' : k' <> k -> upd f k x k' = f k'.
Proof. intro H. unfold upd. apply Nat.eqb_neq in H. now rewrite H. Qed.

Lemma solve_one_runs it q t1 t2 t3 pl cl ck : In it items -> pl (obj it) = Some (ipose it) -> FreeMotion F q t1 (iconf it) = true ->
  HoldingMotion F (iconf it) t2 (preconf it) (obj it) (grasp it) = true -> InsertMotion F (preconf it) t3 (postconf it) (obj it) (grasp it) = true ->
  wrun F (World q None pl true cl ck) (solve_one it q t1 t2 t3)
    (World (postconf it) None (upd (upd pl (obj it) (Some (prepose it))) (obj it) (Some (postpose it))) true (upd cl (obj it) true) ck).
Proof.
  intros Hi P M1 M2 M3. unfold solve_one. destruct (tk_sink _ _ _ TK it Hi) as (S1 & S2 & S3 & S4).
  econstructor; [constructor; auto|]. econstructor; [constructor; auto; apply (tk_kin _ _ _ TK); exists it; auto 10|].
  econstructor; [constructor; auto|]. econstructor; [constructor; apply (tk_kin _ _ _ TK); exists it; auto 10|].
  econstructor; [constructor; [apply (tk_kin _ _ _ TK); exists it; auto 10|apply upd_same]|].
  econstructor; [constructor; auto|]. econstructor; [constructor; apply (tk_kin _ _ _ TK); exists it; auto 10|].
  econstructor; [|constructor].
  match goal with |- wstep _ ?w _ _ => exact (WClean F w (obj it) (sink it) (postpose it) S2 S1 S3 S4 (upd_same _ _ _) (fun g => ltac:(discriminate))) end.
Qed.

Lemma solve_items : connected F start items -> forall l, incl l items -> NoDup (map obj l) -> forall q pl cl ck, In q (confs_of start items) ->
  (forall it, In it l -> pl (obj it) = Some (ipose it)) ->
  exists plan q' pl' cl', length plan = 8 * length l /\ In q' (confs_of start items) /\
    wrun F (World q None pl true cl ck) plan (World q' None pl' true cl' ck) /\
    (forall it, In it l -> cl' (obj it) = true) /\ (forall o, cl o = true -> cl' o = true).
Proof.
  intros [C1 C2 C3]. induction l as [|it l IH]; intros I N q pl cl ck Hq P.
  - exists [], q, pl, cl. split; [reflexivity|]. split; [exact Hq|]. split; [constructor|]. split; [intros it []|auto].
  - assert (Hi : In it items) by (apply I; left; auto). simpl in N. inversion N as [|? ? N1 N2]; subst.
    assert (Q1 : In (iconf it) (confs_of start items)) by (right; apply in_or_app; left; now apply in_iconf).
    assert (Q3 : In (postconf it) (confs_of start items)) by (right; apply in_or_app; right; apply in_or_app; right; now apply in_postconf).
    destruct (C1 q (iconf it) Hq Q1) as (t1 & M1). destruct (C2 _ it Q1 Hi) as (t2 & M2). destruct (C3 it Hi) as (t3 & M3).
    pose proof (solve_one_runs it q t1 t2 t3 pl cl ck Hi (P it (or_introl eq_refl)) M1 M2 M3) as W1.
    set (pl1 := upd (upd pl (obj it) (Some (prepose it))) (obj it) (Some (postpose it))) in *. set (cl1 := upd cl (obj it) true) in *.
    destruct (IH (fun x Hx => I x (or_intror Hx)) N2 (postconf it) pl1 cl1 ck Q3) as (plan & q' & pl' & cl' & L & Hq' & W & G & K).
    { intros it' Hi'. unfold pl1. assert (obj it' <> obj it) by (intro E; apply N1; rewrite <- E; now apply in_map). rewrite !upd_other by auto. apply P. right. auto. }
    exists (solve_one it q t1 t2 t3 ++ plan), q', pl', cl'. split; [rewrite app_length, L; simpl length; lia|]. split; auto. split; [apply wrun_app; eauto|]. split.
    + intros it' [<-|Hi']; auto. apply K. unfold cl1. apply upd_same.
    + intros o Ho. apply K. unfold cl1, upd. destruct (o =? obj it); auto.
Qed.
End Task.

(** If every requested motion exists, the task with n objects has a plan of 8 n + 1 actions. *)
Theorem kuka_solvable F start items : task F start items -> connected F start items ->
  exists plan s, length plan = 8 * length items + 1 /\ run F (init_state start (movable_of items)) plan = Some s /\
    goal_reached start (movable_of items) s = true.
Proof.
  intros TK CN. assert (N : map fst (movable_of items) = map obj items) by (unfold movable_of; now rewrite map_map).
  assert (ND : NoDup (map fst (movable_of items))) by (rewrite N; apply TK).
  destruct (solve_items F start items TK CN items (fun x H => H) (tk_objects _ _ _ TK) start (look (movable_of items)) (fun _ => false) (fun _ => false)) as (plan & q' & pl' & cl' & L & Hq & W & G & _).
  { left. auto. }
  { intros it Hi. apply look_in; auto. unfold movable_of. apply in_map_iff. eauto. }
  destruct (cn_free _ _ _ CN q' start Hq (or_introl eq_refl)) as (t & M).
  assert (W' : wrun F (init_world start (movable_of items)) (plan ++ [MoveFree q' start t]) (World start None pl' false cl' (fun _ => false))).
  { apply wrun_app. eexists. split; [exact W|]. econstructor; [constructor; exact M|constructor]. }
  destruct (proj2 (kuka_is_machine F _ _ _ (init_agrees start (movable_of items) ND)) _ W') as (s & Hs & A).
  exists (plan ++ [MoveFree q' start t]), s. split; [rewrite app_length, L; simpl; lia|]. split; auto.
  unfold goal_reached. apply andb_true_iff. split; [apply (ag_conf _ _ A); reflexivity|]. apply forallb_forall. intros x Hx. unfold movable_of in Hx.
  apply in_map_iff in Hx. destruct Hx as (it & <- & Hi). simpl. apply (ag_clean _ _ A). simpl. auto.
Qed.

(** ** No shorter plan *)
Inductive label := L (o k : nat) | Home.
Section Labels.
Variable items : list item.
Definition mem_conf (f : item -> nat) (q : nat) : bool := existsb (fun it => f it =? q) items.
Definition tag (a : action) : label :=
  match a with
  | MoveFree _ q2 _ => match find (fun it => iconf it =? q2) items with Some it => L (obj it) 0 | None => Home end
  | Pick o _ _ q => if mem_conf iconf q then L o 1 else if mem_conf preconf q then L o 4 else L o 8
  | MoveHolding _ _ o _ _ => L o 2
  | Place o _ _ q => if mem_conf preconf q then L o 3 else if mem_conf postconf q then L o 6 else L o 8
  | MoveInsert _ _ o _ _ => L o 5
  | Clean o _ => L o 7
  | Cook o _ => L o 8
  end.
End Labels.
Lemma mem_conf_in items f q : mem_conf items f q = true <-> In q (map f items).
Proof.
  unfold mem_conf. rewrite existsb_exists, in_map_iff. split; intros (it & H1 & H2); exists it; eqbs; auto. split; auto. now apply Nat.eqb_eq.
Qed.

Section Optimal.
Variable F : facts.
Variable start : nat.
Variable items : list item.
Hypothesis TK : task F start items.
Variable it : item.
Hypothesis Hit : In it items.
Notation tag := (tag items).

Definition has (T : list label) (n : nat) : Prop := forall k, k < n -> In (L (obj it) k) T.
Lemma has_mono T T' n : incl T T' -> has T n -> has T' n. Proof. intros I H k Hk. auto. Qed.
Lemma has_S T n : has T n -> In (L (obj it) n) T -> has T (S n).
Proof. intros H H1 k Hk. destruct (Nat.eq_dec k n) as [->|]; auto. apply H. lia. Qed.
Lemma has_le T n m : has T n -> m <= n -> has T m. Proof. intros H H1 k Hk. apply H. lia. Qed.

Inductive phase (T : list label) (w : world) : Prop :=
| PA : free w (obj it) -> place w (obj it) = Some (ipose it) -> phase T w
| PB g : held w = Some (obj it, g) -> conf w = iconf it -> has T 2 -> phase T w
| PC g : held w = Some (obj it, g) -> In (conf w) (map preconf items) -> can w = false -> has T 3 -> phase T w
| PD : free w (obj it) -> place w (obj it) = Some (prepose it) -> has T 4 -> phase T w
| PE g : held w = Some (obj it, g) -> In (conf w) (map preconf items) -> has T 5 -> phase T w
| PG g : held w = Some (obj it, g) -> In (conf w) (map postconf items) -> has T 6 -> phase T w
| PH : free w (obj it) -> place w (obj it) = Some (postpose it) -> has T 7 -> phase T w.
Record inv (T : list label) (w : world) : Prop := {
  inv_phase : phase T w;
  inv_conf : conf w = iconf it -> In (L (obj it) 0) T;
  inv_clean : clean w (obj it) = true -> has T 8
}.

Lemma kin_it p g q : Kin F (obj it) p g q = true -> (p = ipose it /\ q = iconf it) \/ (p = prepose it /\ q = preconf it) \/ (p = postpose it /\ q = postconf it).
Proof.
  intro K. apply (tk_kin _ _ _ TK) in K. destruct K as (it' & Hi & E & _ & K). assert (it' = it) by (symmetry; eapply same_obj; eauto). subst. auto.
Qed.
Lemma phase_mono T T' w : incl T T' -> phase T w -> phase T' w.
Proof.
  intros I P. destruct P; [eapply PA|eapply PB|eapply PC|eapply PD|eapply PE|eapply PG|eapply PH]; eauto using has_mono.
Qed.
Lemma phase_same T w w' : (free w (obj it) -> free w' (obj it)) -> (forall g, held w = Some (obj it, g) -> held w' = Some (obj it, g) /\ conf w' = conf w /\ (can w = false -> can w' = false)) ->
  place w' (obj it) = place w (obj it) -> phase T w -> phase T w'.
Proof.
  intros Hf Hh Hp P. destruct P as [H1 H2|g H1 H2 H3|g H1 H2 H3 H4|H1 H2 H3|g H1 H2 H3|g H1 H2 H3|H1 H2 H3].
  - apply PA; congruence || auto.
  - destruct (Hh g H1) as (E1 & E2 & E3). eapply PB; eauto. congruence.
  - destruct (Hh g H1) as (E1 & E2 & E3). eapply PC; eauto. congruence.
  - apply PD; congruence || auto.
  - destruct (Hh g H1) as (E1 & E2 & E3). eapply PE; eauto. congruence.
  - destruct (Hh g H1) as (E1 & E2 & E3). eapply PG; eauto. congruence.
  - apply PH; congruence || auto.
Qed.
Lemma conf_pre : In (preconf it) (map preconf items). Proof. now apply in_map. Qed.
Lemma conf_post : In (postconf it) (map postconf items). Proof. now apply in_map. Qed.
Lemma conf_i : In (iconf it) (map iconf items). Proof. now apply in_map. Qed.

Lemma inv_step T w a w' : inv T w -> wstep F w a w' -> inv (T ++ [tag a]) w'.
Proof.
  intros [P IC ICl] W. destruct (confs_split F start items TK) as (S0 & S1 & S2 & S3 & S4 & S5 & S6).
  assert (Ti : incl T (T ++ [tag a])) by (intros x Hx; apply in_or_app; auto).
  assert (Ta : In (tag a) (T ++ [tag a])) by (apply in_or_app; simpl; auto).
  revert Ti Ta. generalize (T ++ [tag a]). intros T' Ti Ta.
  destruct (tk_poses _ _ _ TK it Hit) as (D1 & D2 & D3).
  inversion W; subst.
  - (* MoveFree *)
    constructor; simpl in *.
    + eapply phase_mono; [exact Ti|]. eapply phase_same; [| | |exact P]; simpl; auto. discriminate.
    + intros ->. destruct (find (fun i => iconf i =? iconf it) items) as [it'|] eqn:E.
      * apply find_some in E. destruct E as [E1 E2]. eqbs. assert (it' = it) by (eapply (nodup_map_eq iconf); eauto). subst. auto.
      * pose proof (find_none _ _ E _ Hit) as X. simpl in X. rewrite Nat.eqb_refl in X. discriminate.
    + intro C. eapply has_mono; eauto.
  - (* MoveHolding *)
    pose proof (tk_holding _ _ _ TK _ _ _ _ _ H) as Q. constructor; simpl in *.
    + destruct (Nat.eq_dec o (obj it)) as [->|No].
      * destruct P as [H1 H2|g' H1 H2 H3|g' H1 H2 H3 H4|H1 H2 H3|g' H1 H2 H3|g' H1 H2 H3|H1 H2 H3]; simpl in *; try (elim (H1 g); reflexivity); try discriminate.
        -- eapply PC; simpl; eauto. apply has_S; eauto using has_mono.
        -- eapply PE; simpl; eauto using has_mono.
        -- eapply PE; simpl; eauto. eapply has_le; [eapply has_mono; eauto|lia].
      * eapply phase_mono; [exact Ti|]. eapply phase_same; [| | |exact P]; simpl; auto. intros g' E. congruence.
    + intros ->. exfalso. eapply S4; eauto using conf_i.
    + intro C. eapply has_mono; eauto.
  - (* MoveInsert *)
    destruct (tk_insert _ _ _ TK _ _ _ _ _ H) as [Q Q2]. constructor; simpl in *.
    + destruct (Nat.eq_dec o (obj it)) as [->|No].
      * destruct P as [H1 H2|g' H1 H2 H3|g' H1 H2 H3 H4|H1 H2 H3|g' H1 H2 H3|g' H1 H2 H3|H1 H2 H3]; simpl in *; try (elim (H1 g); reflexivity); try discriminate.
        -- subst q. exfalso. eapply S4; eauto using conf_i.
        -- eapply PG; simpl; eauto. apply has_S; eauto using has_mono.
        -- exfalso. eapply S6; eauto.
      * eapply phase_mono; [exact Ti|]. eapply phase_same; [| | |exact P]; simpl; auto. intros g' E. congruence.
    + intros ->. exfalso. eapply S5; eauto using conf_i.
    + intro C. eapply has_mono; eauto.
  - (* Pick *)
    constructor; simpl in *; auto.
    + destruct (Nat.eq_dec o (obj it)) as [->|No].
      * destruct P as [H1 H2|g' H1 H2 H3|g' H1 H2 H3 H4|H1 H2 H3|g' H1 H2 H3|g' H1 H2 H3|H1 H2 H3]; simpl in *; try discriminate;
          rewrite H0 in H2; inversion H2; subst p; destruct (kin_it _ _ _ H) as [[E1 E2]|[[E1 E2]|[E1 E2]]]; try congruence; subst q.
        -- eapply PB; simpl; eauto. rewrite (proj2 (mem_conf_in items iconf _) conf_i) in Ta.
           intros k Hk. destruct k as [|[|k]]; [apply Ti; auto|auto|lia].
        -- eapply PE; simpl; eauto using conf_pre. destruct (mem_conf items iconf (preconf it)) eqn:E; [apply mem_conf_in in E; exfalso; eapply S4; eauto using conf_pre|].
           rewrite (proj2 (mem_conf_in items preconf _) conf_pre) in Ta. apply has_S; auto. eauto using has_mono.
        -- eapply PG; simpl; eauto using conf_post. eapply has_le; [eapply has_mono; eauto|lia].
      * eapply phase_mono; [exact Ti|]. eapply phase_same; [| | |exact P]; simpl; auto; [|discriminate]. unfold free. simpl. congruence.
    + intro C. eapply has_mono; eauto.
  - (* Place *)
    constructor; simpl in *; auto.
    + destruct (Nat.eq_dec o (obj it)) as [->|No].
      * assert (Fr : forall pl b c k, free (World q None pl b c k) (obj it)) by (intros; unfold free; simpl; discriminate).
        destruct P as [H1 H2|g' H1 H2 H3|g' H1 H2 H3 H4|H1 H2 H3|g' H1 H2 H3|g' H1 H2 H3|H1 H2 H3]; simpl in *; try (elim (H1 g); reflexivity);
          destruct (kin_it _ _ _ H) as [[E1 E2]|[[E1 E2]|[E1 E2]]]; subst p;
          try solve [exfalso; first [apply (S4 q); solve [assumption|rewrite E2; auto using conf_i, conf_pre, conf_post|rewrite H2; auto using conf_i]|apply (S5 q); solve [assumption|rewrite E2; auto using conf_i, conf_pre, conf_post|rewrite H2; auto using conf_i]|apply (S6 q); solve [assumption|rewrite E2; auto using conf_i, conf_pre, conf_post|rewrite H2; auto using conf_i]]].
        -- apply PA; simpl; auto. apply upd_same.
        -- rewrite E2, (proj2 (mem_conf_in items preconf _) conf_pre) in Ta. apply PD; simpl; auto; [apply upd_same|]. apply has_S; eauto using has_mono.
        -- rewrite E2, (proj2 (mem_conf_in items preconf _) conf_pre) in Ta. apply PD; simpl; auto; [apply upd_same|]. eapply has_le; [eapply has_mono; eauto|lia].
        -- destruct (mem_conf items preconf q) eqn:E; [apply mem_conf_in in E; exfalso; eapply S6; eauto|].
           rewrite E2, (proj2 (mem_conf_in items postconf _) conf_post) in Ta. apply PH; simpl; auto; [apply upd_same|]. apply has_S; eauto using has_mono.
      * eapply phase_mono; [exact Ti|]. eapply phase_same; [| | |exact P]; simpl; [unfold free; simpl; discriminate|congruence|]. apply upd_other. auto.
    + intro C. eapply has_mono; eauto.
  - (* Clean *)
    constructor; simpl in *; auto.
    + eapply phase_mono; [exact Ti|]. eapply phase_same; [| | |exact P]; simpl; auto.
    + unfold upd. destruct (obj it =? o) eqn:E; [|intro C; eapply has_mono; eauto]. intros _. eqbs. subst o.
      destruct (tk_supported _ _ _ TK _ _ _ H0 H2) as (it' & Hi & E1 & E2). assert (it' = it) by (symmetry; eapply same_obj; eauto). subst it'.
      destruct P as [P1 P2|g' P1 P2 P3|g' P1 P2 P3 P4|P1 P2 P3|g' P1 P2 P3|g' P1 P2 P3|P1 P2 P3]; try (elim (H4 g'); assumption); rewrite H3 in P2; inversion P2; try congruence.
      apply has_S; eauto using has_mono.
  - (* Cook *)
    constructor; simpl in *; auto.
    + eapply phase_mono; [exact Ti|]. eapply phase_same; [| | |exact P]; simpl; auto.
    + unfold upd. destruct (obj it =? o); [discriminate|]. intro C. eapply has_mono; eauto.
Qed.

Lemma inv_run plan : forall T w w', inv T w -> wrun F w plan w' -> inv (T ++ map tag plan) w'.
Proof.
  induction plan as [|a plan IH]; intros T w w' I W; inversion W; subst.
  - rewrite app_nil_r. auto.
  - simpl. replace (T ++ tag a :: map tag plan) with ((T ++ [tag a]) ++ map tag plan) by (rewrite <- app_assoc; auto). eapply IH; eauto using inv_step.
Qed.
Lemma inv_init : inv [] (init_world start (movable_of items)).
Proof.
  assert (N : NoDup (map fst (movable_of items))) by (unfold movable_of; rewrite map_map; apply TK).
  constructor; simpl; [|intro E|discriminate].
  - apply PA; simpl; [unfold free; simpl; discriminate|]. apply look_in; auto. unfold movable_of. apply in_map_iff. eauto.
  - destruct (confs_split F start items TK) as (S0 & _). exfalso. apply S0. apply in_or_app. left. rewrite E. apply conf_i.
Qed.
End Optimal.

Lemma home_step F start items w a w' : task F start items -> wstep F w a w' -> conf w' = start -> conf w = start \/ tag items a = Home.
Proof.
  intros TK W E. destruct (confs_split F start items TK) as (S0 & _).
  inversion W; subst; simpl in *; auto.
  - right. destruct (find (fun i => iconf i =? q2) items) as [it'|] eqn:Ef; auto. apply find_some in Ef. destruct Ef as [E1 E2]. eqbs. exfalso. apply S0. apply in_or_app. left. rewrite <- E2. now apply in_map.
  - exfalso. apply S0. apply in_or_app. right. apply in_or_app. left. eapply tk_holding; eauto.
  - exfalso. apply S0. apply in_or_app. right. apply in_or_app. right. eapply tk_insert; eauto.
Qed.
Lemma home_run F start items plan : task F start items -> forall w w', wrun F w plan w' -> conf w' = start -> conf w = start \/ In Home (map (tag items) plan).
Proof.
  intro TK. induction plan as [|a plan IH]; intros w w' W E; inversion W; subst; auto. simpl.
  destruct (IH _ _ H4 eq_refl) as [E1|E1]; auto. destruct (home_step _ _ _ _ _ _ TK H2 E1) as [|E2]; auto.
Qed.
(** a move to an item's configuration leaves the start *)
Lemma left_start F start items plan it : task F start items -> In it items -> forall w w', wrun F w plan w' -> conf w' = start -> In (L (obj it) 0) (map (tag items) plan) -> In Home (map (tag items) plan).
Proof.
  intros TK Hi. induction plan as [|a plan IH]; intros w w' W E Hl; inversion W; subst; [inversion Hl|]. simpl in *.
  destruct Hl as [Hl|Hl]; [|right; eapply IH; eauto].
  destruct (home_run _ _ _ _ TK _ _ H4 eq_refl) as [E1|]; auto.
  destruct a as [q1 q2 t|? ? ? ? ?|? ? ? ? ?|? ? ? q|? ? ? q|? ?|? ?]; simpl in Hl |- *; try discriminate;
    try (destruct (mem_conf items iconf q), (mem_conf items preconf q); discriminate);
    try (destruct (mem_conf items preconf q), (mem_conf items postconf q); discriminate).
  destruct (find (fun i => iconf i =? q2) items) as [it'|] eqn:Ef; auto.
  apply find_some in Ef. destruct Ef as [F1 F2]. eqbs. inversion H2; subst. simpl in E1.
  destruct (confs_split F (conf w') items TK) as (S0 & _). exfalso. apply S0. apply in_or_app. left. rewrite <- E1. now apply in_map.
Qed.

(** Every plan that solves the task with n > 0 objects has at least 8 n + 1 actions. *)
Theorem kuka_needs F start items plan s : task F start items -> items <> [] ->
  run F (init_state start (movable_of items)) plan = Some s -> goal_reached start (movable_of items) s = true ->
  8 * length items + 1 <= length plan.
Proof.
  intros TK NE H G. assert (ND : NoDup (map fst (movable_of items))) by (unfold movable_of; rewrite map_map; apply TK).
  destruct (proj1 (kuka_is_machine F _ _ _ (init_agrees start (movable_of items) ND)) s H) as (w & W & A).
  unfold goal_reached in G. apply andb_true_iff in G. destruct G as [G1 G2]. apply (ag_conf _ _ A) in G1. rewrite forallb_forall in G2.
  assert (Hh : forall it, In it items -> has it (map (tag items) plan) 8).
  { intros it Hi. pose proof (inv_run F start items TK it Hi plan [] _ _ (inv_init F start items TK it Hi) W) as I. apply (inv_clean _ _ _ _ I).
    apply (ag_clean _ _ A). apply (G2 (obj it, ipose it)). unfold movable_of. apply in_map_iff. eauto. }
  set (R := flat_map (fun it => map (L (obj it)) (seq 0 8)) items).
  assert (Lr : length R = 8 * length items).
  { unfold R. clear. induction items as [|it l IH]; auto. cbn [flat_map]. rewrite app_length, IH, map_length, seq_length. cbn [length]. lia. }
  assert (Nr : NoDup (Home :: R)).
  { constructor.
    - unfold R. intro X. apply in_flat_map in X. destruct X as (it & _ & X). apply in_map_iff in X. destruct X as (k & X & _). discriminate.
    - unfold R. pose proof (tk_objects _ _ _ TK) as N. clear -N. induction items as [|it l IH]; [constructor|]. inversion N; subst. cbn [flat_map].
      assert (NA : forall (A : Type) (l1 l2 : list A), NoDup l1 -> NoDup l2 -> (forall x, In x l1 -> ~ In x l2) -> NoDup (l1 ++ l2)).
      { intros A l1 l2. induction l1 as [|a l1 I1]; simpl; auto. intros Q1 Q2 Q3. inversion Q1; subst. constructor; [|apply I1; auto]. intro X. apply in_app_or in X. destruct X as [X|X]; [auto|eapply Q3; eauto]. }
      apply NA; auto.
      + cbn [seq map]. repeat constructor; simpl; intuition discriminate.
      + intros x Hx X. apply in_map_iff in Hx. destruct Hx as (k & <- & _). apply in_flat_map in X. destruct X as (it' & Hi' & X). apply in_map_iff in X. destruct X as (k' & X & _).
        inversion X. apply H1. rewrite <- H0. now apply in_map. }
  assert (Ir : incl (Home :: R) (map (tag items) plan)).
  { intros x [<-|Hx].
    - destruct items as [|it l] eqn:Ei; [congruence|]. assert (Hi : In it (it :: l)) by (left; auto). eapply left_start; eauto. apply Hh; auto. lia.
    - unfold R in Hx. apply in_flat_map in Hx. destruct Hx as (it & Hi & Hx). apply in_map_iff in Hx. destruct Hx as (k & <- & Hk). apply in_seq in Hk. apply Hh; auto. lia. }
  apply NoDup_incl_length in Ir; auto. rewrite map_length in Ir. simpl length in Ir. lia.
Qed.

(** In every plan that cleans an object, the object is released at a pre-insertion
    configuration, at a pose that no sink supports, and picked up again from there. *)
Theorem insertion_releases F start items plan s it : task F start items -> In it items ->
  run F (init_state start (movable_of items)) plan = Some s -> s (Cleaned (obj it)) = true ->
  (exists p g q, In (Place (obj it) p g q) plan /\ In q (map preconf items) /\ p <> postpose it) /\ (exists p g q, In (Pick (obj it) p g q) plan /\ In q (map preconf items)).
Proof.
  intros TK Hi H G. assert (ND : NoDup (map fst (movable_of items))) by (unfold movable_of; rewrite map_map; apply TK).
  destruct (proj1 (kuka_is_machine F _ _ _ (init_agrees start (movable_of items) ND)) s H) as (w & W & A).
  pose proof (inv_run F start items TK it Hi plan [] _ _ (inv_init F start items TK it Hi) W) as I. apply (ag_clean _ _ A) in G.
  pose proof (inv_clean _ _ _ _ I G) as Hh. simpl in Hh. destruct (confs_split F start items TK) as (S0 & S1 & S2 & S3 & S4 & S5 & S6).
  assert (Kp : forall p g q, In (Place (obj it) p g q) plan -> Kin F (obj it) p g q = true).
  { clear -W. intros p g q Hi. revert W Hi. generalize (init_world start (movable_of items)). induction plan as [|a plan IH]; intros w0 W Hi; [inversion Hi|]. inversion W; subst. destruct Hi as [->|Hi]; [inversion H2; subst; auto|eauto]. }
  split.
  - pose proof (Hh 3 ltac:(lia)) as X. apply in_map_iff in X. destruct X as (a & E & Ha).
    destruct a as [q1 q2 t|? ? ? ? ?|? ? ? ? ?|? ? ? q|o p g q|? ?|? ?]; simpl in E; try discriminate.
    + destruct (find _ items); discriminate.
    + destruct (mem_conf items iconf q), (mem_conf items preconf q); discriminate.
    + destruct (mem_conf items preconf q) eqn:Eq; [|destruct (mem_conf items postconf q); discriminate]. injection E as ->.
      apply mem_conf_in in Eq. exists p, g, q. split; auto. split; auto. intros ->.
      destruct (kin_it F start items TK it Hi _ _ _ (Kp _ _ _ Ha)) as [[E1 E2]|[[E1 E2]|[E1 E2]]]; subst.
      * eapply S4; eauto. now apply in_map.
      * destruct (tk_poses _ _ _ TK it Hi) as (_ & _ & D). auto.
      * eapply S6; eauto. now apply in_map.
  - pose proof (Hh 4 ltac:(lia)) as X. apply in_map_iff in X. destruct X as (a & E & Ha).
    destruct a as [q1 q2 t|? ? ? ? ?|? ? ? ? ?|o p g q|? ? ? q|? ?|? ?]; simpl in E; try discriminate.
    + destruct (find _ items); discriminate.
    + destruct (mem_conf items iconf q); [discriminate|]. destruct (mem_conf items preconf q) eqn:Eq; [|discriminate]. injection E as ->. apply mem_conf_in in Eq. eauto 6.
    + destruct (mem_conf items preconf q), (mem_conf items postconf q); discriminate.
Qed.

(** ** Commands *)
Section Commands.
Variables Conf Joints Attachment : Type.
Notation body_path := (body_path Conf Joints Attachment).

Lemma path_reverse_twice (b : body_path) : path_reverse _ _ _ (path_reverse _ _ _ b) = b.
Proof. destruct b; simpl; auto. now rewrite rev_involutive. Qed.
Lemma command_reverse_twice (l : list body_path) : command_reverse _ _ _ (command_reverse _ _ _ l) = l.
Proof.
  unfold command_reverse. rewrite <- map_rev, rev_involutive, map_map. transitivity (map (fun b : body_path => b) l); [|apply map_id].
  apply map_ext. apply path_reverse_twice.
Qed.

(** the arm follows the paths of a command from one configuration to another without jumps *)
Inductive follows : Conf -> list body_path -> Conf -> Prop :=
| FNil c : follows c [] c
| FPath c body path joints atts l c' c2 : hd_error path = Some c -> last path c = c' -> follows c' l c2 -> follows c (BodyPath _ _ _ body path joints atts :: l) c2
| FAttach c b r k l c2 : follows c l c2 -> follows c (Attach _ _ _ b r k :: l) c2
| FDetach c b r k l c2 : follows c l c2 -> follows c (Detach _ _ _ b r k :: l) c2.
Lemma follows_app l1 : forall c l2 c1 c2, follows c l1 c1 -> follows c1 l2 c2 -> follows c (l1 ++ l2) c2.
Proof. intros c l2 c1 c2 H. induction H; simpl; intros; auto; econstructor; eauto. Qed.
Lemma last_indep (path : list Conf) a b : path <> [] -> last path a = last path b.
Proof. induction path as [|x [|y p] IH]; intro N; [congruence|auto|]. apply IH. discriminate. Qed.
Lemma last_rev (path : list Conf) d : last (rev path) d = hd d path.
Proof. destruct path as [|x p]; auto. simpl. apply last_last. Qed.
Lemma hd_rev (path : list Conf) c : hd_error path = Some c -> hd_error (rev path) = Some (last path c).
Proof.
  intro H. destruct path as [|x p]; [discriminate|]. inversion H; subst. destruct (@exists_last _ (c :: p) ltac:(discriminate)) as (l' & y & E). rewrite E, rev_app_distr, last_last. reflexivity.
Qed.
Lemma follows_reverse c l c2 : follows c l c2 -> follows c2 (command_reverse _ _ _ l) c.
Proof.
  intro H. induction H; unfold command_reverse in *; simpl; try rewrite map_app; [constructor| | |].
  - eapply follows_app; [exact IHfollows|]. simpl. econstructor; [subst c'; apply hd_rev; auto| |constructor]. rewrite last_rev. destruct path; inversion H; auto.
  - eapply follows_app; [exact IHfollows|]. simpl. constructor. constructor.
  - eapply follows_app; [exact IHfollows|]. simpl. constructor. constructor.
Qed.

(** the command of a plan *)
Variable traj : nat -> list body_path.
Definition motion_paths (a : action) : list body_path :=
  match a with MoveFree _ _ t | MoveHolding _ _ _ _ t | MoveInsert _ _ _ _ t => traj t | _ => [] end.
Lemma postprocess_eq plan : postprocess_plan _ _ _ traj plan = flat_map motion_paths plan.
Proof.
  unfold postprocess_plan. assert (G : forall acc, fold_left (fun paths a => match a with
    | MoveFree _ _ t | MoveHolding _ _ _ _ t | MoveInsert _ _ _ _ t => paths ++ traj t | _ => paths end) plan acc = acc ++ flat_map motion_paths plan); [|apply G].
  induction plan as [|a plan IH]; intro acc; [simpl; now rewrite app_nil_r|].
  cbn [fold_left flat_map]. destruct a; rewrite IH; simpl; rewrite ?app_assoc; auto.
Qed.
End Commands.

(** Reversing a command twice restores it; the reverse of a command that leads from one
    configuration to another without jumps leads back. *)
Theorem reverse_command Conf Joints Attachment (l : list (body_path Conf Joints Attachment)) :
  command_reverse _ _ _ (command_reverse _ _ _ l) = l /\
  forall c c', follows _ _ _ c l c' -> follows _ _ _ c' (command_reverse _ _ _ l) c.
Proof. split; [apply command_reverse_twice|]. intros. now apply follows_reverse. Qed.
(** The bodies of a command are those its paths move, those attached during a path, and both
    partners of an attachment; reversing keeps them. *)
Definition involves {Conf Joints Attachment} (att_body : Attachment -> nat) (b : body_path Conf Joints Attachment) (x : nat) : Prop :=
  (exists path joints atts, b = BodyPath _ _ _ x path joints atts) \/
  (exists y path joints atts a, b = BodyPath _ _ _ y path joints atts /\ In a atts /\ att_body a = x) \/
  (exists y k, b = Attach _ _ _ x y k \/ b = Attach _ _ _ y x k \/ b = Detach _ _ _ x y k \/ b = Detach _ _ _ y x k).
Theorem command_bodies_exact : forall Conf Joints Attachment att_body (l : list (body_path Conf Joints Attachment)) x,
  (In x (command_bodies _ _ _ att_body l) <-> exists b, In b l /\ involves att_body b x) /\
  (In x (command_bodies _ _ _ att_body (command_reverse _ _ _ l)) <-> In x (command_bodies _ _ _ att_body l)).
Proof.
  intros Conf Joints Attachment att_body l x. split.
  - unfold command_bodies. rewrite in_flat_map. split.
    + intros (b & Ib & H). exists b. split; auto. destruct b; simpl in H.
      * destruct H as [<-|H]; [left; eauto|]. apply in_map_iff in H as (a & E & Ia). right. left. eauto 10.
      * right. right. destruct H as [<-|[<-|[]]]; eauto 10.
      * right. right. destruct H as [<-|[<-|[]]]; eauto 10.
    + intros (b & Ib & H). exists b. split; auto.
      destruct H as [(p & j & a & ->)|[(y & p & j & atts & a & -> & Ia & <-)|(y & k & [->|[->|[->| ->]]])]]; simpl; auto.
      right. now apply in_map.
  - unfold command_bodies, command_reverse. rewrite !in_flat_map. split.
    + intros (b & Ib & H). apply in_map_iff in Ib as (b' & <- & Ib). apply in_rev in Ib. exists b'. split; auto. destruct b'; auto.
    + intros (b & Ib & H). exists (path_reverse _ _ _ b). split; [apply in_map; now apply -> in_rev|]. destruct b; auto.
Qed.
Print Assumptions command_bodies_exact.
Example command_bodies_ex : command_bodies nat unit nat (fun a => a + 10) [BodyPath _ _ _ 0 [1; 2] tt [5]; Detach _ _ _ 15 0 7] = [0; 15; 15; 0].
Proof. reflexivity. Qed.

Example reverse_ex : command_reverse nat unit nat [BodyPath _ _ _ 0 [1; 2; 3] tt []; Attach _ _ _ 5 0 7; BodyPath _ _ _ 0 [3; 8] tt [5]] =
  [BodyPath _ _ _ 0 [8; 3] tt [5]; Detach _ _ _ 5 0 7; BodyPath _ _ _ 0 [3; 2; 1] tt []].
Proof. reflexivity. Qed.
Example follows_ex : follows nat unit nat 1 [BodyPath _ _ _ 0 [1; 2; 3] tt []; Attach _ _ _ 5 0 7; BodyPath _ _ _ 0 [3; 8] tt [5]] 8.
Proof. repeat econstructor. Qed.

(** If every trajectory leads from its first to its last configuration, then the command
    assembled from any executable plan leads the arm without jumps from the start
    configuration to the one the planner's final state holds. *)
Theorem plan_command_continuous Conf Joints Attachment (traj : nat -> list (body_path Conf Joints Attachment)) (value : nat -> Conf) F start movable plan s :
  NoDup (map fst movable) ->
  (forall q1 t q2, FreeMotion F q1 t q2 = true -> follows _ _ _ (value q1) (traj t) (value q2)) ->
  (forall q1 t q2 o g, HoldingMotion F q1 t q2 o g = true -> follows _ _ _ (value q1) (traj t) (value q2)) ->
  (forall q1 t q2 o g, InsertMotion F q1 t q2 o g = true -> follows _ _ _ (value q1) (traj t) (value q2)) ->
  run F (init_state start movable) plan = Some s ->
  exists q, s (AtConf q) = true /\ follows _ _ _ (value start) (postprocess_plan _ _ _ traj plan) (value q).
Proof.
  intros N M1 M2 M3 H. destruct (proj1 (kuka_is_machine F _ _ _ (init_agrees start movable N)) s H) as (w & W & A).
  exists (conf w). split; [now apply (ag_conf _ _ A)|]. rewrite postprocess_eq. change start with (conf (init_world start movable)).
  clear A H. induction W; [constructor|]. cbn [flat_map]. apply follows_app with (value (conf w1)); auto.
  inversion H; subst; simpl; eauto; constructor.
Qed.

(** *** Insertion trajectories *)
Lemma insert_fold {W Conf} (ik : W -> option Conf) l : forall acc, fold_left (fun acc w => match ik w with Some c => acc ++ [c] | None => acc end) l acc =
  acc ++ flat_map (fun w => match ik w with Some c => [c] | None => [] end) l.
Proof.
  induction l as [|w l IH]; intro acc; [simpl; now rewrite app_nil_r|]. simpl. rewrite IH. destruct (ik w); auto. now rewrite <- app_assoc.
Qed.
(** If inverse kinematics succeeds on every waypoint, the trajectory has exactly their solutions. *)
Theorem insert_path_complete W Conf (ik : W -> option Conf) sol whole : whole <> [] -> (forall w, In w whole -> ik w = Some (sol w)) ->
  insert_path Conf ik whole = Some (map sol whole).
Proof.
  intros N H. unfold insert_path. rewrite insert_fold. simpl.
  assert (E : flat_map (fun w => match ik w with Some c => [c] | None => [] end) whole = map sol whole).
  { clear N. induction whole as [|w l IH]; auto. simpl. rewrite (H w) by (left; auto). simpl. f_equal. apply IH. intros. apply H. right. auto. }
  rewrite E. destruct whole; [congruence|reflexivity].
Qed.
Example insert_path_ex : insert_path nat (fun w => if w <? 9 then Some (10 * w) else None) [1; 2; 3] = Some [10; 20; 30].
Proof. reflexivity. Qed.
(** Otherwise the failing waypoints are dropped, the goal included. *)
Theorem insert_path_reaches_goal_refuted : exists (ik : nat -> option nat) whole path, insert_path nat ik whole = Some path /\
  ik (last whole 0) = None /\ length path < length whole.
Proof. exists (fun w => if w <? 3 then Some (10 * w) else None), [1; 2; 3], [10; 20]. repeat split; auto. Qed.

(** ** A task *)
Definition items_ex : list item := [Item 1 1 50 100 101 102 11 12 13; Item 2 2 60 200 201 202 21 22 23].
Definition facts_ex : facts := {|
  poses := [100; 101; 102; 200; 201; 202];
  Stackable := fun _ r => (r =? 50) || (r =? 60);
  Sink := fun r => (r =? 50) || (r =? 60);
  Stove := fun r => r =? 70;
  Kin := fun o p g q => existsb (fun it => (o =? obj it) && (g =? grasp it) && (((p =? ipose it) && (q =? iconf it)) || ((p =? prepose it) && (q =? preconf it)) || ((p =? postpose it) && (q =? postconf it)))) items_ex;
  FreeMotion := fun q1 t q2 => t =? q1 * 100 + q2;
  HoldingMotion := fun q1 t q2 o g => (t =? q1 * 100 + q2) && existsb (Nat.eqb q2) [12; 22];
  InsertMotion := fun q1 t q2 o g => (t =? q1 * 100 + q2) && existsb (Nat.eqb q1) [12; 22] && existsb (Nat.eqb q2) [13; 23];
  Supported := fun o p r => ((o =? 1) && (p =? 102) && (r =? 50)) || ((o =? 2) && (p =? 202) && (r =? 60)) |}.
Ltac bools := repeat match goal with
  | H : _ || _ = true |- _ => apply orb_true_iff in H; destruct H
  | H : _ && _ = true |- _ => apply andb_true_iff in H; destruct H
  | H : false = true |- _ => discriminate
  | H : (_ =? _) = true |- _ => apply Nat.eqb_eq in H
  end.
Example task_ex : task facts_ex 10 items_ex.
Proof.
  constructor.
  - repeat constructor; simpl; intuition discriminate.
  - repeat constructor; simpl; intuition discriminate.
  - intros it [<-|[<-|[]]]; simpl; repeat split; discriminate.
  - intros o p g q. cbn [Kin facts_ex]. rewrite existsb_exists. split; intros (it & Hi & H); exists it; split; auto.
    + bools; auto 10.
    + destruct H as (-> & -> & H). rewrite !Nat.eqb_refl. simpl. destruct H as [[-> ->]|[[-> ->]|[-> ->]]]; rewrite !Nat.eqb_refl; simpl; rewrite ?orb_true_r; auto.
  - intros it [<-|[<-|[]]]; simpl; auto 20.
  - intros o p r _ H. simpl in H. bools; subst; [exists (Item 1 1 50 100 101 102 11 12 13)|exists (Item 2 2 60 200 201 202 21 22 23)]; simpl; auto.
  - intros q1 t q2 o g H. simpl in H. bools; subst; simpl; auto.
  - intros q1 t q2 o g H. simpl in H. bools; subst; simpl; auto.
Qed.
Example connected_ex : connected facts_ex 10 items_ex.
Proof.
  constructor.
  - intros q1 q2 _ _. exists (q1 * 100 + q2). cbn [facts_ex FreeMotion]. apply Nat.eqb_refl.
  - intros q1 it _ [<-|[<-|[]]]; eexists; cbn [facts_ex HoldingMotion preconf]; rewrite Nat.eqb_refl; reflexivity.
  - intros it [<-|[<-|[]]]; eexists; cbn [facts_ex InsertMotion preconf postconf]; rewrite Nat.eqb_refl; reflexivity.
Qed.
Definition plan_ex : list action := [MoveFree 10 11 1011; Pick 1 100 1 11; MoveHolding 11 12 1 1 1112; Place 1 101 1 12; Pick 1 101 1 12; MoveInsert 12 13 1 1 1213; Place 1 102 1 13; Clean 1 50].
Example plan_ex_runs : exists s, run facts_ex (init_state 10 (movable_of items_ex)) plan_ex = Some s /\ s (Cleaned 1) = true /\ s (AtConf 13) = true /\ s (Cleaned 2) = false.
Proof. eexists. split; [vm_compute; reflexivity|]. vm_compute. auto. Qed.

Print Assumptions kuka_is_machine.
Print Assumptions kuka_consistent.
Print Assumptions moves_separated.
Print Assumptions carried_object_put_down.
Print Assumptions kuka_solvable.
Print Assumptions kuka_needs.
Print Assumptions insertion_releases.
Print Assumptions reverse_command.
Print Assumptions plan_command_continuous.
Print Assumptions insert_path_complete.
Print Assumptions insert_path_reaches_goal_refuted.
