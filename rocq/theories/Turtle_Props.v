(** Properties of the turtlebot task domain and of plan post-processing. *)
From Coq Require Import Arith List Bool Lia.
From Verif Require Import Strips Turtle_Model.
Import ListNotations.

(** ** Specification *)
Record consistent (F : facts) (s : state) : Prop := {
  one_conf : forall v, Rover F v = true -> exists q, s (AtConf v q) = true /\ forall q', s (AtConf v q') = true -> q' = q;
  hand_free : s HFree = true <-> forall o, s (Holding o) = false;
  one_held : forall o o', s (Holding o) = true -> s (Holding o') = true -> o = o';
  somewhere : forall o, Target F o = true ->
    (s (Holding o) = true /\ forall p, s (AtPose o p) = false) \/
    (s (Holding o) = false /\ exists p, s (AtPose o p) = true /\ forall p', s (AtPose o p') = true -> p' = p)
}.

(** The world as a machine: where each rover is, what is held, where each object was last put *)
Record world := World { conf : nat -> nat; held : option nat; place : nat -> nat }.
Definition upd (f : nat -> nat) (k x : nat) : nat -> nat := fun k' => if k' =? k then x else f k'.
Inductive wstep (F : facts) : world -> action -> world -> Prop :=
| WPick c l v t q2 o : Rover F v = true -> Target F o = true -> Motion F v (c v) t q2 = true -> Kin F o (l o) q2 = true ->
    wstep F (World c None l) (Pick v (c v) t q2 (l o) o) (World (upd c v q2) (Some o) l)
| WPlace c l v t q2 o p : Rover F v = true -> Target F o = true -> MotionHolding F v (c v) t q2 o = true -> Kin F o p q2 = true -> Pose F o p = true ->
    wstep F (World c (Some o) l) (Place v (c v) t q2 p o) (World (upd c v q2) None (upd l o p)).
Inductive wrun (F : facts) : world -> list action -> world -> Prop :=
| WDone w : wrun F w [] w
| WStep w a w1 plan w2 : wstep F w a w1 -> wrun F w1 plan w2 -> wrun F w (a :: plan) w2.
Record agrees (F : facts) (s : state) (w : world) : Prop := {
  ag_conf : forall v q, Rover F v = true -> s (AtConf v q) = true <-> q = conf w v;
  ag_hand : s HFree = true <-> held w = None;
  ag_held : forall o, s (Holding o) = true <-> held w = Some o;
  ag_pose : forall o p, Target F o = true -> s (AtPose o p) = true <-> (held w <> Some o /\ p = place w o)
}.

(** attach and detach alternate, on the rover's own object *)
Fixpoint balanced (on : option nat) (l : list command) : Prop :=
  match l with
  | [] => True
  | Traj _ :: l' => balanced on l'
  | Attach _ o :: l' => on = None /\ balanced (Some o) l'
  | Detach _ o :: l' => on = Some o /\ balanced None l'
  end.
Definition commands_of (a : action) : list command :=
  match a with
  | Pick v q1 t q2 p o => [Traj t; Attach v o]
  | Place v q1 t q2 p o => [Traj t; Detach v o]
  end.
(** each motion starts where the one before ended *)
Fixpoint chained (q : nat) (plan : list action) : Prop :=
  match plan with
  | [] => True
  | (Pick _ q1 _ q2 _ _ | Place _ q1 _ q2 _ _) :: plan' => q1 = q /\ chained q2 plan'
  end.

(** ** The domain is the machine *)
Ltac eqbs := repeat match goal with
  | H : (_ =? _) = true |- _ => apply Nat.eqb_eq in H
  | H : (_ =? _) = false |- _ => apply Nat.eqb_neq in H
  | H : _ && _ = true |- _ => apply andb_true_iff in H; destruct H
  end.
Lemma update_true s ad de f : update fluent fluent_eqb s ad de f = true <-> In f ad \/ (s f = true /\ ~ In f de).
Proof.
  assert (E : forall a b, fluent_eqb a b = true <-> a = b).
  { intros [|v q|o p|o] [|v' q'|o' p'|o']; simpl; split; intro H; try congruence; eqbs; subst; auto; inversion H; subst; rewrite ?Nat.eqb_refl; auto. }
  apply update_in. exact E.
Qed.

Lemma step_some F s a s' : step F s a = Some s' ->
  static_pre F a = true /\ (forall f, In f (pre a) -> s f = true) /\ forall f, s' f = true <-> In f (adds a) \/ (s f = true /\ ~ In f (dels a)).
Proof.
  unfold step. destruct (static_pre F a); simpl; [|discriminate]. unfold holds. destruct (forallb s (pre a)) eqn:E; [|discriminate].
  intro H. inversion H; subst. split; auto. split; [now apply forallb_forall|]. intro f. apply update_true.
Qed.

Lemma step_agrees F s w a : agrees F s w ->
  (forall s', step F s a = Some s' -> exists w', wstep F w a w' /\ agrees F s' w') /\
  (forall w', wstep F w a w' -> exists s', step F s a = Some s' /\ agrees F s' w').
Proof.
  intros [AC AH AE AP].
  assert (Fwd : forall s', step F s a = Some s' -> exists w', wstep F w a w' /\ agrees F s' w').
  { intros s' H. apply step_some in H. destruct H as (SP & PR & UP). destruct w as [c h l]. simpl in *.
    destruct a as [v q1 t q2 p o|v q1 t q2 p o]; simpl in SP, PR, UP; eqbs.
    - assert (C : s (AtConf v q1) = true) by auto. assert (A : s (AtPose o p) = true) by auto. assert (Hf : s HFree = true) by auto 6.
      apply AC in C; auto. apply AH in Hf. apply AP in A; auto. destruct A as [_ A]. subst.
      exists (World (upd c v q2) (Some o) l). split; [now constructor|]. constructor; simpl.
      + intros v' q Hv. rewrite UP. unfold upd. specialize (AC v' q Hv). destruct (v' =? v) eqn:E; eqbs.
        * subst v'. split; [intros [[H3|[H3|[]]]|[H3 H4]]; try congruence|intros ->; auto]. apply AC in H3. subst. tauto.
        * split; [intros [[H3|[H3|[]]]|[H3 _]]; try congruence; tauto|]. intro. right. split; [tauto|]. intros [H4|[H4|[H4|[]]]]; congruence.
      + rewrite UP. split; [intros [[H3|[H3|[]]]|[_ H3]]; try congruence; tauto|discriminate].
      + intro o'. rewrite UP. split; [intros [[H3|[H3|[]]]|[H3 _]]; try congruence; apply AE in H3; discriminate|]. intro H3. inversion H3; subst; auto.
      + intros o' p' Ho. rewrite UP. specialize (AP o' p' Ho). split.
        * intros [[H3|[H3|[]]]|[H3 H4]]; try congruence. apply AP in H3. destruct H3 as [_ ->]. split; auto. intro E. inversion E; subst. tauto.
        * intros [H3 H4]. right. split; [apply AP; split; auto; discriminate|]. intros [H5|[H5|[H5|[]]]]; try congruence.
    - assert (C : s (AtConf v q1) = true) by auto. assert (Hh : s (Holding o) = true) by auto.
      apply AC in C; auto. apply AE in Hh. subst.
      exists (World (upd c v q2) None (upd l o p)). split; [now constructor|]. constructor; simpl.
      + intros v' q Hv. rewrite UP. unfold upd. specialize (AC v' q Hv). destruct (v' =? v) eqn:E; eqbs.
        * subst v'. split; [intros [[H4|[H4|[H4|[]]]]|[H4 H5]]; try congruence|intros ->; auto]. apply AC in H4. subst. tauto.
        * split; [intros [[H4|[H4|[H4|[]]]]|[H4 _]]; try congruence; tauto|]. intro. right. split; [tauto|]. intros [H5|[H5|[]]]; congruence.
      + rewrite UP. split; auto.
      + intro o'. rewrite UP. split; [|discriminate]. intros [[H4|[H4|[H4|[]]]]|[H4 H5]]; try congruence. apply AE in H4. inversion H4; subst. tauto.
      + intros o' p' Ho. rewrite UP. specialize (AP o' p' Ho). unfold upd. destruct (o' =? o) eqn:E; eqbs.
        * subst o'. split; [|intros [_ ->]; auto]. intros [[H4|[H4|[H4|[]]]]|[H4 _]]; try congruence; [split; [discriminate|congruence]|]. apply AP in H4. tauto.
        * split; [intros [[H4|[H4|[H4|[]]]]|[H4 _]]; try congruence; apply AP in H4; split; [discriminate|tauto]|].
          intros [_ H4]. right. split; [apply AP; split; auto; congruence|]. intros [H5|[H5|[]]]; congruence. }
  split; auto. intros w' Hw.
  assert (E : exists s', step F s a = Some s').
  { unfold step. assert (static_pre F a && holds fluent s (pre a) = true) as ->; [|eauto].
    inversion Hw; subst; simpl in *.
    - rewrite H, H0, H1, H2. simpl. rewrite (proj2 (AC v (c v) H) eq_refl), (proj2 AH eq_refl), (proj2 (AP o (l o) H0)); auto. split; [discriminate|auto].
    - rewrite H, H0, H1, H2, H3. simpl. rewrite (proj2 (AC v (c v) H) eq_refl), (proj2 (AE o) eq_refl). auto. }
  destruct E as [s' Es]. exists s'. split; auto. destruct (Fwd s' Es) as (w2 & H1 & H2).
  replace w' with w2; auto. inversion Hw; subst; inversion H1; subst; auto.
Qed.

(** For any facts, any number of rovers and targets and any plan: the plan is executable in the
    planning domain iff the machine can run it, and the final states agree. *)
Theorem domain_is_machine F s w plan : agrees F s w ->
  (forall s', run F s plan = Some s' -> exists w', wrun F w plan w' /\ agrees F s' w') /\
  (forall w', wrun F w plan w' -> exists s', run F s plan = Some s' /\ agrees F s' w').
Proof.
  revert s w. induction plan as [|a plan IH]; intros s w A.
  - split; simpl.
    + intros s' H. inversion H; subst. exists w. split; [constructor|auto].
    + intros w' H. inversion H; subst. eauto.
  - destruct (step_agrees F s w a A) as [S1 S2]. split; simpl.
    + intros s' H. destruct (step F s a) as [s1|] eqn:E; [|discriminate]. destruct (S1 s1 eq_refl) as (w1 & W1 & A1).
      destruct (IH s1 w1 A1) as [I1 _]. destruct (I1 s' H) as (w' & W' & A'). exists w'. split; auto. econstructor; eauto.
    + intros w' H. inversion H; subst. destruct (S2 _ H3) as (s1 & -> & A1). destruct (IH s1 w1 A1) as [_ I2]. auto.
Qed.

(** ** Consistency *)
Lemma consistent_step F s a s' : consistent F s -> step F s a = Some s' -> consistent F s'.
Proof.
  intros [C1 C2 C3 C4] H. apply step_some in H. destruct H as (SP & PR & UP).
  assert (UF : forall f, s' f = false <-> ~ In f (adds a) /\ (s f = false \/ In f (dels a))).
  { intro f. rewrite <- !not_true_iff_false, UP. split; [|tauto]. intro N. split; [tauto|].
    destruct (s f) eqn:E; [right|left; congruence]. destruct (in_dec (fun x y : fluent => ltac:(decide equality; apply Nat.eq_dec)) f (dels a)); auto. tauto. }
  destruct a as [v q1 t q2 p o|v q1 t q2 p o]; simpl in SP, PR, UP, UF; eqbs.
  - assert (A1 : s (AtConf v q1) = true) by auto. assert (A2 : s (AtPose o p) = true) by auto. assert (A3 : s HFree = true) by auto 6.
    assert (N : forall o, s (Holding o) = false) by now apply C2.
    constructor.
    + intros v' Hv. destruct (C1 v' Hv) as (q & Q1 & Q2). destruct (Nat.eq_dec v' v) as [->|Nv].
      * exists q2. split; [apply UP; auto|]. intros q' Hq. apply UP in Hq. destruct Hq as [[E|[E|[]]]|[E1 E2]]; try congruence.
        exfalso. apply E2. left. f_equal. rewrite (Q2 q1 A1), (Q2 q' E1). auto.
      * exists q. split; [apply UP; right; split; auto; intros [E|[E|[E|[]]]]; congruence|]. intros q' Hq. apply UP in Hq. destruct Hq as [[E|[E|[]]]|[E1 E2]]; try congruence. auto.
    + split; intro Hh; [apply UP in Hh; destruct Hh as [[E|[E|[]]]|[_ E]]; [congruence..|tauto]|]. specialize (Hh o). apply UF in Hh. tauto.
    + intros o1 o2 H1' H2'. apply UP in H1', H2'. rewrite !N in *. destruct H1' as [[E|[E|[]]]|[E _]]; try congruence. destruct H2' as [[E'|[E'|[]]]|[E' _]]; congruence.
    + intros o' Ho. destruct (Nat.eq_dec o' o) as [->|No].
      * left. split; [apply UP; auto|]. intro p'. apply UF. split; [intros [E|[E|[]]]; congruence|]. destruct (s (AtPose o p')) eqn:Ep; auto. right.
        destruct (C4 o Ho) as [[E1 _]|(_ & p0 & P1 & P2)]; [rewrite N in E1; discriminate|]. rewrite (P2 p A2), (P2 p' Ep). auto.
      * right. split; [apply UF; split; [intros [E|[E|[]]]; congruence|auto]|]. destruct (C4 o' Ho) as [[E1 _]|(_ & p0 & P1 & P2)]; [rewrite N in E1; discriminate|].
        exists p0. split; [apply UP; right; split; auto; intros [E|[E|[E|[]]]]; congruence|]. intros p' Hp. apply UP in Hp. destruct Hp as [[E|[E|[]]]|[E1 E2]]; try congruence. auto.
  - assert (A1 : s (AtConf v q1) = true) by auto. assert (A2 : s (Holding o) = true) by auto.
    assert (N : forall o', s' (Holding o') = false).
    { intro o'. apply UF. split; [intros [E|[E|[E|[]]]]; congruence|]. destruct (s (Holding o')) eqn:Eo; auto. rewrite (C3 o' o); auto. }
    constructor.
    + intros v' Hv. destruct (C1 v' Hv) as (q & Q1 & Q2). destruct (Nat.eq_dec v' v) as [->|Nv].
      * exists q2. split; [apply UP; auto|]. intros q' Hq. apply UP in Hq. destruct Hq as [[E|[E|[E|[]]]]|[E1 E2]]; try congruence.
        exfalso. apply E2. left. f_equal. rewrite (Q2 q1 A1), (Q2 q' E1). auto.
      * exists q. split; [apply UP; right; split; auto; intros [E|[E|[]]]; congruence|]. intros q' Hq. apply UP in Hq. destruct Hq as [[E|[E|[E|[]]]]|[E1 E2]]; try congruence. auto.
    + split; auto. intros _. apply UP. auto.
    + intros o1 o2 H1'. rewrite N in H1'. discriminate.
    + intros o' Ho. right. split; [apply N|]. destruct (Nat.eq_dec o' o) as [->|No].
      * exists p. split; [apply UP; auto 6|]. intros p' Hp. apply UP in Hp. destruct Hp as [[E|[E|[E|[]]]]|[E1 E2]]; try congruence.
        destruct (C4 o Ho) as [[_ E3]|[E3 _]]; [rewrite E3 in E1; discriminate|congruence].
      * destruct (C4 o' Ho) as [[E1 _]|(_ & p0 & P1 & P2)]; [elim No; auto|].
        exists p0. split; [apply UP; right; split; auto; intros [E|[E|[]]]; congruence|]. intros p' Hp. apply UP in Hp. destruct Hp as [[E|[E|[E|[]]]]|[E1 E2]]; try congruence. auto.
Qed.

(** Any plan, any number of rovers and targets, from any consistent state. *)
Theorem domain_consistent F plan : forall s s', consistent F s -> run F s plan = Some s' -> consistent F s'.
Proof.
  induction plan as [|a plan IH]; simpl; intros s s' C H; [inversion H; subst; auto|].
  destruct (step F s a) as [s1|] eqn:E; [|discriminate]. apply (IH s1); auto. eapply consistent_step; eauto.
Qed.

Lemma zip3_length targets : forall inits goals, length inits = length targets -> length goals = length targets -> length (zip3 targets inits goals) = length targets.
Proof. intros. unfold zip3. rewrite !combine_length. lia. Qed.
Lemma zip3_fst targets : forall inits goals, length inits = length targets -> length goals = length targets -> map fst (zip3 targets inits goals) = targets.
Proof.
  unfold zip3. induction targets as [|a l IH]; intros [|b i] [|c g] H1 H2; simpl in *; try discriminate; auto. f_equal. apply IH; congruence.
Qed.
Lemma fst_unique {A B} (l : list (A * B)) x y y' : NoDup (map fst l) -> In (x, y) l -> In (x, y') l -> y = y'.
Proof.
  induction l as [|[a b] l IH]; simpl; [tauto|]. intros N H H'. inversion N; subst.
  destruct H as [H|H], H' as [H'|H']; try (inversion H; subst); try (inversion H'; subst); auto.
  - elim H2. apply in_map_iff. exists (x, y'). auto.
  - elim H2. apply in_map_iff. exists (x, y). auto.
Qed.
Lemma init_pose rover q0 targets inits goals o p : init_state rover q0 targets inits goals (AtPose o p) = true <-> exists g, In (o, (p, g)) (zip3 targets inits goals).
Proof.
  simpl. rewrite existsb_exists. split.
  - intros ((o' & p' & g') & Hi & E). simpl in E. eqbs. subst. eauto.
  - intros (g & Hi). exists (o, (p, g)). split; auto. simpl. now rewrite !Nat.eqb_refl.
Qed.

(** The problem's initial state is consistent when the targets are distinct. *)
Theorem init_consistent F rover q0 targets inits goals : NoDup targets -> length inits = length targets -> length goals = length targets ->
  (forall v, Rover F v = true <-> v = rover) -> (forall o, Target F o = true <-> In o targets) -> consistent F (init_state rover q0 targets inits goals).
Proof.
  intros N L1 L2 R T. constructor.
  - intros v Hv. apply R in Hv. subst. exists q0. simpl. rewrite !Nat.eqb_refl. split; auto. intros q H. eqbs. auto.
  - simpl. tauto.
  - simpl. discriminate.
  - intros o Ho. right. split; auto. apply T in Ho. rewrite <- (zip3_fst targets inits goals L1 L2) in Ho, N. apply in_map_iff in Ho.
    destruct Ho as ((o' & p & g) & E & Hi). simpl in E. subst o'. exists p. split; [apply init_pose; eauto|].
    intros p' Hp. apply init_pose in Hp. destruct Hp as (g' & Hi'). pose proof (fst_unique _ _ _ _ N Hi Hi') as E. congruence.
Qed.

(** ** The initial state as a world *)
Definition look (l : list (nat * (nat * nat))) (o : nat) : nat :=
  match find (fun x => o =? fst x) l with Some (_, (p, _)) => p | None => 0 end.
Definition init_world (q0 : nat) (targets inits goals : list nat) : world :=
  World (fun _ => q0) None (look (zip3 targets inits goals)).
Lemma look_in l o p g : NoDup (map fst l) -> In (o, (p, g)) l -> look l o = p.
Proof.
  intros N Hi. unfold look. destruct (find (fun x => o =? fst x) l) as [[o' [p' g']]|] eqn:E.
  - apply find_some in E. destruct E as [E1 E2]. simpl in E2. eqbs. subst o'. pose proof (fst_unique _ _ _ _ N Hi E1). congruence.
  - pose proof (find_none _ _ E _ Hi) as H. simpl in H. rewrite Nat.eqb_refl in H. discriminate.
Qed.

Record problem (F : facts) (rover : nat) (targets inits goals : list nat) : Prop := {
  pb_distinct : NoDup targets;
  pb_inits : length inits = length targets;
  pb_goals : length goals = length targets;
  pb_rover : forall v, Rover F v = true <-> v = rover;
  pb_targets : forall o, Target F o = true <-> In o targets
}.
Lemma pb_fst F rover targets inits goals : problem F rover targets inits goals -> map fst (zip3 targets inits goals) = targets.
Proof. intros [N L1 L2 _ _]. now apply zip3_fst. Qed.

Lemma init_agrees F rover q0 targets inits goals : problem F rover targets inits goals ->
  agrees F (init_state rover q0 targets inits goals) (init_world q0 targets inits goals).
Proof.
  intro PB. pose proof (pb_fst _ _ _ _ _ PB) as E. destruct PB as [N L1 L2 R T]. constructor.
  - intros v q Hv. apply R in Hv. subst. simpl. rewrite Nat.eqb_refl. simpl. apply Nat.eqb_eq.
  - simpl. tauto.
  - simpl. intuition discriminate.
  - intros o p Ho. apply T in Ho. rewrite init_pose. cbn [init_world held place]. rewrite <- E in Ho, N. split.
    + intros (g & Hi). split; [discriminate|]. symmetry. eapply look_in; eauto.
    + intros [_ ->]. apply in_map_iff in Ho. destruct Ho as ((o' & p & g) & E1 & Hi). simpl in E1. subst o'. rewrite (look_in _ _ _ _ N Hi). eauto.
Qed.

(** ** Post-processing *)
Lemma post_loop_spec F rover : (forall v, Rover F v = true -> v = rover) -> forall plan w w' d c, wrun F w plan w' ->
  (forall o, held w = Some o -> d rover = Some o) ->
  post_loop d c plan = Some (c ++ flat_map commands_of plan) /\ balanced (held w) (flat_map commands_of plan) /\ chained (conf w rover) plan.
Proof.
  intros R. induction plan as [|a plan IH]; intros w w' d c W D.
  - simpl. rewrite app_nil_r. auto.
  - inversion W; subst. inversion H2; subst.
    + assert (v = rover) by auto. subst v. cbn [post_loop]. unfold set_key at 1. rewrite Nat.eqb_refl.
      destruct (IH _ _ (set_key d rover o) (c ++ [Traj t; Attach rover o]) H4) as (I1 & I2 & I3).
      { simpl. intros o' E. inversion E; subst. unfold set_key. now rewrite Nat.eqb_refl. }
      rewrite I1, <- app_assoc. simpl in *. unfold upd in I3. rewrite Nat.eqb_refl in I3. auto.
    + assert (v = rover) by auto. subst v. cbn [post_loop]. rewrite (D o) by auto.
      destruct (IH _ _ d (c ++ [Traj t; Detach rover o]) H4) as (I1 & I2 & I3); [simpl; discriminate|].
      rewrite I1, <- app_assoc. simpl in *. unfold upd in I3. rewrite Nat.eqb_refl in I3. auto.
Qed.

(** For every executable plan of the single-rover problem post_process succeeds: each action
    becomes its trajectory and an attach or detach of the object it names, attach and detach
    alternate on the same object, and each motion starts where the previous one ended. *)
Theorem post_process_correct F rover q0 targets inits goals plan s' : problem F rover targets inits goals ->
  run F (init_state rover q0 targets inits goals) plan = Some s' ->
  exists cmds, post_process plan = Some cmds /\ cmds = flat_map commands_of plan /\ balanced None cmds /\ chained q0 plan.
Proof.
  intros PB H. pose proof (init_agrees F rover q0 targets inits goals PB) as A.
  destruct (proj1 (domain_is_machine F _ _ plan A) s' H) as (w' & W & _).
  destruct (post_loop_spec F rover (fun v Hv => proj1 (pb_rover _ _ _ _ _ PB v) Hv) plan _ _ (fun _ => None) [] W) as (P1 & P2 & P3); [simpl; discriminate|].
  exists (flat_map commands_of plan). unfold post_process. rewrite P1. auto.
Qed.

(** ** Solvability *)
Lemma solve_world F rover (Conf : nat -> Prop) : Rover F rover = true ->
  (forall q1 q2, Conf q1 -> Conf q2 -> exists t, Motion F rover q1 t q2 = true) ->
  (forall q1 q2 o, Conf q1 -> Conf q2 -> Target F o = true -> exists t, MotionHolding F rover q1 t q2 o = true) ->
  forall l c pl, NoDup (map fst l) -> Conf (c rover) ->
  (forall o i g, In (o, (i, g)) l -> pl o = i /\ Target F o = true /\ Pose F o g = true /\
     (exists q, Conf q /\ Kin F o i q = true) /\ (exists q, Conf q /\ Kin F o g q = true)) ->
  exists plan c' pl', length plan = 2 * length l /\ wrun F (World c None pl) plan (World c' None pl') /\
    (forall o i g, In (o, (i, g)) l -> pl' o = g) /\ (forall o, ~ In o (map fst l) -> pl' o = pl o).
Proof.
  intros R M MH. induction l as [|(o & i & g) l IH]; intros c pl N C H.
  - exists [], c, pl. simpl. repeat split; auto; [constructor|tauto].
  - simpl in N. inversion N as [|? ? N1 N2]; subst.
    destruct (H o i g (or_introl eq_refl)) as (Hi & T & P & (q1 & C1 & K1) & (q2 & C2 & K2)).
    destruct (M _ _ C C1) as (t1 & M1). destruct (MH _ _ o C1 C2 T) as (t2 & M2).
    set (c1 := upd c rover q1). set (c2 := upd c1 rover q2). set (pl1 := upd pl o g).
    assert (E1 : c1 rover = q1) by (unfold c1, upd; now rewrite Nat.eqb_refl).
    assert (E2 : c2 rover = q2) by (unfold c2, upd; now rewrite Nat.eqb_refl).
    assert (Ne : forall o', o' <> o -> pl1 o' = pl o') by (intros o' Ho; unfold pl1, upd; apply Nat.eqb_neq in Ho; now rewrite Ho).
    destruct (IH c2 pl1 N2) as (plan & c' & pl' & L & W & G & U).
    { now rewrite E2. }
    { intros o' i' g' Hi'. destruct (H o' i' g' (or_intror Hi')) as (H1 & H2). split; auto. rewrite Ne; auto.
      intros ->. apply N1. apply in_map_iff. exists (o, (i', g')). auto. }
    exists (Pick rover (c rover) t1 q1 i o :: Place rover (c1 rover) t2 q2 g o :: plan), c', pl'. split; [simpl length; lia|]. split; [|split].
    + rewrite <- Hi. econstructor; [constructor; auto; now rewrite Hi|]. econstructor; [|exact W]. constructor; auto. now rewrite E1.
    + intros o' i' g' [E|Hi']; [|eapply G; eauto]. injection E as <- <- <-. rewrite U by auto. unfold pl1, upd. now rewrite Nat.eqb_refl.
    + intros o' Ho. simpl in Ho. rewrite U by tauto. apply Ne. intros ->. tauto.
Qed.

(** If the streams can connect the rover's configurations and reach every initial and goal pose,
    the task with n targets is solved by a plan of 2 n actions. *)
Theorem task_solvable F rover q0 targets inits goals (Conf : nat -> Prop) : problem F rover targets inits goals ->
  Conf q0 ->
  (forall q1 q2, Conf q1 -> Conf q2 -> exists t, Motion F rover q1 t q2 = true) ->
  (forall q1 q2 o, Conf q1 -> Conf q2 -> Target F o = true -> exists t, MotionHolding F rover q1 t q2 o = true) ->
  (forall o i g, In (o, (i, g)) (zip3 targets inits goals) -> Pose F o g = true /\
     (exists q, Conf q /\ Kin F o i q = true) /\ (exists q, Conf q /\ Kin F o g q = true)) ->
  exists plan s, length plan = 2 * length targets /\ run F (init_state rover q0 targets inits goals) plan = Some s /\
    goal_reached targets inits goals s = true.
Proof.
  intros PB C M MH H. pose proof (init_agrees F rover q0 targets inits goals PB) as A. pose proof (pb_fst _ _ _ _ _ PB) as E.
  assert (N : NoDup (map fst (zip3 targets inits goals))) by (rewrite E; apply PB).
  assert (HT : forall o i g, In (o, (i, g)) (zip3 targets inits goals) -> Target F o = true).
  { intros o i g Hi. apply (pb_targets _ _ _ _ _ PB). rewrite <- E. apply in_map_iff. exists (o, (i, g)). auto. }
  destruct (solve_world F rover Conf) with (l := zip3 targets inits goals) (c := fun _ : nat => q0) (pl := look (zip3 targets inits goals)) as (plan & c' & pl' & L & W & G & _); auto.
  { apply (pb_rover _ _ _ _ _ PB). auto. }
  { intros o i g Hi. split; [eapply look_in; eauto|]. split; [eauto|]. auto. }
  destruct (proj2 (domain_is_machine F _ _ plan A) _ W) as (s & Hs & As).
  exists plan, s. split; [rewrite L, zip3_length; auto; apply PB|]. split; auto.
  unfold goal_reached. apply forallb_forall. intros (o & i & g) Hi. simpl. apply (ag_pose _ _ _ As o g); [eauto|]. simpl. split; [discriminate|]. symmetry. eauto.
Qed.

(** ** No shorter plan *)
Definition picked (plan : list action) : list nat := flat_map (fun a => match a with Pick _ _ _ _ _ o => [o] | _ => [] end) plan.
Definition placed (plan : list action) : list nat := flat_map (fun a => match a with Place _ _ _ _ _ o => [o] | _ => [] end) plan.
Lemma plan_length plan : length plan = length (picked plan) + length (placed plan).
Proof. induction plan as [|[|] plan IH]; simpl; auto; rewrite IH; lia. Qed.
Lemma moved_placed F plan : forall w w' o, wrun F w plan w' -> place w' o <> place w o -> In o (placed plan).
Proof.
  induction plan as [|a plan IH]; intros w w' o W H; inversion W; subst; [tauto|].
  destruct (Nat.eq_dec (place w1 o) (place w o)) as [E|E].
  - unfold placed. simpl. apply in_or_app. right. eapply IH; eauto. now rewrite E.
  - inversion H3; subst; simpl in *; [tauto|]. unfold upd in E. destruct (o =? o0) eqn:E0; eqbs; auto. tauto.
Qed.
Lemma placed_picked F plan : forall w w' o, wrun F w plan w' -> held w <> Some o -> In o (placed plan) -> In o (picked plan).
Proof.
  induction plan as [|a plan IH]; intros w w' o W H Hi; [inversion Hi|]. inversion W; subst. inversion H3; subst; simpl in *.
  - destruct (Nat.eq_dec o0 o) as [|Ne]; auto. right. eapply IH; eauto. simpl. congruence.
  - destruct Hi as [->|Hi]; [congruence|]. eapply IH; eauto. simpl. discriminate.
Qed.

(** Every plan that solves the task has at least two actions for each target whose goal pose is
    not its initial pose. *)
Theorem task_needs F rover q0 targets inits goals plan s : problem F rover targets inits goals ->
  run F (init_state rover q0 targets inits goals) plan = Some s -> goal_reached targets inits goals s = true ->
  2 * length (filter (fun x => negb (fst (snd x) =? snd (snd x))) (zip3 targets inits goals)) <= length plan.
Proof.
  intros PB H G. pose proof (init_agrees F rover q0 targets inits goals PB) as A. pose proof (pb_fst _ _ _ _ _ PB) as E.
  destruct (proj1 (domain_is_machine F _ _ plan A) s H) as (w' & W & As).
  assert (N : NoDup (map fst (zip3 targets inits goals))) by (rewrite E; apply PB).
  set (l := filter _ _).
  assert (Nl : NoDup (map fst l)).
  { unfold l. clear -N. induction (zip3 targets inits goals) as [|x t IH]; simpl; [constructor|]. inversion N; subst.
    destruct (negb _); [|auto]. simpl. constructor; auto. intro Hi. apply H1. apply in_map_iff in Hi. destruct Hi as (y & E & Hy). apply filter_In in Hy. apply in_map_iff. exists y. tauto. }
  assert (P : incl (map fst l) (placed plan)).
  { intros o Ho. apply in_map_iff in Ho. destruct Ho as ((o' & i & g) & E1 & Hi). simpl in E1. subst o'. apply filter_In in Hi. destruct Hi as [Hi Ne]. simpl in Ne. apply negb_true_iff in Ne. eqbs.
    apply (moved_placed F plan _ _ o W). simpl. rewrite (look_in _ _ _ _ N Hi).
    assert (s (AtPose o g) = true) as Hg by (unfold goal_reached in G; rewrite forallb_forall in G; exact (G _ Hi)).
    apply (ag_pose _ _ _ As) in Hg; [destruct Hg as [_ <-]; auto|]. apply (pb_targets _ _ _ _ _ PB). rewrite <- E. apply in_map_iff. exists (o, (i, g)). auto. }
  assert (Q : incl (map fst l) (picked plan)) by (intros o Ho; eapply placed_picked; eauto; simpl; discriminate).
  apply NoDup_incl_length in P; auto. apply NoDup_incl_length in Q; auto. rewrite map_length in *. rewrite plan_length. lia.
Qed.

(** ** Examples and counterexamples *)
Definition all_facts (rovers targets : list nat) : facts := {|
  Rover := fun v => existsb (Nat.eqb v) rovers; Target := fun o => existsb (Nat.eqb o) targets;
  Pose := fun _ _ => true; Kin := fun _ p q => p =? q; Motion := fun _ q1 t q2 => t =? 10 * q1 + q2; MotionHolding := fun _ q1 t q2 _ => t =? 100 + 10 * q1 + q2 |}.
Example problem_ex : problem (all_facts [0] [1; 2]) 0 [1; 2] [3; 4] [5; 6].
Proof.
  constructor; auto.
  - repeat constructor; simpl; intuition discriminate.
  - intro v. simpl. rewrite orb_false_r. apply Nat.eqb_eq.
  - intro o. simpl. rewrite orb_false_r, orb_true_iff, !Nat.eqb_eq. intuition.
Qed.
Definition plan_ex : list action := [Pick 0 9 93 3 3 1; Place 0 3 135 5 5 1; Pick 0 5 54 4 4 2; Place 0 4 146 6 6 2].
Example plan_ex_runs : exists s, run (all_facts [0] [1; 2]) (init_state 0 9 [1; 2] [3; 4] [5; 6]) plan_ex = Some s /\
  goal_reached [1; 2] [3; 4] [5; 6] s = true /\ s (AtConf 0 6) = true /\ s (AtPose 1 3) = false.
Proof. eexists. split; [vm_compute; reflexivity|]. vm_compute. auto. Qed.
Example plan_ex_commands : post_process plan_ex = Some [Traj 93; Attach 0 1; Traj 135; Detach 0 1; Traj 54; Attach 0 2; Traj 146; Detach 0 2].
Proof. reflexivity. Qed.
Example solvable_ex : (forall q1 q2, exists t, Motion (all_facts [0] [1; 2]) 0 q1 t q2 = true) /\
  (forall q1 q2 o, exists t, MotionHolding (all_facts [0] [1; 2]) 0 q1 t q2 o = true) /\ (forall o p, exists q, Kin (all_facts [0] [1; 2]) o p q = true).
Proof. repeat split; intros; eexists; simpl; apply Nat.eqb_refl. Qed.

(** With two rovers one may pick an object and the other place it: post_process then raises
    KeyError ... *)
Theorem two_rovers_key_error_refuted : exists F s plan s', consistent F s /\ run F s plan = Some s' /\ post_process plan = None.
Proof.
  exists (all_facts [0; 7] [1]).
  exists (fun f => match f with HFree => true | AtConf v q => q =? 9 | AtPose o p => p =? 3 | Holding _ => false end).
  exists [Pick 0 9 93 3 3 1; Place 7 9 195 5 5 1]. eexists. split; [|split; [vm_compute; reflexivity|reflexivity]].
  constructor.
  - intros v _. exists 9. split; auto. intros q H. now apply Nat.eqb_eq.
  - tauto.
  - discriminate.
  - intros o _. right. split; auto. exists 3. split; auto. intros q H. now apply Nat.eqb_eq.
Qed.
(** ... or detaches an object other than the one placed. *)
Theorem two_rovers_wrong_object_refuted : exists F s plan s' cmds, consistent F s /\ run F s plan = Some s' /\
  post_process plan = Some cmds /\ In (Place 0 5 154 4 6 2) plan /\ In (Pick 7 9 94 4 4 2) plan /\ last cmds (Traj 0) = Detach 0 1.
Proof.
  exists {| Rover := fun v => (v =? 0) || (v =? 7); Target := fun _ => true; Pose := fun _ _ => true; Kin := fun _ _ _ => true; Motion := fun _ _ _ _ => true; MotionHolding := fun _ _ _ _ _ => true |}.
  exists (fun f => match f with HFree => true | AtConf v q => q =? 9 | AtPose o p => p =? o + 2 | Holding _ => false end).
  exists [Pick 0 9 93 3 3 1; Place 0 3 135 5 5 1; Pick 7 9 94 4 4 2; Place 0 5 154 4 6 2]. eexists. eexists. split; [|split; [vm_compute; reflexivity|split; [reflexivity|simpl; auto 10]]].
  constructor.
  - intros v _. exists 9. split; auto. intros q H. now apply Nat.eqb_eq.
  - tauto.
  - discriminate.
  - intros o _. right. split; auto. exists (o + 2). split; [apply Nat.eqb_refl|]. intros q H. now apply Nat.eqb_eq.
Qed.

Print Assumptions domain_is_machine.
Print Assumptions domain_consistent.
Print Assumptions init_consistent.
Print Assumptions post_process_correct.
Print Assumptions task_solvable.
Print Assumptions task_needs.
Print Assumptions two_rovers_key_error_refuted.
Print Assumptions two_rovers_wrong_object_refuted.
