(** C181 Configurations, poses and fluents of the turtlebot's motion test

    Model: Fluent_Model.v (turtlebot_move/problems.py 19-46, 103-113; turtlebot_move/streams.py 232-272). *)
From Coq Require Import Arith List Bool String Permutation Lia.
From Verif Require Import Fluent_Model.
Import ListNotations.

Section Fluent.
  Context {V X : Type}.
  Variable named : nat -> string -> nat.
  Variable plan : bool -> nat -> list nat -> option (list V) -> list (attachment (X := X)) -> list nat -> world (V := V) (X := X) -> option (list (list V)).

  (** ** Specification *)
  (** the joints of the body stand at the values and nothing else moved *)
  Definition only_moved (b : nat) (js : list nat) (vs : list V) (w w' : world (V := V) (X := X)) : Prop :=
    (forall i j v, nth_error js i = Some j -> nth_error vs i = Some v -> joint_at w' b j = v) /\
    (forall b' j, b' <> b \/ ~ In j js -> joint_at w' b' j = joint_at w b' j) /\ forall b', pose_of w' b' = pose_of w b'.
  Definition posed (fl : list (fluent (X := X))) : list nat := flat_map (fun f => match f with AtPose b _ => [b] | _ => [] end) fl.
  (** known predicates, grasps with a value and poses that can be assigned to their body *)
  Definition readable (f : fluent (X := X)) : Prop :=
    match f with AtGrasp _ _ g => exists b x, g = BodyObject b x | AtPose b p => exists x, p = BodyObject b x | Other _ => False end.
  (** the grasps in order, each with the body that it holds *)
  Definition held (fl : list (fluent (X := X))) : list (nat * X) :=
    flat_map (fun f => match f with AtGrasp _ b (BodyObject _ x) => [(b, x)] | _ => [] end) fl.

  (** ** configurations *)
  Lemma set_all_spec b js : forall vs (w : world (V := V) (X := X)), NoDup js -> List.length js = List.length vs -> only_moved b js vs w (set_all b (combine js vs) w).
  Proof.
    induction js as [|j js IH]; intros [|v vs] w N L; try discriminate; cbn [combine set_all].
    - split; [intros [|i]; discriminate|]. split; auto.
    - inversion N; subst. destruct (IH vs (set_joint b j v w) H2) as (A & B & C); [cbn in L; lia|]. split; [|split].
      + intros [|i] j' v' Hj Hv; cbn in Hj, Hv; [|eauto]. injection Hj as <-. injection Hv as <-. rewrite B by auto. cbn. now rewrite !Nat.eqb_refl.
      + intros b' j' H. rewrite B; [|destruct H; [auto|right; intro; apply H; cbn; auto]]. cbn.
        destruct (Nat.eqb_spec b' b), (Nat.eqb_spec j' j); cbn; auto. subst. destruct H as [H|H]; [congruence|]. exfalso. apply H. cbn. auto.
      + intro b'. rewrite C. reflexivity.
  Qed.

  (** C181.  A configuration with a value for each joint moves exactly its joints there. *)
  Theorem conf_assigned : forall (w0 w : world (V := V) (X := X)) b js vs, NoDup js ->
    (List.length js = List.length vs -> exists w', assign (new_conf w0 b js (Some vs)) w = Ok w' /\ only_moved b js vs w w') /\
    (List.length js <> List.length vs -> assign (new_conf w0 b js (Some vs)) w = Err AssertionError).
  Proof.
    intros w0 w b js vs N. unfold assign, set_joint_positions. cbn. split; intro L.
    - rewrite (proj2 (Nat.eqb_eq _ _) L). eexists. split; [reflexivity|]. now apply set_all_spec.
    - destruct (Nat.eqb_spec (List.length js) (List.length vs)); congruence.
  Qed.
  (** the base: three values are set and read back *)
  Theorem base_conf_back : forall robot vs (w : world (V := V) (X := X)), NoDup (base_joints named robot) ->
    (List.length vs = 3 -> exists w', set_base_conf named robot vs w = Ok w' /\ get_base_conf named robot w' = vs /\
        only_moved robot (base_joints named robot) vs w w') /\
    (List.length vs <> 3 -> set_base_conf named robot vs w = Err AssertionError).
  Proof.
    intros robot vs w N. unfold set_base_conf, set_joint_positions. split; intro L.
    - destruct (set_all_spec robot (base_joints named robot) vs w N) as (A & B & C); [now rewrite L|].
      exists (set_all robot (combine (base_joints named robot) vs) w). split; [now rewrite L|]. split; [|split; auto].
      destruct vs as [|a [|b [|c [|? ?]]]]; try discriminate. unfold get_base_conf, get_joint_positions.
      set (w' := set_all _ _ _) in *. unfold base_joints. cbn [map].
      rewrite (A 0 _ a eq_refl eq_refl), (A 1 _ b eq_refl eq_refl), (A 2 _ c eq_refl eq_refl). reflexivity.
    - cbn [base_joints map List.length]. destruct (Nat.eqb_spec 3 (List.length vs)); congruence.
  Qed.

  (** ** fluents *)
  Lemma last_any (js : list nat) : forall k d d', last (k :: js) d = last (k :: js) d'.
  Proof. induction js as [|m js IH]; intros k d d'; [reflexivity|]. apply (IH m). Qed.
  Lemma last_default (js : list nat) j : last js j = last (j :: js) 0.
  Proof. destruct js as [|k js]; [reflexivity|]. apply (last_any js k j 0). Qed.
  Lemma read_ok r l fl : forall att mov (w : world (V := V) (X := X)), Forall readable fl -> NoDup (posed fl ++ mov) ->
    exists mov' w', read_fluents r l fl att mov w = (Ok (att ++ map (fun bx => (r, l, snd bx, fst bx)) (held fl), mov'), w') /\
      (forall b, In b mov' <-> In b mov \/ In b (posed fl)) /\ (forall b j, joint_at w' b j = joint_at w b j) /\
      (forall b x, In (AtPose b (BodyObject b x)) fl -> pose_of w' b = x) /\ (forall b, ~ In b (posed fl) -> pose_of w' b = pose_of w b).
  Proof.
    induction fl as [|f fl IH]; intros att mov w F N; cbn [read_fluents].
    - exists mov, w. cbn. rewrite app_nil_r. intuition.
    - inversion F; subst. destruct f as [r' b g|b p|name]; cbn [readable] in H1; [| |destruct H1].
      + destruct H1 as (b0 & x & ->). cbn [value]. destruct (IH (att ++ [(r, l, x, b)]) mov w H2 N) as (mov' & w' & E & A & B & C & D).
        exists mov', w'. rewrite E. cbn [held flat_map map app fst snd]. rewrite <- app_assoc. cbn. split; auto. split; auto. split; auto. split; auto.
        intros b1 x1 [H|H]; [discriminate|eauto].
      + destruct H1 as (x & ->). change (NoDup (b :: posed fl ++ mov)) in N. assert (H1 : ~ In b (posed fl ++ mov)) by (inversion N; auto).
        replace (existsb (Nat.eqb b) mov) with false.
        2: { symmetry. apply not_true_iff_false. intro H. apply existsb_exists in H. destruct H as (y & Hy & Hb). apply Nat.eqb_eq in Hb. subst y.
             apply H1. apply in_app_iff. auto. }
        cbn [assign_object]. destruct (IH att (b :: mov) (set_pose b x w) H2) as (mov' & w' & E & A & B & C & D).
        { exact (Permutation_NoDup (Permutation_middle (posed fl) mov b) N). }
        exists mov', w'. rewrite E. split; [reflexivity|]. split; [|split; [|split]].
        * intro y. rewrite A. cbn. intuition.
        * intros b1 j. now rewrite B.
        * intros b1 x1 [H|H]; [|eauto]. assert (b1 = b /\ x1 = x) as [-> ->] by (inversion H; auto). rewrite D; [cbn; now rewrite Nat.eqb_refl|]. intro Hb. apply H1, in_app_iff. auto.
        * intros b1 H. cbn in H. rewrite D by tauto. cbn. destruct (Nat.eqb_spec b1 b); auto. subst. tauto.
  Qed.
  Lemma read_only r l fl : forall att mov (w : world (V := V) (X := X)) a w', read_fluents r l fl att mov w = (Ok a, w') ->
    NoDup (posed fl) /\ (forall b, In b (posed fl) -> ~ In b mov) /\
    forall f, In f fl -> match f with AtGrasp _ _ g => exists b x, g = BodyObject b x | AtPose _ p => exists b x, p = BodyObject b x | Other _ => False end.
  Proof.
    induction fl as [|f fl IH]; intros att mov w a w' E; cbn [read_fluents] in E.
    - cbn. repeat split; [constructor|tauto|tauto].
    - destruct f as [r' b g|b p|name]; [| |discriminate].
      + destruct g as [x|b0 x]; cbn [value] in E; [discriminate|]. destruct (IH _ _ _ _ _ E) as (A & B & C). split; [exact A|]. split; [exact B|].
        intros f [<-|H]; [eauto|apply C; auto].
      + destruct (existsb (Nat.eqb b) mov) eqn:Ex; [discriminate|]. destruct p as [x|b0 x]; cbn [assign_object] in E; [discriminate|].
        destruct (IH _ _ _ _ _ E) as (A & B & C). cbn [posed flat_map app]. fold (posed fl). split; [|split].
        * constructor; auto. intro H. apply (B b H). cbn. auto.
        * intros y [<-|H]; [|intro Hm; apply (B y H); cbn; auto]. intro Hm.
          assert (existsb (Nat.eqb b) mov = true) by (apply existsb_exists; exists b; split; auto; apply Nat.eqb_refl). congruence.
        * intros f [<-|H]; [eauto|apply C; auto].
  Qed.

  (** C181.  The motion test without teleporting, for a start configuration with its values and readable fluents with one pose per body: the planner
      starts with the rover at q1, the posed bodies at their poses and all else as it was; its obstacles are the fixed and the posed
      bodies, or none without collisions; the held bodies are attached to the link of the last joint in the order of the fluents; and
      the test answers what the planner found. *)
  Theorem motion_test_exact : forall fixed collisions holonomic rover b js vs q2 fluents (w : world (V := V) (X := X)),
    NoDup js -> js <> [] -> List.length js = List.length vs -> Forall readable fluents -> NoDup (posed fluents) ->
    let q1 := mkConf b js (Some vs) in
    exists w' obstacles, motion_test plan fixed collisions false holonomic rover q1 q2 fluents w =
        (Ok (option_map (Along rover (c_joints q2)) (plan holonomic rover js (c_values q2)
               (map (fun bx => (rover, last js 0, snd bx, fst bx)) (held fluents)) obstacles w')), w') /\
      (forall o, In o obstacles <-> collisions = true /\ (In o fixed \/ In o (posed fluents))) /\
      (forall i j v, nth_error js i = Some j -> nth_error vs i = Some v -> joint_at w' b j = v) /\
      (forall b' j, b' <> b \/ ~ In j js -> joint_at w' b' j = joint_at w b' j) /\
      (forall o x, In (AtPose o (BodyObject o x)) fluents -> pose_of w' o = x) /\
      (forall o, ~ In o (posed fluents) -> pose_of w' o = pose_of w o).
  Proof.
    intros fixed collisions holonomic rover b js vs q2 fluents w N Ne L F Np q1.
    set (w1 := set_all b (combine js vs) w).
    assert (As : forall v : world (V := V) (X := X), assign q1 v = Ok (set_all b (combine js vs) v)).
    { intro v. unfold assign, q1, set_joint_positions. cbn. now rewrite (proj2 (Nat.eqb_eq _ _) L). }
    destruct (set_all_spec b js vs w N L) as (A1 & B1 & C1). fold w1 in A1, B1, C1.
    destruct (read_ok rover (last js 0) fluents [] [] w1 F) as (mov & w2 & E & Mv & J2 & P2 & O2); [now rewrite app_nil_r|].
    destruct (set_all_spec b js vs w2 N L) as (A3 & B3 & C3).
    exists (set_all b (combine js vs) w2), (if collisions then fixed ++ mov else []). split; [|split; [|split; [|split; [|split]]]].
    - unfold motion_test. cbn [c_joints q1]. destruct js as [|j js]; [congruence|]. rewrite As. fold w1.
      rewrite (last_default js j) , E, As. reflexivity.
    - intro o. destruct collisions; [rewrite in_app_iff, Mv|]; cbn; intuition discriminate.
    - exact A3.
    - intros b' j H. rewrite B3 by auto. rewrite J2. now apply B1.
    - intros o x H. rewrite C3. now apply P2.
    - intros o H. rewrite C3, O2 by auto. apply C1.
  Qed.

  (** C181.  It answers for no other fluents: unknown predicates, a second pose of a body, and poses and grasps without assign and value raise. *)
  Theorem motion_test_raises : forall fixed collisions holonomic rover q1 q2 fluents (w : world (V := V) (X := X)) a,
    fst (motion_test plan fixed collisions false holonomic rover q1 q2 fluents w) = Ok a ->
    c_values q1 <> None /\ c_joints q1 <> [] /\ NoDup (posed fluents) /\
    forall f, In f fluents -> match f with
      | AtGrasp _ _ g => exists b x, g = BodyObject b x | AtPose _ p => exists b x, p = BodyObject b x | Other _ => False end.
  Proof.
    intros fixed collisions holonomic rover q1 q2 fluents w a H. unfold motion_test in H.
    destruct (c_joints q1) as [|j js]; [discriminate|]. unfold assign in H. destruct (c_values q1) as [vs|]; [|discriminate].
    destruct (set_joint_positions _ _ vs w) as [w1|]; [|discriminate].
    destruct (read_fluents rover (last js j) fluents [] [] w1) as [[[att mov]|e] w2] eqn:E; [|discriminate].
    destruct (read_only _ _ _ _ _ _ _ _ E) as (A & _ & C). repeat split; auto; discriminate.
  Qed.

  (** The order of the fluents, which come from a set, does not matter to a planner that only looks at the sets of obstacles and attachments. *)
  Theorem fluent_order : forall fixed collisions holonomic rover b js vs q2 fluents fluents' (w : world (V := V) (X := X)),
    NoDup js -> js <> [] -> List.length js = List.length vs -> Forall readable fluents -> NoDup (posed fluents) -> Permutation fluents fluents' ->
    (forall att att' obs obs' v v', Permutation att att' -> (forall o, In o obs <-> In o obs') ->
       (forall b j, joint_at v b j = joint_at v' b j) -> (forall o, pose_of v o = pose_of v' o) ->
       plan holonomic rover js (c_values q2) att obs v = plan holonomic rover js (c_values q2) att' obs' v') ->
    let q1 := mkConf b js (Some vs) in
    fst (motion_test plan fixed collisions false holonomic rover q1 q2 fluents w) = fst (motion_test plan fixed collisions false holonomic rover q1 q2 fluents' w).
  Proof.
    intros fixed collisions holonomic rover b js vs q2 fl fl' w N Ne L F Np Pm Ext q1.
    assert (Pp : Permutation (posed fl) (posed fl')) by now apply Permutation_flat_map.
    assert (F' : Forall readable fl') by (eapply Permutation_Forall; eauto).
    assert (Np' : NoDup (posed fl')) by (eapply Permutation_NoDup; eauto).
    destruct (motion_test_exact fixed collisions holonomic rover b js vs q2 fl w N Ne L F Np) as (w1 & o1 & E1 & O1 & A1 & B1 & C1 & D1).
    destruct (motion_test_exact fixed collisions holonomic rover b js vs q2 fl' w N Ne L F' Np') as (w2 & o2 & E2 & O2 & A2 & B2 & C2 & D2).
    fold q1 in E1, E2. rewrite E1, E2. cbn [fst]. do 2 f_equal. apply Ext.
    - apply Permutation_map. now apply Permutation_flat_map.
    - intro o. rewrite O1, O2. assert (In o (posed fl) <-> In o (posed fl')) by (split; apply Permutation_in; auto; now apply Permutation_sym). tauto.
    - intros b' j. destruct (Nat.eq_dec b' b) as [->|Nb]; [|rewrite B1, B2; auto]. destruct (in_dec Nat.eq_dec j js) as [Hj|Hj]; [|rewrite B1, B2; auto].
      apply In_nth_error in Hj. destruct Hj as (i & Hi). assert (Hv : nth_error vs i <> None) by (apply nth_error_Some; rewrite <- L; apply nth_error_Some; congruence).
      destruct (nth_error vs i) as [v|] eqn:Ev; [|congruence]. now rewrite (A1 i j v Hi Ev), (A2 i j v Hi Ev).
    - intro o. destruct (in_dec Nat.eq_dec o (posed fl)) as [Ho|Ho].
      + apply in_flat_map in Ho. destruct Ho as (f & Hf & Ho). pose proof (proj1 (Forall_forall _ _) F f Hf) as R.
        destruct f as [|b0 p|]; cbn in Ho; [tauto| |tauto]. destruct Ho as [<-|[]]. destruct R as (x & ->).
        rewrite (C1 b0 x Hf). symmetry. apply C2. eapply Permutation_in; eauto.
      + rewrite D1 by auto. symmetry. apply D2. intro H. apply Ho. eapply Permutation_in; [apply Permutation_sym|]; eauto.
  Qed.
End Fluent.
Print Assumptions conf_assigned.
Print Assumptions base_conf_back.
Print Assumptions motion_test_exact.
Print Assumptions motion_test_raises.
Print Assumptions fluent_order.

(** ** Examples: joint positions and poses are numbers *)
Definition w0 : world (V := nat) (X := nat) := World (fun _ _ => 0) (fun b => 100 + b).
(** a planner that refuses when an obstacle stands at pose 7 and otherwise goes straight *)
Definition straight : bool -> nat -> list nat -> option (list nat) -> list (attachment (X := nat)) -> list nat -> world (V := nat) (X := nat) -> option (list (list nat)) :=
  fun _ r js goal _ obs w => if existsb (fun o => pose_of w o =? 7) obs then None else option_map (fun g => [map (joint_at w r) js; g]) goal.
Definition q (x y : nat) : conf (V := nat) := new_conf w0 1 [3; 4] (Some [x; y]).
Definition fl : list (fluent (X := nat)) := [AtPose 5 (BodyObject 5 6); AtGrasp 1 8 (BodyObject 8 2); AtPose 9 (BodyObject 9 7)].

Example ex_conf : exists w', assign (q 10 20) w0 = Ok w' /\ joint_at w' 1 3 = 10 /\ joint_at w' 1 4 = 20 /\ joint_at w' 1 5 = 0 /\ joint_at w' 2 3 = 0.
Proof. eexists. repeat split. Qed.
Example ex_conf_short : assign (new_conf w0 1 [3; 4] (Some [10])) w0 = Err AssertionError.
Proof. reflexivity. Qed.
Definition joint_named (r : nat) (n : string) : nat := if String.eqb n "x" then 0 else if String.eqb n "y" then 1 else 2.
Example ex_base : NoDup (base_joints joint_named 1) /\ (exists w', set_base_conf joint_named 1 [5; 6; 7] w0 = Ok w' /\ get_base_conf joint_named 1 w' = [5; 6; 7]).
Proof. split; [repeat constructor; cbn; intuition discriminate|]. eexists. split; reflexivity. Qed.
(** body 9 at pose 7 blocks the way, unless collisions are off *)
Example ex_test :
  Forall readable fl /\ NoDup (posed fl) /\ held fl = [(8, 2)] /\
  fst (motion_test straight [2] true false true 1 (q 10 20) (q 30 40) fl w0) = Ok None /\
  fst (motion_test straight [2] false false true 1 (q 10 20) (q 30 40) fl w0) = Ok (Some (Along 1 [3; 4] [[10; 20]; [30; 40]])) /\
  pose_of (snd (motion_test straight [2] false false true 1 (q 10 20) (q 30 40) fl w0)) 5 = 6.
Proof. split; [repeat constructor; cbn; eauto|]. split; [repeat constructor; cbn; intuition discriminate|]. repeat split. Qed.
Example ex_raise :
  fst (motion_test straight [2] true false true 1 (q 10 20) (q 30 40) (fl ++ [AtPose 5 (BodyObject 5 1)]) w0) = Err AssertionError /\
  fst (motion_test straight [2] true false true 1 (q 10 20) (q 30 40) (fl ++ [Other "atconf"]) w0) = Err (NotImplementedError "atconf") /\
  fst (motion_test straight [2] true false true 1 (new_conf w0 1 [3; 4] None) (q 30 40) fl w0) = Err TypeError.
Proof. repeat split. Qed.
Example ex_order : Permutation fl (rev fl) /\
  fst (motion_test straight [2] true false true 1 (q 10 20) (q 30 40) fl w0) = fst (motion_test straight [2] true false true 1 (q 10 20) (q 30 40) (rev fl) w0).
Proof. split; [apply Permutation_rev|reflexivity]. Qed.

(** C181 is false: a configuration made without values should hold the present ones, but assigning it raises. *)
Theorem conf_reads_joints_refuted : exists (w : world (V := nat) (X := nat)) b js,
  c_values (new_conf w b js None) <> Some (get_joint_positions b js w) /\ assign (new_conf w b js None) w = Err TypeError.
Proof. exists w0, 1, [3; 4]. split; [discriminate|reflexivity]. Qed.
Print Assumptions conf_reads_joints_refuted.

(** The poses of the turtlebot's own problems cannot be read from a fluent: with one the test raises, after the rover was moved, where the planner would find a
    path for the same pose. *)
Theorem own_poses_refuted : exists fixed rover q1 q2 b x (w : world (V := nat) (X := nat)),
  fst (motion_test straight fixed true false true rover q1 q2 [AtPose b (ObjectPose x)] w) = Err AttributeError /\
  joint_at (snd (motion_test straight fixed true false true rover q1 q2 [AtPose b (ObjectPose x)] w)) rover 3 <> joint_at w rover 3 /\
  exists t, fst (motion_test straight fixed true false true rover q1 q2 [AtPose b (BodyObject b x)] w) = Ok (Some t).
Proof. exists [2], 1, (q 10 20), (q 30 40), 5, 6, w0. split; [reflexivity|]. split; [discriminate|]. eexists. reflexivity. Qed.
Print Assumptions own_poses_refuted.

(** Teleporting answers whatever stands in the way and whatever the fluents are. *)
Theorem teleport_checks_refuted : exists fixed rover q1 q2 fluents (w : world (V := nat) (X := nat)) t,
  fst (motion_test straight fixed true false true rover q1 q2 fluents w) = Ok None /\
  fst (motion_test straight fixed true true true rover q1 q2 fluents w) = Ok (Some t) /\
  fst (motion_test straight fixed true true true rover q1 q2 (fluents ++ [Other "atconf"]) w) = Ok (Some t).
Proof. exists [2], 1, (q 10 20), (q 30 40), fl, w0. eexists. repeat split. Qed.
Print Assumptions teleport_checks_refuted.
