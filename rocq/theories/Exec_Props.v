(** Properties C145 and C146: running a plan of the turtlebot. *)
From Coq Require Import Arith List Bool ZArith QArith Qreals Reals Lra Lia.
From Verif Require Import NkGraph_Model NkGraph_Spec Prm_Model Prm_Spec Sp_Oracle PrmAnn_Inst Strips Plane Sat_Model Sat_Props Bag_Model Bag_Props
  World_Model World_Props WorldCheck_Props Interp_Model Interp_Props Anytime_Model Stream_Model Stream_Props StreamWorld_Props Turtle_Model Turtle_Props Exec_Model.
Import ListNotations.
Close Scope Q_scope.
Local Open Scope R_scope.

(** ** Specification *)
(** [t] answers a call of the motion stream from [q1] to [q2] among [obstacles] for a body of
    extents [e]: for some sampler, neighbour index and shortest-path search *)
Definition motion_answer (obstacles : list obox) (teleport : bool) (e : R * R) (q1 q2 : qpt) (t : list rpt) : Prop :=
  exists dist smp ann sp max_samples factor fuel pos min_samples sizes path,
    ((forall p q, (0 <= dist p q)%Q) /\ (forall p q, (dist p q == dist q p)%Q) /\ ann_shape dist ann /\ sp_correct sp) /\
    (1 <= min_samples)%Z /\
    motion_stream dist (bag_verdicts obstacles (fst e) (snd e)) smp ann sp max_samples factor q1 q2 32 fuel pos min_samples = Some (Found sizes path) /\
    trajectory teleport path = Some (map (fun p => [fst p; snd p]) t).
(** the facts of the plan come from the three streams (run.py 129-133) *)
Record certified (F : facts) (V : values) (obstacles : list obox) (teleport : bool) (re : R * R) (ext : nat -> R * R) : Prop := {
  c_ik : forall o p q, Kin F o p q = true -> conf_xy V q = get_ik (pose_xy V p);
  c_motion : forall v q1 t q2, Motion F v q1 t q2 = true -> motion_answer obstacles teleport re (conf_xy V q1) (conf_xy V q2) (traj_of V t);
  c_hold : forall v q1 t q2 o, MotionHolding F v q1 t q2 o = true -> motion_answer obstacles teleport (ext o) (conf_xy V q1) (conf_xy V q2) (traj_of V t);
  c_boxes : Forall obox_ok obstacles /\ Forall thick obstacles;
  c_rover : 1/1000 <= fst re /\ 1/1000 <= snd re;
  c_ext : forall o, Target F o = true -> fst re <= fst (ext o) /\ snd re <= snd (ext o) }.
(** the world when the plan starts *)
Definition starts (V : values) (q0 : nat) (targets inits goals : list nat) (s : sim) : Prop :=
  rov s = real (conf_xy V q0) /\ att s = [] /\ forall o i g, In (o, (i, g)) (zip3 targets inits goals) -> body s o = real (pose_xy V i).
(** within [m] per coordinate of a place clear of the obstacles *)
Definition near_clear (obstacles : list obox) (m : R) (e : R * R) (p : rpt) : Prop :=
  exists c, clear_of obstacles (fst e / 2) (snd e / 2) c /\ Rabs (fst p - fst c) <= m /\ Rabs (snd p - snd c) <= m.
Definition margin (teleport : bool) : R := if teleport then 0 else 4/100.
(** from one state to the next the rover moves at most [d] and every body stays or moves along *)
Definition smooth (d : option R) (a b : sim) : Prop :=
  match d with Some d => distance [fst (rov a); snd (rov a)] [fst (rov b); snd (rov b)] <= d | None => True end /\
  forall o, body b o = body a o \/ vsub (body b o) (body a o) = vsub (rov b) (rov a).
Definition pace (teleport : bool) : option R := if teleport then None else Some (25/1000).
Fixpoint chain {A} (r : A -> A -> Prop) (a : A) (l : list A) : Prop :=
  match l with [] => True | b :: l' => r a b /\ chain r b l' end.

(** ** Answers of the motion stream *)
Definition vec (p : rpt) : list R := [fst p; snd p].
Lemma vec_inj p q : vec p = vec q -> p = q.
Proof. destruct p, q. unfold vec. cbn. congruence. Qed.
Lemma vec_coords p : coords p = vec (real p).
Proof. reflexivity. Qed.
Lemma answer_facts obstacles teleport e q1 q2 t : Forall obox_ok obstacles -> Forall thick obstacles -> 1/1000 <= fst e -> 1/1000 <= snd e ->
  motion_answer obstacles teleport e q1 q2 t ->
  (exists t', t = real q1 :: t') /\ (forall d, last t d = real q2) /\ (forall p, In p t -> near_clear obstacles (margin teleport) e p) /\
  (forall d i a b, pace teleport = Some d -> nth_error t i = Some a -> nth_error t (S i) = Some b -> distance (vec a) (vec b) <= d) /\
  clear_of obstacles (fst e / 2) (snd e / 2) (real q1) /\ clear_of obstacles (fst e / 2) (snd e / 2) (real q2).
Proof.
  intros K T A B (dist & smp & ann & sp & maxs & factor & fuel & pos & mins & sizes & path & (D1 & D2 & AN & SP) & M & R & E).
  fold vec in E. change (map (fun p => [fst p; snd p]) t) with (map vec t) in E.
  destruct (stream_trajectory_near_clear dist smp ann sp D1 D2 AN SP maxs factor q1 q2 32 pos mins obstacles (fst e) (snd e) fuel sizes path K T A B M ltac:(lia) R)
    as (W & out & E1 & _ & C & H1 & H2 & N).
  destruct (leg_accepted dist smp ann sp D1 D2 AN SP maxs factor q1 q2 32 pos mins obstacles (fst e) (snd e) fuel sizes path K T A B M ltac:(lia) R) as ((mids & Ep & _) & _).
  assert (Hd : forall l, hd_error (map vec l) = Some (coords q1) -> exists l', l = real q1 :: l').
  { intros [|p l] H; [discriminate|]. exists l. f_equal. apply vec_inj. change (Some (vec p) = Some (vec (real q1))) in H. congruence. }
  assert (La : forall l, l <> [] -> last (map vec l) [] = coords q2 -> forall d, last l d = real q2).
  { intros l Nl H d. destruct (exists_last Nl) as (l' & x & ->). rewrite map_app in H. change (map vec [x]) with [vec x] in H. rewrite last_last in H. rewrite last_last. apply vec_inj. exact H. }
  assert (Ends : In q1 path /\ In q2 path).
  { rewrite Ep. split; [now left|]. apply in_or_app. right. apply in_or_app. right. now left. }
  destruct teleport.
  - destruct (stream_teleport_clear dist smp ann sp D1 D2 AN SP maxs factor q1 q2 32 pos mins obstacles (fst e) (snd e) fuel sizes path K T A B M ltac:(lia) R)
      as (out' & E' & _ & H1' & H2' & N'). rewrite E in E'. injection E' as <-.
    destruct (Hd t H1') as (t' & Et). split; [eauto|]. split; [apply La; [subst t; discriminate|exact H2']|]. split; [|split; [discriminate|split; apply W, Ends]].
    intros p Hp. destruct (N' (vec p) (in_map vec _ _ Hp)) as (x & y & Ev & Cl). exists (x, y). split; auto.
    assert (p = (x, y)) by (apply vec_inj; exact Ev). subst p. cbn. rewrite !Rminus_eq_0, Rabs_R0. lra.
  - rewrite E in E1. injection E1 as <-. destruct (Hd t H1) as (t' & Et). split; [eauto|]. split; [apply La; [subst t; discriminate|exact H2]|].
    split; [|split; [|split; apply W, Ends]].
    + intros p Hp. destruct (N (vec p) (in_map vec _ _ Hp)) as (x & y & c & Ev & Cl & X & Y). exists c. split; auto.
      assert (p = (x, y)) by (apply vec_inj; exact Ev). subst p. cbn [fst snd margin]. lra.
    + intros d i a b Ed Ha Hb. injection Ed as <-. apply (C i); rewrite nth_error_map; [now rewrite Ha|now rewrite Hb].
Qed.

(** ** Carrying *)
Definition bodies (h : option nat) (b : nat -> rpt) (r : rpt) (o : nat) : rpt :=
  match h with Some o1 => if (o =? o1)%nat then r else b o | None => b o end.
Definition carry (h : option nat) (b : nat -> rpt) (s : sim) : Prop :=
  att s = match h with Some o => [(o, (0, 0))] | None => [] end /\ forall o, body s o = bodies h b (rov s) o.
Lemma vplus0 p : vplus p (0, 0) = p.
Proof. destruct p. unfold vplus. cbn. f_equal; ring. Qed.
Lemma assign_carry h b s c : carry h b s -> carry h b (assign (Sim c (body s) (att s))).
Proof.
  intros [A B]. unfold carry, assign. cbn [att rov body]. split; auto. intro o. rewrite A. destruct h as [o1|]; cbn [fold_left bodies].
  - cbn [fst snd]. unfold put. rewrite vplus0. destruct (o =? o1)%nat eqn:E; auto. rewrite B. cbn [bodies]. now rewrite E.
  - apply B.
Qed.
Lemma carry_smooth d h b s s' : carry h b s -> carry h b s' ->
  match d with Some d => distance (vec (rov s)) (vec (rov s')) <= d | None => True end -> smooth d s s'.
Proof.
  intros [_ B] [_ B'] D. split; auto. intro o. rewrite B, B'. unfold bodies. destruct h as [o1|]; auto. destruct (o =? o1)%nat; auto.
Qed.
Lemma follow_carry h b path : forall s, carry h b s -> exists frames s', follow path s = (frames, s') /\ carry h b s' /\ rov s' = last path (rov s) /\
  Forall (fun fr => carry h b fr /\ In (rov fr) path) frames /\ s' = last frames s /\
  forall d, match d with Some d => chain (fun p q => distance (vec p) (vec q) <= d) (rov s) path | None => True end -> chain (smooth d) s frames.
Proof.
  induction path as [|c path IH]; intros s C.
  - exists [], s. cbn. auto 8.
  - cbn [follow]. set (s1 := assign (Sim c (body s) (att s))). assert (C1 : carry h b s1) by (now apply assign_carry).
    destruct (IH s1 C1) as (fr & s' & E & C' & L & Fa & Ls & Ch). rewrite E. exists (s1 :: fr), s'. split; auto. split; auto.
    assert (R1 : rov s1 = c) by reflexivity. split; [|split; [|split]].
    + rewrite L, R1. destruct path as [|c2 path]; auto. cbn [last]. clear. revert c2. induction path as [|c3 path IH]; intro c2; auto. cbn [last]. apply IH.
    + constructor; [split; auto; now left|]. eapply Forall_impl; [|exact Fa]. cbn. intros a [H1 H2]. split; auto.
    + rewrite Ls. destruct fr as [|f fr]; auto. clear. cbn [last]. revert f. induction fr as [|f2 fr IH]; intro f; auto. cbn [last]. apply IH.
    + intros d Hd. cbn [chain]. split.
      * apply (carry_smooth d h b); auto. destruct d as [d|]; auto. rewrite R1. apply Hd.
      * apply Ch. destruct d as [d|]; auto. rewrite R1. apply Hd.
Qed.
Lemma chain_app {A} (r : A -> A -> Prop) l1 : forall a l2, chain r a l1 -> chain r (last l1 a) l2 -> chain r a (l1 ++ l2).
Proof.
  induction l1 as [|b l1 IH]; intros a l2 H1 H2; auto. cbn [chain app] in *. destruct H1 as [H H1]. split; auto. apply IH; auto.
  replace (last l1 b) with (last (b :: l1) a); auto. destruct l1 as [|c l1]; auto. clear. cbn [last]. revert c. induction l1 as [|d l1 IH]; intro c; auto. cbn [last]. apply IH.
Qed.
Lemma last_app_default {A} (l1 l2 : list A) : forall d, last (l1 ++ l2) d = last l2 (last l1 d).
Proof.
  induction l2 as [|x l2 IH] using rev_ind; intro d; [now rewrite app_nil_r|]. rewrite app_assoc, !last_last. reflexivity.
Qed.
Lemma chain_nth {A} (r : A -> A -> Prop) l : forall a, (forall i x y, nth_error (a :: l) i = Some x -> nth_error (a :: l) (S i) = Some y -> r x y) -> chain r a l.
Proof.
  induction l as [|b l IH]; intros a H; cbn; auto. split; [apply (H 0%nat); reflexivity|]. apply IH. intros i x y Hx Hy. apply (H (S i)); auto.
Qed.
Lemma distance_refl p : distance (vec p) (vec p) = 0.
Proof. unfold distance, vec. cbn. rewrite !Rminus_eq_0, !Rmult_0_l, !Rplus_0_l. apply sqrt_0. Qed.

Lemma near_clear_at obstacles m e p : 0 <= m -> clear_of obstacles (fst e / 2) (snd e / 2) p -> near_clear obstacles m e p.
Proof. intros M C. exists p. rewrite !Rminus_eq_0, Rabs_R0. auto. Qed.
Lemma near_clear_smaller obstacles m e e' p : fst e' <= fst e -> snd e' <= snd e -> near_clear obstacles m e p -> near_clear obstacles m e' p.
Proof. intros X Y (c & C & H). exists c. split; auto. intros o v Io A B. apply (C o v Io); lra. Qed.
Lemma margin_pos teleport : 0 <= margin teleport.
Proof. destruct teleport; cbn; lra. Qed.

Section Run.
  Variables (F : facts) (V : values) (obstacles : list obox) (teleport : bool) (re : R * R) (ext : nat -> R * R) (rover : nat).
  Hypothesis CE : certified F V obstacles teleport re ext.
  Hypothesis RV : forall v, Rover F v = true -> v = rover.
  Variable St : nat -> nat -> Prop.

  Definition rel (w : world) (s : sim) : Prop := exists b, carry (held w) b s /\ rov s = real (conf_xy V (conf w rover)) /\
    forall o, Target F o = true -> held w <> Some o -> b o = real (pose_xy V (place w o)).
  Definition frame_ok (fr : sim) : Prop := exists h b, carry h b fr /\
    (forall o, Target F o = true -> h <> Some o -> exists p, St o p /\ b o = real (pose_xy V p)) /\
    near_clear obstacles (margin teleport) re (rov fr) /\ forall o, h = Some o -> near_clear obstacles (margin teleport) (ext o) (rov fr).

  (** the object in hand has been checked where it is: a holding motion starts there *)
  Lemma held_clear plan w w' o : wrun F w plan w' -> held w = Some o -> held w' = None ->
    clear_of obstacles (fst (ext o) / 2) (snd (ext o) / 2) (real (conf_xy V (conf w rover))).
  Proof.
    intros W H N. inversion W as [|x a w1 plan' y S W']; subst; [congruence|]. inversion S; subst; cbn in H; [discriminate|].
    injection H as ->. cbn [conf]. assert (v = rover) by auto. subst v.
    destruct (c_boxes _ _ _ _ _ _ CE) as [K T]. destruct (c_rover _ _ _ _ _ _ CE) as [A B]. destruct (c_ext _ _ _ _ _ _ CE o ltac:(assumption)) as [X Y].
    match goal with Hm : MotionHolding _ _ _ _ _ _ = true |- _ => pose proof (c_hold _ _ _ _ _ _ CE _ _ _ _ _ Hm) as M end.
    apply (answer_facts obstacles teleport (ext o) _ _ _ K T ltac:(lra) ltac:(lra) M).
  Qed.

  (** one trajectory *)
  Lemma go w q2 t e s b : carry (held w) b s -> rov s = real (conf_xy V (conf w rover)) ->
    (1/1000 <= fst e /\ 1/1000 <= snd e) -> motion_answer obstacles teleport e (conf_xy V (conf w rover)) (conf_xy V q2) (traj_of V t) ->
    exists frames s', follow (traj_of V t) s = (frames, s') /\ carry (held w) b s' /\ rov s' = real (conf_xy V q2) /\
      (forall fr, In fr frames -> carry (held w) b fr /\ near_clear obstacles (margin teleport) e (rov fr)) /\ s' = last frames s /\ chain (smooth (pace teleport)) s frames.
  Proof.
    intros C R [A B] M. destruct (c_boxes _ _ _ _ _ _ CE) as [K T].
    destruct (answer_facts obstacles teleport e _ _ _ K T A B M) as ((t' & Et) & La & Nc & Cs & _).
    destruct (follow_carry (held w) b (traj_of V t) s C) as (fr & s' & E & C' & L & Fa & Ls & Ch).
    exists fr, s'. split; auto. split; auto. split; [rewrite L; apply La|]. split; [|split; auto].
    - intros f Hf. rewrite Forall_forall in Fa. destruct (Fa f Hf). split; auto.
    - apply Ch. destruct (pace teleport) as [d|] eqn:Ep; auto. rewrite Et. cbn [chain]. split.
      + rewrite R, distance_refl. destruct teleport; [discriminate|]. injection Ep as <-. lra.
      + apply chain_nth. intros i x y. rewrite <- Et. now apply Cs.
  Qed.

  Lemma run_ok plan : forall w w' s, wrun F w plan w' -> held w' = None -> rel w s ->
    (forall o, Target F o = true -> St o (place w o)) -> (forall v q1 t q2 p o, In (Place v q1 t q2 p o) plan -> St o p) ->
    exists frames s', perform_all (traj_of V) (flat_map commands_of plan) s = Some (frames, s') /\ rel w' s' /\ s' = last frames s /\
      chain (smooth (pace teleport)) s frames /\ Forall frame_ok frames.
  Proof.
    induction plan as [|a plan IH]; intros w w' s W N Re P0 PP.
    - inversion W; subst. exists [], s. cbn. auto 6.
    - inversion W as [|x a' w1 plan' y S W']; subst. destruct Re as (b & C & R & Pl). destruct (c_boxes _ _ _ _ _ _ CE) as [K T]. destruct (c_rover _ _ _ _ _ _ CE) as [A B].
      inversion S as [c l v t q2 o Rv To Mo Ki|c l v t q2 o p Rv To Mo Ki Po]; subst; cbn [held conf place] in *; assert (v = rover) by auto; subst v;
        destruct (c_ext _ _ _ _ _ _ CE o To) as [X Y].
      + pose proof (c_motion _ _ _ _ _ _ CE _ _ _ _ Mo) as M. pose proof (c_ik _ _ _ _ _ _ CE _ _ _ Ki) as Ik. unfold get_ik in Ik.
        destruct (go (World c None l) q2 t re s b C R (conj A B) M) as (fr & s1 & E1 & C1 & R1 & Fr1 & Ls1 & Ch1). cbn [held] in C1, Fr1.
        assert (Bo : body s1 o = rov s1). { rewrite (proj2 C1). cbn [bodies]. rewrite (Pl o To) by discriminate. now rewrite R1, Ik. }
        set (s2 := assign (Sim (rov s1) (body s1) (att s1 ++ [(o, vsub (body s1 o) (rov s1))]))).
        assert (C2 : carry (Some o) b s2).
        { unfold carry, s2, assign. cbn [att rov body]. rewrite (proj1 C1). cbn [app]. rewrite Bo. unfold vsub. rewrite !Rminus_eq_0. split; auto.
          intro o'. cbn [fold_left fst snd]. unfold put. rewrite vplus0. cbn [bodies]. destruct (o' =? o)%nat; auto. apply (proj2 C1). }
        assert (R2 : rov s2 = rov s1) by reflexivity.
        destruct (IH _ _ s2 W' N) as (fr2 & s3 & E3 & Re3 & Ls3 & Ch3 & Fa3).
        { exists b. cbn [held conf place]. unfold upd. rewrite Nat.eqb_refl. split; auto. split; [now rewrite R2|]. intros o' To' _. apply Pl; auto. discriminate. }
        { exact P0. }
        { intros. eapply PP. right. eassumption. }
        cbn [flat_map commands_of app perform_all perform]. rewrite E1.
        assert (attached s1 o = false) as -> by (unfold attached; now rewrite (proj1 C1)). fold s2. rewrite E3.
        exists (fr ++ [s2] ++ fr2), s3. split; auto. split; auto. split; [|split].
        * rewrite !last_app_default. cbn [last]. exact Ls3.
        * apply chain_app; auto. rewrite <- Ls1. cbn [app chain]. split; auto. unfold smooth. split.
          -- fold (vec (rov s1)). rewrite R2, distance_refl. destruct teleport; cbn; lra.
          -- intro o'. left. rewrite (proj2 C2), (proj2 C1). cbn [bodies]. destruct (o' =? o)%nat eqn:Eo; auto. apply Nat.eqb_eq in Eo. subst o'. rewrite R2, <- Bo. apply (proj2 C1).
        * assert (Kf : forall o', Target F o' = true -> exists p, St o' p /\ b o' = real (pose_xy V p)).
          { intros o' To'. exists (l o'). split; auto. apply Pl; auto. discriminate. }
          apply Forall_app. split; [|constructor; auto].
          -- apply Forall_forall. intros f Hf. destruct (Fr1 f Hf) as [Cf Nf]. exists None, b. split; auto. split; auto. split; auto. discriminate.
          -- assert (Cl : clear_of obstacles (fst (ext o) / 2) (snd (ext o) / 2) (rov s2)).
             { rewrite R2, R1. pose proof (held_clear _ _ _ o W' eq_refl N) as H. cbn [conf] in H. unfold upd in H. now rewrite Nat.eqb_refl in H. }
             exists (Some o), b. split; auto. split; auto. split.
             ++ apply (near_clear_smaller obstacles _ (ext o)); auto. apply near_clear_at; auto. apply margin_pos.
             ++ intros o' H. injection H as <-. apply near_clear_at; auto. apply margin_pos.
      + pose proof (c_hold _ _ _ _ _ _ CE _ _ _ _ _ Mo) as M. pose proof (c_ik _ _ _ _ _ _ CE _ _ _ Ki) as Ik. unfold get_ik in Ik.
        destruct (go (World c (Some o) l) q2 t (ext o) s b C R ltac:(lra) M) as (fr & s1 & E1 & C1 & R1 & Fr1 & Ls1 & Ch1). cbn [held] in C1, Fr1.
        set (s2 := assign (Sim (rov s1) (body s1) (filter (fun a => negb (fst a =? o)%nat) (att s1)))).
        assert (C2 : carry None (put b o (rov s1)) s2).
        { unfold carry, s2, assign. cbn [att rov body]. rewrite (proj1 C1). cbn [filter fst]. rewrite Nat.eqb_refl. cbn [negb]. split; auto.
          intro o'. cbn [fold_left bodies]. rewrite (proj2 C1). reflexivity. }
        assert (R2 : rov s2 = rov s1) by reflexivity.
        assert (Kb : forall o', Target F o' = true -> put b o (rov s1) o' = real (pose_xy V (upd l o p o'))).
        { intros o' To'. unfold put, upd. destruct (o' =? o)%nat eqn:Eo; [now rewrite R1, Ik|]. apply Pl; auto. intro H. injection H as ->. now rewrite Nat.eqb_refl in Eo. }
        assert (Ps : forall o', Target F o' = true -> St o' (upd l o p o')).
        { intros o' To'. unfold upd. destruct (o' =? o)%nat eqn:Eo; auto. apply Nat.eqb_eq in Eo. subst o'. eapply PP. left. reflexivity. }
        destruct (IH _ _ s2 W' N) as (fr2 & s3 & E3 & Re3 & Ls3 & Ch3 & Fa3).
        { exists (put b o (rov s1)). cbn [held conf place]. unfold upd at 1. rewrite Nat.eqb_refl. split; auto. }
        { exact Ps. }
        { intros. eapply PP. right. eassumption. }
        cbn [flat_map commands_of app perform_all perform]. rewrite E1.
        assert (attached s1 o = true) as -> by (unfold attached; rewrite (proj1 C1); cbn [existsb fst]; now rewrite Nat.eqb_refl). fold s2. rewrite E3.
        assert (Kf : forall o', Target F o' = true -> Some o <> Some o' -> exists p0, St o' p0 /\ b o' = real (pose_xy V p0)).
        { intros o' To' No. exists (l o'). split; auto. }
        assert (Cl : clear_of obstacles (fst (ext o) / 2) (snd (ext o) / 2) (rov s2)).
        { rewrite R2, R1. apply (answer_facts obstacles teleport (ext o) _ _ _ K T ltac:(lra) ltac:(lra) M). }
        exists (fr ++ [s2] ++ fr2), s3. split; auto. split; auto. split; [|split].
        * rewrite !last_app_default. cbn [last]. exact Ls3.
        * apply chain_app; auto. rewrite <- Ls1. cbn [app chain]. split; auto. unfold smooth. split.
          -- fold (vec (rov s1)). rewrite R2, distance_refl. destruct teleport; cbn; lra.
          -- intro o'. left. rewrite (proj2 C2), (proj2 C1). reflexivity.
        * apply Forall_app. split; [|constructor; auto].
          -- apply Forall_forall. intros f Hf. destruct (Fr1 f Hf) as [Cf Nf]. exists (Some o), b. split; auto. split; auto. split.
             ++ now apply (near_clear_smaller obstacles _ (ext o)).
             ++ intros o' H. now injection H as <-.
          -- exists None, (put b o (rov s1)). split; auto. split; [intros o' To' _; exists (upd l o p o'); auto|]. split; [|discriminate].
             apply (near_clear_smaller obstacles _ (ext o)); auto. apply near_clear_at; auto. apply margin_pos.
  Qed.
End Run.

(** ** C145 *)
Lemma held_is_target F plan w w' : wrun F w plan w' -> (forall o, held w = Some o -> Target F o = true) -> forall o, held w' = Some o -> Target F o = true.
Proof.
  induction 1 as [w|w a w1 plan w2 S W IH]; auto. intros H. apply IH. inversion S; subst; cbn; [|discriminate]. intros o' E. now injection E as <-.
Qed.
Lemma solved_run F rover q0 targets inits goals plan st : problem F rover targets inits goals ->
  run F (init_state rover q0 targets inits goals) plan = Some st -> goal_reached targets inits goals st = true ->
  exists w', wrun F (init_world q0 targets inits goals) plan w' /\ held w' = None /\
    forall o i g, In (o, (i, g)) (zip3 targets inits goals) -> place w' o = g.
Proof.
  intros PB H G. pose proof (init_agrees F rover q0 targets inits goals PB) as A. pose proof (pb_fst _ _ _ _ _ PB) as E.
  destruct (proj1 (domain_is_machine F _ _ plan A) st H) as (w' & W & As). exists w'. split; auto.
  assert (P : forall o i g, In (o, (i, g)) (zip3 targets inits goals) -> held w' <> Some o /\ g = place w' o).
  { intros o i g Hi. unfold goal_reached in G. rewrite forallb_forall in G. specialize (G _ Hi). apply (ag_pose _ _ _ As); auto.
    apply (pb_targets _ _ _ _ _ PB). rewrite <- E. apply in_map_iff. exists (o, (i, g)). auto. }
  split; [|intros o i g Hi; symmetry; eapply P; eauto].
  destruct (held w') as [o|] eqn:Eh; auto. exfalso. assert (T : Target F o = true) by (apply (held_is_target F plan _ _ W); [discriminate|auto]).
  apply (pb_targets _ _ _ _ _ PB) in T. rewrite <- E in T. apply in_map_iff in T as ((o' & i & g) & E1 & Hi). cbn in E1. subst o'. destruct (P o i g Hi). congruence.
Qed.

Section Delivery.
  Variables (F : facts) (V : values) (obstacles : list obox) (teleport : bool) (re : R * R) (ext : nat -> R * R)
    (rover q0 : nat) (targets inits goals : list nat) (plan : list action) (st : state) (s0 : sim).
  Hypothesis PB : problem F rover targets inits goals.
  Hypothesis CE : certified F V obstacles teleport re ext.
  Hypothesis RN : run F (init_state rover q0 targets inits goals) plan = Some st.
  Hypothesis GR : goal_reached targets inits goals st = true.
  Hypothesis S0 : starts V q0 targets inits goals s0.

  (** the poses at which an object may stand *)
  Definition stands (o p : nat) : Prop := (exists g, In (o, (p, g)) (zip3 targets inits goals)) \/ exists v q1 t q2, In (Place v q1 t q2 p o) plan.

  Lemma delivery : exists frames fin, execute (traj_of V) plan s0 = Some (frames, fin) /\ fin = last frames s0 /\
    (exists w', held w' = None /\ rel F V rover w' fin /\ forall o i g, In (o, (i, g)) (zip3 targets inits goals) -> place w' o = g) /\
    chain (smooth (pace teleport)) s0 frames /\ Forall (frame_ok F V obstacles teleport re ext stands) frames.
  Proof.
    destruct (solved_run F rover q0 targets inits goals plan st PB RN GR) as (w' & W & N & G).
    destruct (post_process_correct F rover q0 targets inits goals plan st PB RN) as (cs & E & Ec & _).
    pose proof (pb_fst _ _ _ _ _ PB) as Ez. assert (Nd : NoDup (map fst (zip3 targets inits goals))) by (rewrite Ez; apply PB).
    assert (L : forall o, Target F o = true -> exists i g, In (o, (i, g)) (zip3 targets inits goals) /\ look (zip3 targets inits goals) o = i).
    { intros o T. apply (pb_targets _ _ _ _ _ PB) in T. rewrite <- Ez in T. apply in_map_iff in T as ((o' & i & g) & E1 & Hi). cbn in E1. subst o'.
      exists i, g. split; auto. eapply look_in; eauto. }
    destruct S0 as (R0 & A0 & B0).
    destruct (run_ok F V obstacles teleport re ext rover CE (fun v Hv => proj1 (pb_rover _ _ _ _ _ PB v) Hv) stands plan _ _ s0 W N) as (fr & fin & Ex & Re & Ls & Ch & Fa).
    - exists (body s0). cbn [init_world held conf place]. split; [split; auto|]. split; auto. intros o T _. destruct (L o T) as (i & g & Hi & ->). eapply B0; eauto.
    - cbn. intros o T. destruct (L o T) as (i & g & Hi & ->). left. eauto.
    - intros v q1 t q2 p o Hi. right. eauto.
    - exists fr, fin. unfold execute. rewrite E, Ec. split; auto. split; auto. split; [exists w'|]; auto.
  Qed.

  (** The commands of a plan that reaches the goal run without exception, from any state that agrees
      with the problem, and every target ends where its goal pose is, with nothing attached. *)
  Theorem execution_delivers : exists frames fin, execute (traj_of V) plan s0 = Some (frames, fin) /\ fin = last frames s0 /\ att fin = [] /\
    forall o i g, In (o, (i, g)) (zip3 targets inits goals) -> body fin o = real (pose_xy V g).
  Proof.
    destruct delivery as (fr & fin & E & Ls & (w' & N & (b & C & R & Pl) & G) & _). exists fr, fin. split; auto. split; auto. rewrite N in C. destruct C as [A B].
    split; auto. intros o i g Hi. rewrite B. cbn [bodies]. rewrite (Pl o); [now rewrite (G o i g Hi)| |congruence].
    apply (pb_targets _ _ _ _ _ PB). rewrite <- (pb_fst _ _ _ _ _ PB). apply in_map_iff. exists (o, (i, g)). auto.
  Qed.

  (** In between nothing jumps: the rover moves at most 25 mm at a time (unless it teleports), and a
      target moves only with the rover.  At most one target is attached; it is exactly at the rover,
      the others stand at their initial pose or where the plan put them.  The rover, and the target it
      carries, are within four centimetres per coordinate of a place clear of the obstacles (without
      any deviation when teleporting). *)
  Theorem execution_frames : exists frames fin, execute (traj_of V) plan s0 = Some (frames, fin) /\ chain (smooth (pace teleport)) s0 frames /\
    forall fr, In fr frames ->
      near_clear obstacles (margin teleport) re (rov fr) /\
      (forall o o', attached fr o = true -> attached fr o' = true -> o = o') /\
      forall o, In o targets ->
        (attached fr o = true /\ body fr o = rov fr /\ near_clear obstacles (margin teleport) (ext o) (body fr o)) \/
        (attached fr o = false /\ exists p, stands o p /\ body fr o = real (pose_xy V p)).
  Proof.
    destruct delivery as (frs & fin & E & _ & _ & Ch & Fa). exists frs, fin. split; auto. split; auto. intros fr Hf.
    rewrite Forall_forall in Fa. destruct (Fa fr Hf) as (h & b & [A B] & Pl & N & Nh). split; auto.
    assert (At : forall o, attached fr o = true <-> h = Some o).
    { intro o. unfold attached. rewrite A. destruct h as [o1|]; cbn [existsb fst]; [|split; discriminate]. rewrite orb_false_r, Nat.eqb_eq. split; congruence. }
    split; [intros o o' H1 H2; apply At in H1, H2; congruence|]. intros o Ho. destruct (attached fr o) eqn:Ea.
    - left. apply At in Ea. subst h. split; auto. assert (Bo : body fr o = rov fr) by (rewrite B; cbn [bodies]; now rewrite Nat.eqb_refl). split; auto. rewrite Bo. auto.
    - right. split; auto. assert (Nh' : h <> Some o) by (rewrite <- At; congruence). destruct (Pl o (proj2 (pb_targets _ _ _ _ _ PB o) Ho) Nh') as (p & Sp & Bp). exists p. split; auto.
      rewrite B. unfold bodies. destruct h as [o1|]; auto. destruct (o =? o1)%nat eqn:Eo; auto. apply Nat.eqb_eq in Eo. congruence.
  Qed.
End Delivery.
Print Assumptions execution_delivers.
Print Assumptions execution_frames.

(** ** A run in hallway_manip(): everything on the middle line *)
Definition on_mid (x : Q) : qpt := (x, (3 # 4)%Q).
Definition midline (p : qpt) : Prop := exists x, p = on_mid x /\ (- (14 # 5) <= x <= 14 # 5)%Q.
Lemma midline_real p : midline p -> exists x, real p = (x, 3/4) /\ -14/5 <= x <= 14/5.
Proof.
  intros (x & -> & X1 & X2). exists (Q2R x). split; [unfold real, on_mid; cbn [fst snd]; f_equal; rewrite Q2R_frac; lra|].
  apply Qle_Rle in X1, X2. rewrite Q2R_opp in X1. rewrite Q2R_frac in *. lra.
Qed.
Lemma mid_clear ex x : 0 <= ex <= 2716/10000 -> -14/5 <= x <= 14/5 -> clear_of manip_walls (ex / 2) (ex / 2) (x, 3/4).
Proof.
  intros X Hx. apply (walls_clear _ _ _ _ _ _ manip_world). intros v VX VY. apply (inner_free _ _ _ _ manip_world). cbn [fst snd] in VX, VY.
  assert (Ab : forall z k, Rabs z <= k -> - k <= z <= k) by (intros z k' Hz; pose proof (Rle_abs z); pose proof (Rle_abs (- z)); rewrite Rabs_Ropp in *; lra).
  apply Ab in VX. apply Ab in VY. right; right. lra.
Qed.
Lemma mid_accepted ex b : 1/1000 <= ex <= 2716/10000 -> (forall m, In m b -> midline (fst m) /\ midline (snd m)) -> bag_verdicts manip_walls ex ex b = accept_all b.
Proof.
  intros X H. destruct manip_boxes as [K T]. destruct b as [|m0 b0] eqn:E; [unfold bag_verdicts; rewrite (check_eq manip_walls ex ex K T); try lra; reflexivity|]. rewrite <- E in *.
  assert (N : map (fun m => (real (fst m), real (snd m))) b <> []) by (rewrite E; discriminate).
  unfold bag_verdicts. destruct (proj1 (box_check_exact manip_walls ex ex _ K ltac:(lra) ltac:(lra) N) (conj T (conj (proj1 X) (proj1 X)))) as (vs & n & Ev & Len & Hn & Hv).
  rewrite Ev. assert (Ea : accept_all b = Some (map (fun _ => true) b)) by (rewrite E; reflexivity). rewrite Ea. f_equal.
  rewrite map_length in Len. apply nth_ext with true true; [now rewrite map_length|]. intros i Hi. rewrite Len in Hi.
  destruct (nth_error b i) as [m|] eqn:Em; [|apply nth_error_None in Em; lia].
  destruct (Hv i (real (fst m), real (snd m))) as (v & Hvi & Hc & _); [rewrite nth_error_map, Em; reflexivity|].
  assert (Vt : v = true).
  { apply Hc. intros k Hk. destruct (H m (nth_error_In _ _ Em)) as [M1 M2]. apply midline_real in M1 as (x & -> & Hx). apply midline_real in M2 as (y & -> & Hy).
    unfold along. cbn [fst snd]. set (t := INR k / INR (n - 1)). assert (D : 0 < INR (n - 1)) by (apply lt_0_INR; lia).
    assert (T0 : 0 <= t <= 1).
    { unfold t. split; [apply Rmult_le_pos; [apply pos_INR|apply Rlt_le, Rinv_0_lt_compat; auto]|].
      apply Rmult_le_reg_r with (INR (n - 1)); auto. unfold Rdiv. rewrite Rmult_assoc, Rinv_l, Rmult_1_r, Rmult_1_l by lra. apply le_INR. lia. }
    replace (3/4 + t * (3/4 - 3/4)) with (3/4) by ring. apply mid_clear; [lra|]. nra. }
  rewrite (nth_error_nth _ _ _ Hvi), Vt. clear. revert i. induction b as [|m b IH]; intros [|i]; cbn; auto.
Qed.

Definition mid_samples (i : nat) : qpt := on_mid (nth i [0; -2; 0; 2]%Q 0%Q).
Lemma mid_samples_on i : midline (mid_samples i).
Proof. destruct i as [|[|[|[|[|i]]]]]; eexists; (split; [unfold mid_samples; cbn [nth]; reflexivity|]); split; discriminate. Qed.
Definition mid_run (ex : R) (a b : Q) := motion_stream qdist (bag_verdicts manip_walls ex ex) mid_samples qann sp_enum 10 (3 # 2)%Q (on_mid a) (on_mid b) 32 5 0 3.
Lemma mid_run_eq ex a b : 1/1000 <= ex <= 2716/10000 -> (- (14 # 5) <= a <= 14 # 5)%Q -> (- (14 # 5) <= b <= 14 # 5)%Q ->
  mid_run ex a b = motion_stream qdist accept_all mid_samples qann sp_enum 10 (3 # 2)%Q (on_mid a) (on_mid b) 32 5 0 3.
Proof.
  intros X A B. apply (motion_stream_ext qdist _ accept_all mid_samples qann sp_enum midline (fun b => mid_accepted ex b X) mid_samples_on); eexists; eauto.
Qed.
Definition unvec (l : list R) : rpt := (nth 0 l 0, nth 1 l 0).
(** the interpolated trajectory of a path *)
Definition drive (path : list qpt) : list rpt := map unvec (match trajectory false path with Some out => out | None => [] end).
Lemma drive_ok path : path <> [] -> trajectory false path = Some (map vec (drive path)) /\ forall p, In p path -> In (real p) (drive path).
Proof.
  intro N. destruct (interpolation_refines (25/1000) 2 (map coords path)) as (out & E & Rf & _).
  - lra.
  - destruct path; [congruence|discriminate].
  - intros p Hp. apply in_map_iff in Hp as (x & <- & _). reflexivity.
  - unfold drive, trajectory. rewrite E. split.
    + f_equal. rewrite map_map. symmetry. rewrite <- (map_id out) at 2. apply map_ext_in. intros c Hc.
      destruct (refines_points _ _ Rf c Hc) as [I|(j & a & b & t & Ha & Hb & _ & ->)].
      * apply in_map_iff in I as (p & <- & _). reflexivity.
      * rewrite nth_error_map in Ha, Hb. destruct (nth_error path j); [|discriminate]. destruct (nth_error path (S j)); [|discriminate]. cbn in Ha, Hb.
        injection Ha as <-. injection Hb as <-. now rewrite between_coords.
    + intros p Hp. destruct (interpolation_keeps_vertices _ _ Rf) as (_ & _ & Su).
      assert (I : In (coords p) out).
      { assert (G : forall (l1 l2 : list (list R)) x, subsequence l1 l2 -> In x l1 -> In x l2) by (clear; intros l1 l2 x S; induction S; cbn in *; intuition).
        apply (G _ _ _ Su). now apply in_map. }
      apply in_map_iff. exists (coords p). split; auto.
Qed.

(** two targets in room 2, to be brought to room 1; the rover starts in the middle of room 1 *)
Definition mid_facts : facts := {|
  Rover := fun v => (v =? 0)%nat; Target := fun o => (o =? 1)%nat || (o =? 2)%nat; Pose := fun _ _ => true;
  Kin := fun _ p q => (p =? q)%nat;
  Motion := fun v q1 t q2 => ((q1 =? 9) && (t =? 93) && (q2 =? 3))%nat || ((q1 =? 5) && (t =? 54) && (q2 =? 4))%nat;
  MotionHolding := fun v q1 t q2 o => ((q1 =? 3) && (t =? 135) && (q2 =? 5) && (o =? 1))%nat || ((q1 =? 4) && (t =? 146) && (q2 =? 6) && (o =? 2))%nat |}.
Definition mid_conf (q : nat) : qpt := on_mid (nth q [0; 0; 0; 5 # 2; 2; -2; - (5 # 2); 0; 0; - (9 # 4)]%Q 0%Q).
Definition path93 := map on_mid [- (9 # 4); -2; 0; 2; 5 # 2]%Q.
Definition path135 := map on_mid [5 # 2; 2; -2; -2]%Q.
Definition path54 := map on_mid [-2; -2; 0; 2; 2]%Q.
Definition path146 := map on_mid [2; 0; -2; - (5 # 2)]%Q.
Definition mid_values : values := Values mid_conf mid_conf (fun t =>
  if (t =? 93)%nat then drive path93 else if (t =? 135)%nat then drive path135 else if (t =? 54)%nat then drive path54 else drive path146).
Definition mid_ext : R * R := (2716/10000, 2716/10000).
Definition mid_rover : R * R := (716/10000, 716/10000).
Lemma mid_answer e a b path : (e = mid_ext \/ e = mid_rover) -> (- (14 # 5) <= a <= 14 # 5)%Q -> (- (14 # 5) <= b <= 14 # 5)%Q -> path <> [] ->
  motion_stream qdist accept_all mid_samples qann sp_enum 10 (3 # 2)%Q (on_mid a) (on_mid b) 32 5 0 3 = Some (Found [3%Z] path) ->
  motion_answer manip_walls false e (on_mid a) (on_mid b) (drive path).
Proof.
  intros He A B N E. exists qdist, mid_samples, qann, sp_enum, 10%Z, (3 # 2)%Q, 5%nat, 0%nat, 3%Z, [3%Z], path.
  split; [split; [apply qdist_nonneg|split; [apply qdist_sym|split; [apply qann_shape|apply sp_enum_correct]]]|]. split; [lia|]. split; [|apply drive_ok; auto].
  destruct He as [-> | ->]; cbn [fst snd mid_ext mid_rover]; rewrite <- E; apply mid_run_eq; auto; lra.
Qed.
Lemma mid_certified : certified mid_facts mid_values manip_walls false mid_rover (fun _ => mid_ext).
Proof.
  constructor.
  - cbn. intros o p q H. apply Nat.eqb_eq in H. now subst.
  - cbn [Motion mid_facts]. intros v q1 t q2 H. apply orb_true_iff in H as [H|H]; apply andb_true_iff in H as [H H3]; apply andb_true_iff in H as [H1 H2]; apply Nat.eqb_eq in H1, H2, H3; subst;
      [apply (mid_answer mid_rover (- (9 # 4))%Q (5 # 2)%Q path93)|apply (mid_answer mid_rover (-2)%Q 2%Q path54)];
      first [now right|split; discriminate|discriminate|vm_compute; reflexivity].
  - cbn [MotionHolding mid_facts]. intros v q1 t q2 o H. apply orb_true_iff in H as [H|H]; apply andb_true_iff in H as [H H4]; apply andb_true_iff in H as [H H3]; apply andb_true_iff in H as [H1 H2];
      apply Nat.eqb_eq in H1, H2, H3; subst;
      [apply (mid_answer mid_ext (5 # 2)%Q (-2)%Q path135)|apply (mid_answer mid_ext 2%Q (- (5 # 2))%Q path146)];
      first [now left|split; discriminate|discriminate|vm_compute; reflexivity].
  - exact manip_boxes.
  - cbn. lra.
  - intros. cbn. lra.
Qed.
Lemma mid_problem : problem mid_facts 0 [1; 2]%nat [3; 4]%nat [5; 6]%nat.
Proof.
  constructor; auto.
  - repeat constructor; simpl; intuition discriminate.
  - intro v. simpl. apply Nat.eqb_eq.
  - intro o. simpl. rewrite orb_true_iff, !Nat.eqb_eq. intuition.
Qed.
Definition mid_start : sim := Sim (real (mid_conf 9)) (fun o => real (mid_conf (o + 2))) [].
Lemma mid_starts : starts mid_values 9 [1; 2]%nat [3; 4]%nat [5; 6]%nat mid_start.
Proof. split; [reflexivity|]. split; [reflexivity|]. intros o i g [H|[H|[]]]; injection H as <- <- <-; reflexivity. Qed.
Lemma mid_plan : exists st, run mid_facts (init_state 0 9 [1; 2]%nat [3; 4]%nat [5; 6]%nat) plan_ex = Some st /\ goal_reached [1; 2]%nat [3; 4]%nat [5; 6]%nat st = true.
Proof. eexists. split; [vm_compute; reflexivity|]. vm_compute. auto. Qed.

Example execution_case : exists frames fin, execute (traj_of mid_values) plan_ex mid_start = Some (frames, fin) /\ chain (smooth (Some (25/1000))) mid_start frames /\
  body fin 1%nat = (-2, 3/4) /\ body fin 2%nat = (-5/2, 3/4).
Proof.
  destruct mid_plan as (st & RN & GR).
  destruct (execution_delivers _ _ _ _ _ _ _ _ _ _ _ _ _ _ mid_problem mid_certified RN GR mid_starts) as (fr & fin & E & _ & _ & G).
  destruct (execution_frames _ _ _ _ _ _ _ _ _ _ _ _ _ _ mid_problem mid_certified RN GR mid_starts) as (fr' & fin' & E' & Ch & _).
  rewrite E in E'. injection E' as <- <-. exists fr, fin. split; auto. split; auto.
  rewrite (G 1%nat 3%nat 5%nat), (G 2%nat 4%nat 6%nat) by (cbn; auto). unfold real, mid_values, mid_conf, on_mid, Q2R. cbn. split; f_equal; lra.
Qed.

Lemma follow_visits path : forall s c, In c path -> exists fr, In fr (fst (follow path s)) /\ rov fr = c.
Proof.
  induction path as [|p path IH]; intros s c [].
  - subst p. cbn [follow]. destruct (follow path _). eexists. split; [now left|reflexivity].
  - cbn [follow]. destruct (IH (assign (Sim p (body s) (att s))) c H) as (fr & I & R). destruct (follow path _) as [l s2]. exists fr. split; auto. now right.
Qed.
(** The other targets are not obstacles: two targets, apart at the start and at the end by more than
    their diameters, are at the same place on the way. *)
Theorem execution_targets_apart_refuted : exists F V re ext rover q0 targets inits goals plan st s0 frames fin,
  problem F rover targets inits goals /\ certified F V manip_walls false re ext /\ starts V q0 targets inits goals s0 /\
  run F (init_state rover q0 targets inits goals) plan = Some st /\ goal_reached targets inits goals st = true /\
  execute (traj_of V) plan s0 = Some (frames, fin) /\
  (forall o o', In o targets -> In o' targets -> o <> o' -> fst (ext o) < Rabs (fst (body s0 o) - fst (body s0 o')) /\ fst (ext o) < Rabs (fst (body fin o) - fst (body fin o'))) /\
  exists fr o o', In fr frames /\ In o targets /\ In o' targets /\ o <> o' /\ body fr o = body fr o'.
Proof.
  destruct mid_plan as (st & RN & GR).
  destruct (execution_delivers _ _ _ _ _ _ _ _ _ _ _ _ _ _ mid_problem mid_certified RN GR mid_starts) as (frs & fin & E & _ & _ & G).
  exists mid_facts, mid_values, mid_rover, (fun _ => mid_ext), 0%nat, 9%nat, [1; 2]%nat, [3; 4]%nat, [5; 6]%nat, plan_ex, st, mid_start, frs, fin.
  split; [apply mid_problem|]. split; [apply mid_certified|]. split; [apply mid_starts|]. split; auto. split; auto. split; auto. split.
  - pose proof (G 1%nat 3%nat 5%nat ltac:(cbn; auto)) as G1. pose proof (G 2%nat 4%nat 6%nat ltac:(cbn; auto)) as G2.
    assert (A : forall x, fst mid_ext < Rabs x <-> fst mid_ext < x \/ x < - fst mid_ext).
    { intro x. cbn. unfold Rabs. destruct (Rcase_abs x); split; intros; lra. }
    intros o o' [<-|[<-|[]]] [<-|[<-|[]]] Ne; try congruence; rewrite G1, G2, !A; unfold real, mid_start, mid_values, mid_conf, on_mid, Q2R; cbn; split; lra.
  - set (fr1 := follow (traj_of mid_values 93) mid_start) in *.
    unfold execute in E. change (post_process plan_ex) with (Some [Traj 93; Attach 0 1; Traj 135; Detach 0 1; Traj 54; Attach 0 2; Traj 146; Detach 0 2]) in E.
    destruct (follow_carry None (body mid_start) (traj_of mid_values 93) mid_start) as (f1 & s1 & E1 & C1 & R1 & _); [split; auto|].
    cbn [perform_all perform] in E. rewrite E1 in E.
    assert (L1 : rov s1 = real (mid_conf 3)).
    { rewrite R1. apply (answer_facts manip_walls false mid_rover (mid_conf 9)); try apply manip_boxes; [cbn; lra|cbn; lra|]. apply (c_motion _ _ _ _ _ _ mid_certified 0%nat 9%nat 93%nat 3%nat). reflexivity. }
    assert (A1 : attached s1 1 = false) by (unfold attached; now rewrite (proj1 C1)). rewrite A1 in E.
    set (s2 := assign _) in E.
    assert (Bo : body s1 1%nat = rov s1) by (rewrite (proj2 C1), L1; reflexivity).
    assert (C2 : carry (Some 1%nat) (body mid_start) s2).
    { unfold carry, s2, assign. cbn [att rov body]. rewrite (proj1 C1). cbn [app]. rewrite Bo. unfold vsub. rewrite !Rminus_eq_0. split; auto.
      intro o'. cbn [fold_left fst snd]. unfold put. rewrite vplus0. cbn [bodies]. destruct (o' =? 1)%nat; auto. apply (proj2 C1). }
    destruct (follow_carry _ _ (traj_of mid_values 135) s2 C2) as (f2 & s3 & E2 & _ & _ & Fa & _).
    destruct (follow_visits (traj_of mid_values 135) s2 (real (on_mid 2))) as (fr & I & R).
    { apply drive_ok; [discriminate|]. right. now left. }
    rewrite E2 in I, E. cbn [fst] in I. exists fr, 1%nat, 2%nat. split; [|split; [now left|split; [right; now left|split; [discriminate|]]]].
    + destruct (if attached s3 1 then _ else _) as [[f4 s4]|]; [|discriminate]. destruct (follow (traj_of mid_values 54) s4) as [f5 s5].
      destruct (if attached s5 2 then _ else _) as [[f6 s6]|]; [|discriminate]. destruct (follow (traj_of mid_values 146) s6) as [f7 s7].
      destruct (if attached s7 2 then _ else _) as [[f8 s8]|]; [|discriminate]. injection E as <- _. apply in_or_app. right. right. apply in_or_app. left. exact I.
    + rewrite Forall_forall in Fa. destruct (Fa fr I) as [[_ B] _]. rewrite !B. cbn [bodies Nat.eqb]. rewrite R. reflexivity.
Qed.
Print Assumptions execution_targets_apart_refuted.
