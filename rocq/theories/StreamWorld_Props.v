(** Properties C137 and C138: the trajectories of the turtlebot's motion stream among boxes, and in
    the hallway worlds (exps/tamp_environment/turtlebot_move/streams.py 121-230). *)
From Coq Require Import Reals List ZArith QArith Qreals Bool Lra Lia Psatz.
From Verif Require Import NkGraph_Model NkGraph_Spec Prm_Model Prm_Spec Sp_Oracle PrmAnn_Inst
  Plane Sat_Model Sat_Props Bag_Model Bag_Props World_Model World_Props WorldCheck_Props Interp_Model Interp_Props Anytime_Model Stream_Model Stream_Props.
Import ListNotations.
Close Scope Q_scope.
Local Open Scope R_scope.

(** ** The checker of boxes is a checker of arrays *)
Section Boxes.
  Variables (obstacles : list obox) (ex ey : R).
  Hypothesis K : Forall obox_ok obstacles.
  Hypothesis T : Forall thick obstacles.
  Hypotheses (A : 1/1000 <= ex) (B : 1/1000 <= ey).

  Lemma check_eq batch : check_motions obstacles ex ey batch = is_motion_valid (outline4 (robot_oobb ex ey)) (map outline4 obstacles) batch.
  Proof.
    unfold check_motions. rewrite box_hull_thick by (try apply robot_ok; unfold thick, robot_oobb; cbn; lra).
    now rewrite (proj1 (sequence_hulls obstacles K) T).
  Qed.
  Lemma box_array_checker : array_checker (bag_verdicts obstacles ex ey).
  Proof.
    unfold bag_verdicts. split; [rewrite check_eq; reflexivity|]. intros b N. rewrite check_eq.
    rewrite verdicts; [|now apply shapes|intro E; apply N; now destruct b].
    rewrite map_map. eexists (fun m => _). reflexivity.
  Qed.
  Lemma accepted_swap p q : accepted_by obstacles ex ey (q, p) -> accepted_by obstacles ex ey (p, q).
  Proof.
    intros (batch & vs & i & E & Hm & Hv). exists (map (fun m => (snd m, fst m)) batch), vs, i.
    rewrite check_eq in *. rewrite motion_check_symmetric by now apply shapes. split; auto. split; auto.
    rewrite nth_error_map, Hm. reflexivity.
  Qed.
  Lemma judged_accepted batch p q : judged (bag_verdicts obstacles ex ey) batch (p, q) -> accepted_by obstacles ex ey (real p, real q).
  Proof.
    intros (vs & i & E & Hm & Hv). exists (map (fun m => (real (fst m), real (snd m))) batch), vs, i. split; auto. split; auto.
    rewrite nth_error_map, Hm. reflexivity.
  Qed.
  Lemma accepted_clear p q : accepted_by obstacles ex ey (p, q) ->
    clear_of obstacles (ex / 2) (ey / 2) p /\ clear_of obstacles (ex / 2) (ey / 2) q /\
    forall t, 0 <= t <= 1 -> exists c, clear_of obstacles (ex / 2) (ey / 2) c /\
      Rabs (fst (along (p, q) t) - fst c) < 4/100 /\ Rabs (snd (along (p, q) t) - snd c) < 4/100.
  Proof.
    intros (batch & vs & i & E & Hm & Hv). rewrite check_eq in E.
    destruct (accepted_motion _ _ batch vs i (p, q) (shapes _ _ _ K T A B) E Hm Hv) as (F1 & F2 & F3).
    cbn [fst snd] in F1, F2. rewrite <- !free_iff by auto. split; auto. split; auto. intros t Ht.
    destruct (F3 t Ht) as (u & _ & F & X & Y). exists (along (p, q) u). rewrite <- free_iff by auto. auto.
  Qed.
End Boxes.

(** ** Points of an interpolated path *)
Lemma increasing_In ts : forall lo hi t, increasing lo ts hi -> In t ts -> lo < t < hi.
Proof.
  induction ts as [|x ts IH]; intros lo hi t H I; [destruct I|]. destruct H as [L H].
  assert (Up : forall l a, increasing a l hi -> a < hi).
  { clear. induction l as [|y l IH]; intros a H; cbn in H; [auto|]. destruct H as [L H]. specialize (IH y H). lra. }
  destruct I as [<-|I]; [split; auto; now apply (Up ts)|]. destruct (IH x hi t H I). lra.
Qed.
Lemma refines_points path out : refines path out -> forall c, In c out ->
  In c path \/ exists j p q t, nth_error path j = Some p /\ nth_error path (S j) = Some q /\ 0 < t < 1 /\ c = between p q t.
Proof.
  induction 1 as [p|p q path ts out I R IH]; intros c Hc; [left; auto|].
  destruct Hc as [<-|Hc]; [left; now left|]. apply in_app_or in Hc as [Hc|Hc].
  - right. apply in_map_iff in Hc as (t & <- & Ht). exists 0%nat, p, q, t. split; auto. split; auto. split; auto. now apply (increasing_In ts).
  - destruct (IH c Hc) as [H|(j & a & b & t & Ha & Hb & Ht & E)]; [left; now right|]. right. exists (S j), a, b, t. auto.
Qed.
Lemma between_coords p q t : between (coords p) (coords q) t = [fst (along (real p, real q) t); snd (along (real p, real q) t)].
Proof. unfold coords, real, along. cbn [between fst snd]. f_equal; [ring|]. f_equal. ring. Qed.

(** ** C137 *)
Section Trajectory.
  Variable dist : qpt -> qpt -> Q.
  Variable smp : nat -> qpt.
  Variable ann : list qpt -> nat -> rows.
  Variable sp : sp_oracle.
  Hypothesis dist_nonneg : forall p q, (0 <= dist p q)%Q.
  Hypothesis dist_sym : forall p q, (dist p q == dist q p)%Q.
  Hypothesis ANN : ann_shape dist ann.
  Hypothesis SP : sp_correct sp.
  Variables (max_samples : Z) (factor : Q) (start goal : qpt) (k pos : nat) (min_samples : Z).

  Lemma leg_accepted obstacles ex ey fuel sizes path : Forall obox_ok obstacles -> Forall thick obstacles -> 1/1000 <= ex -> 1/1000 <= ey ->
    (1 <= min_samples)%Z -> (1 <= k)%nat ->
    motion_stream dist (bag_verdicts obstacles ex ey) smp ann sp max_samples factor start goal k fuel pos min_samples = Some (Found sizes path) ->
    (exists mids, path = [start] ++ mids ++ [goal] /\ mids <> []) /\
    forall j p q, nth_error path j = Some p -> nth_error path (S j) = Some q -> accepted_by obstacles ex ey (real p, real q).
  Proof.
    intros K T A B M Hk H.
    destruct (stream_path_checked dist _ smp ann sp (box_array_checker obstacles ex ey K T A B) dist_nonneg dist_sym ANN SP
      max_samples factor start goal k pos min_samples fuel sizes path M Hk H) as ((mids & Ep & Nm & _) & L).
    split; [eauto|]. intros j p q Hp Hq. destruct (L j p q Hp Hq) as (b & [J|J]).
    - now apply (judged_accepted obstacles ex ey b).
    - apply accepted_swap; auto. now apply (judged_accepted obstacles ex ey b).
  Qed.

  Lemma interpolated (path : list qpt) mids : path = [start] ++ mids ++ [goal] -> exists out,
    trajectory false path = Some out /\ refines (map coords path) out /\ close_steps (25/1000) out /\
    hd_error out = Some (coords start) /\ last out [] = coords goal.
  Proof.
    intro Ep. destruct (interpolation_refines (25/1000) 2 (map coords path)) as (out & E & R & C).
    - lra.
    - rewrite Ep. discriminate.
    - intros p Hp. apply in_map_iff in Hp as (x & <- & _). reflexivity.
    - exists out. destruct (interpolation_keeps_vertices _ _ R) as (H1 & H2 & _). repeat split; auto.
      + rewrite H1, Ep. reflexivity.
      + rewrite H2, Ep, app_assoc, map_app. apply last_last.
  Qed.

  (** every waypoint is clear, and every configuration of the trajectory lies within four
      centimetres per coordinate of a clear one *)
  Theorem stream_trajectory_near_clear obstacles ex ey fuel sizes path : Forall obox_ok obstacles -> Forall thick obstacles ->
    1/1000 <= ex -> 1/1000 <= ey -> (1 <= min_samples)%Z -> (1 <= k)%nat ->
    motion_stream dist (bag_verdicts obstacles ex ey) smp ann sp max_samples factor start goal k fuel pos min_samples = Some (Found sizes path) ->
    (forall p, In p path -> clear_of obstacles (ex / 2) (ey / 2) (real p)) /\
    exists out, trajectory false path = Some out /\ refines (map coords path) out /\ close_steps (25/1000) out /\
      hd_error out = Some (coords start) /\ last out [] = coords goal /\
      forall c, In c out -> exists x y p, c = [x; y] /\ clear_of obstacles (ex / 2) (ey / 2) p /\ Rabs (x - fst p) < 4/100 /\ Rabs (y - snd p) < 4/100.
  Proof.
    intros K T A B M Hk H. destruct (leg_accepted obstacles ex ey fuel sizes path K T A B M Hk H) as ((mids & Ep & Nm) & L).
    assert (W : forall p, In p path -> clear_of obstacles (ex / 2) (ey / 2) (real p)).
    { intros p Hp. apply In_nth_error in Hp as (j & Hj).
      destruct (nth_error path (S j)) as [q|] eqn:Q.
      - apply (accepted_clear obstacles ex ey K T A B _ _ (L j p q Hj Q)).
      - destruct j as [|j].
        + exfalso. subst path. destruct mids; [congruence|discriminate].
        + destruct (nth_error path j) as [q|] eqn:Q'.
          * apply (accepted_clear obstacles ex ey K T A B _ _ (L j q p Q' Hj)).
          * exfalso. apply nth_error_None in Q'. assert (S j < length path)%nat by (apply nth_error_Some; congruence). lia. }
    split; auto. destruct (interpolated path mids Ep) as (out & E & R & C & H1 & H2). exists out.
    do 5 (split; auto). intros c Hc. destruct (refines_points _ _ R c Hc) as [I|(j & a & b & t & Ha & Hb & Ht & ->)].
    - apply in_map_iff in I as (p & <- & Ip). exists (fst (real p)), (snd (real p)), (real p). split; [reflexivity|]. split; auto.
      rewrite !Rminus_eq_0, Rabs_R0. lra.
    - rewrite nth_error_map in Ha, Hb. destruct (nth_error path j) as [p|] eqn:Ep1; [|discriminate]. destruct (nth_error path (S j)) as [q|] eqn:Eq1; [|discriminate].
      cbn in Ha, Hb. injection Ha as <-. injection Hb as <-. rewrite between_coords.
      destruct (proj2 (proj2 (accepted_clear obstacles ex ey K T A B _ _ (L j p q Ep1 Eq1))) t ltac:(lra)) as (c & F & X & Y).
      eexists _, _, c. split; [reflexivity|]. auto.
  Qed.

  (** with teleporting the trajectory is the path: it leads from the start to the goal through clear configurations *)
  Theorem stream_teleport_clear obstacles ex ey fuel sizes path : Forall obox_ok obstacles -> Forall thick obstacles ->
    1/1000 <= ex -> 1/1000 <= ey -> (1 <= min_samples)%Z -> (1 <= k)%nat ->
    motion_stream dist (bag_verdicts obstacles ex ey) smp ann sp max_samples factor start goal k fuel pos min_samples = Some (Found sizes path) ->
    exists out, trajectory true path = Some out /\ (3 <= length out)%nat /\ hd_error out = Some (coords start) /\ last out [] = coords goal /\
      forall c, In c out -> exists x y, c = [x; y] /\ clear_of obstacles (ex / 2) (ey / 2) (x, y).
  Proof.
    intros K T A B M Hk H. destruct (leg_accepted obstacles ex ey fuel sizes path K T A B M Hk H) as ((mids & Ep & Nm) & _).
    destruct (stream_trajectory_near_clear obstacles ex ey fuel sizes path K T A B M Hk H) as (W & _).
    exists (map coords path). split; [reflexivity|]. split; [rewrite map_length, Ep, !app_length; destruct mids; [congruence|]; simpl; lia|].
    split; [now rewrite Ep|]. split; [rewrite Ep, app_assoc, map_app; apply last_last|].
    intros c Hc. apply in_map_iff in Hc as (p & <- & Hp). exists (Q2R (fst p)), (Q2R (snd p)). split; [reflexivity|]. exact (W p Hp).
  Qed.

  (** in a hallway world the trajectory stays in the rooms and the hallway; in particular none leads out *)
  Theorem stream_trajectory_inside rl hl gap ex ey fuel sizes path : world_ok rl hl gap -> 1/1000 <= ex -> 1/1000 <= ey ->
    (1 <= min_samples)%Z -> (1 <= k)%nat -> inner rl hl gap (real start) ->
    motion_stream dist (bag_verdicts (map wall_oobb (hallway_walls rl hl gap)) ex ey) smp ann sp max_samples factor start goal k fuel pos min_samples = Some (Found sizes path) ->
    inner rl hl gap (real goal) /\
    exists out, trajectory false path = Some out /\
      forall c, In c out -> exists x y p, c = [x; y] /\ inner rl hl gap p /\ body_free (hallway_walls rl hl gap) (ex / 2) (ey / 2) p /\
        Rabs (x - fst p) < 4/100 /\ Rabs (y - snd p) < 4/100.
  Proof.
    intros W A B M Hk I0 H. destruct (walls_boxes rl hl gap W) as [K T].
    destruct (leg_accepted _ ex ey fuel sizes path K T A B M Hk H) as ((mids & Ep & Nm) & L).
    destruct (stream_trajectory_near_clear _ ex ey fuel sizes path K T A B M Hk H) as (Wc & _).
    assert (In_ : forall p, In p (map real path) -> inner rl hl gap p).
    { apply (accepted_path_stays rl hl gap ex ey); auto.
      - intros j p q Hp Hq. rewrite nth_error_map in Hp, Hq. destruct (nth_error path j) as [p'|] eqn:E1; [|discriminate].
        destruct (nth_error path (S j)) as [q'|] eqn:E2; [|discriminate]. cbn in Hp, Hq. injection Hp as <-. injection Hq as <-. now apply (L j).
      - subst path. intros p Hp. cbn in Hp. injection Hp as <-. exact I0. }
    split; [apply In_, in_map; subst path; apply in_or_app; right; apply in_or_app; right; now left|].
    destruct (interpolated path mids Ep) as (out & E & R & _). exists out. split; auto. intros c Hc.
    destruct (refines_points _ _ R c Hc) as [I|(j & a & b & t & Ha & Hb & Ht & ->)].
    - apply in_map_iff in I as (p & <- & Ip). exists (fst (real p)), (snd (real p)), (real p). split; [reflexivity|].
      split; [now apply In_, in_map|]. split; [apply (walls_clear rl hl gap _ _ _ W); auto|]. rewrite !Rminus_eq_0, Rabs_R0. lra.
    - rewrite nth_error_map in Ha, Hb. destruct (nth_error path j) as [p|] eqn:Ep1; [|discriminate]. destruct (nth_error path (S j)) as [q|] eqn:Eq1; [|discriminate].
      cbn in Ha, Hb. injection Ha as <-. injection Hb as <-. rewrite between_coords.
      destruct (L j p q Ep1 Eq1) as (batch & vs & i & Eb & Hm & Hv).
      destruct (accepted_motion_stays rl hl gap ex ey batch vs i _ W A B Eb Hm Hv) as [_ S].
      { change (inner rl hl gap (real p)). apply In_, in_map. eapply nth_error_In; exact Ep1. }
      destruct (S t ltac:(lra)) as (c & F1 & F2 & X & Y). eexists _, _, c. split; [reflexivity|]. auto.
  Qed.
End Trajectory.
Print Assumptions stream_trajectory_near_clear.
Print Assumptions stream_teleport_clear.
Print Assumptions stream_trajectory_inside.

(** ** Runs in hallway_manip() *)
(** one point of a line through the room and the mouth of the hallway *)
Definition on_line (u : Q) : qpt := ((- (159 # 100) + u)%Q, ((57 # 100) + u)%Q).
Definition qdist (p q : qpt) : Q := (Qabs.Qabs (fst p - fst q) + Qabs.Qabs (snd p - snd q))%Q.
Lemma qdist_nonneg p q : (0 <= qdist p q)%Q.
Proof. unfold qdist. pose proof (Qabs.Qabs_nonneg (fst p - fst q)). pose proof (Qabs.Qabs_nonneg (snd p - snd q)). now apply (Qplus_le_compat 0 _ 0). Qed.
Lemma qdist_sym p q : (qdist p q == qdist q p)%Q.
Proof. unfold qdist. now rewrite (Qabs.Qabs_Qminus (fst p)), (Qabs.Qabs_Qminus (snd p)). Qed.
Definition qann := brute_ann qdist.
Lemma qann_shape : ann_shape qdist qann.
Proof. intros ss k. apply (brute_ann_exact qdist). Qed.

(** a checker that accepts everything *)
Definition accept_all (b : list (qpt * qpt)) : option (list bool) :=
  match b with [] => None | _ => Some (map (fun _ => true) b) end.

(** motions shorter than eight centimetres in both coordinates are checked at their ends only *)
Lemma short_steps verts batch : verts <> [] -> batch <> [] ->
  (forall m, In m batch -> Rabs (fst (fst m) - fst (snd m)) < 8/100 /\ Rabs (snd (fst m) - snd (snd m)) < 8/100) -> num_steps verts batch = 2%nat.
Proof.
  intros N Nb H. unfold num_steps. set (l := flat_map _ batch).
  assert (L : forall x, In x l -> 0 <= x < 8/100).
  { intros x Hx. apply in_flat_map in Hx as (m & Hm & Hx). destruct (H m Hm) as [H1 H2].
    destruct Hx as [<-|[<-|[]]]; rewrite spread_eq; auto; (split; [apply Rabs_pos|auto]). }
  assert (Nl : l <> []).
  { destruct batch as [|m b]; [congruence|]. discriminate. }
  pose proof (L _ (lmax_In l Nl)) as [L1 L2]. rewrite (trunc_eq _ 0); [reflexivity|]. cbn [INR]. split; [|lra].
  apply Rmult_le_pos; [auto|lra].
Qed.

Section Short.
  Variables (obstacles : list obox) (ex ey : R) (D : qpt -> Prop).
  Hypothesis K : Forall obox_ok obstacles.
  Hypothesis T : Forall thick obstacles.
  Hypotheses (A : 1/1000 <= ex) (B : 1/1000 <= ey).
  Hypothesis close : forall p q, D p -> D q -> Rabs (fst (real p) - fst (real q)) < 8/100 /\ Rabs (snd (real p) - snd (real q)) < 8/100.
  Hypothesis clr : forall p, D p -> clear_of obstacles (ex / 2) (ey / 2) (real p).
  Lemma short_accepted b : (forall m, In m b -> D (fst m) /\ D (snd m)) -> bag_verdicts obstacles ex ey b = accept_all b.
  Proof.
    intro H. unfold bag_verdicts. rewrite (check_eq obstacles ex ey K T A B). destruct b as [|m0 b0] eqn:E; [reflexivity|]. rewrite <- E in *.
    assert (N : map (fun m => (real (fst m), real (snd m))) b <> []) by (rewrite E; discriminate).
    assert (S2 : num_steps (outline4 (robot_oobb ex ey)) (map (fun m => (real (fst m), real (snd m))) b) = 2%nat).
    { apply short_steps; auto; [discriminate|]. intros m Hm. apply in_map_iff in Hm as (m' & <- & Hm). cbn [fst snd]. apply close; now apply H. }
    rewrite (verdict_true _ _ _ (shapes obstacles ex ey K T A B) N).
    - assert (Ea : accept_all b = Some (map (fun _ => true) b)) by (rewrite E; reflexivity). rewrite Ea. f_equal. rewrite map_length. clear. induction b; cbn; congruence.
    - rewrite S2. intros m k Hm Hk. apply in_map_iff in Hm as (m' & <- & Hm). rewrite free_iff by auto.
      destruct (H m' Hm) as [D1 D2]. destruct k as [|[|k]]; [| |lia].
      + replace (along _ _) with (real (fst m')); [auto|]. unfold along, real. cbn. f_equal; field.
      + replace (along _ _) with (real (snd m')); [auto|]. unfold along, real. cbn. f_equal; field.
  Qed.
End Short.

(** the points of the line that are clear, within a few centimetres of the corner *)
Definition beside (p : qpt) : Prop := exists u, p = on_line u /\ (- (1 # 100) <= u <= 1 # 20)%Q /\ (u <= 1 # 250 \/ 31 # 1000 <= u)%Q.
Lemma on_line_real u : real (on_line u) = (-159/100 + Q2R u, 57/100 + Q2R u).
Proof. unfold real, on_line. cbn [fst snd]. rewrite !Q2R_plus, Q2R_opp. f_equal; unfold Q2R; cbn; lra. Qed.
Lemma Q2R_frac a b : Q2R (a # b) = IZR a / IZR (Zpos b).
Proof. reflexivity. Qed.
Lemma manip_world : world_ok (3/2) 3 (3716/10000).
Proof. pose proof manip_ok as W. now rewrite manip_gap in W. Qed.
Lemma manip_boxes : Forall obox_ok manip_walls /\ Forall thick manip_walls.
Proof. apply walls_boxes, manip_world. Qed.
Lemma beside_bounds p : beside p -> exists x, real p = (-159/100 + x, 57/100 + x) /\ -1/100 <= x <= 1/20 /\ (x <= 1/250 \/ 31/1000 <= x).
Proof.
  intros (u & -> & [U1 U2] & U3). exists (Q2R u). split; [apply on_line_real|].
  apply Qle_Rle in U1, U2. rewrite Q2R_opp in U1. rewrite Q2R_frac in *. split; [lra|].
  destruct U3 as [U|U]; apply Qle_Rle in U; rewrite Q2R_frac in U; lra.
Qed.
Lemma beside_clear p : beside p -> clear_of manip_walls (716/10000 / 2) (716/10000 / 2) (real p).
Proof.
  intro H. apply beside_bounds in H as (x & -> & X & Y). apply (walls_clear _ _ _ _ _ _ manip_world).
  intros v VX VY. apply (inner_free _ _ _ _ manip_world). cbn [fst snd] in VX, VY.
  assert (Ab : forall z k, Rabs z <= k -> - k <= z <= k) by (intros z k' Hz; pose proof (Rle_abs z); pose proof (Rle_abs (- z)); rewrite Rabs_Ropp in *; lra).
  apply Ab in VX. apply Ab in VY. destruct Y; [left|right; right]; lra.
Qed.
Lemma beside_accepted b : (forall m, In m b -> beside (fst m) /\ beside (snd m)) -> bag_verdicts manip_walls (716/10000) (716/10000) b = accept_all b.
Proof.
  apply short_accepted; try apply manip_boxes; try lra; [|apply beside_clear].
  intros p q Hp Hq. apply beside_bounds in Hp as (x & -> & X & _). apply beside_bounds in Hq as (y & -> & Y & _). cbn [fst snd].
  split; apply Rabs_def1; lra.
Qed.

Definition corner_samples (i : nat) : qpt := on_line (nth i [0%Q; (- (1 # 200))%Q; (1 # 20)%Q] 0%Q).
Lemma corner_beside i : beside (corner_samples i).
Proof.
  destruct i as [|[|[|i]]]; eexists; (split; [unfold corner_samples; cbn [nth]; reflexivity|]); try (split; [split; discriminate|left; discriminate]).
  - split; [split; discriminate|right; discriminate].
  - destruct i; (split; [split; discriminate|left; discriminate]).
Qed.
Definition corner_run : option stream_end :=
  motion_stream qdist (bag_verdicts manip_walls (716/10000) (716/10000)) corner_samples qann sp_enum 10 (3 # 2) (on_line 0) (on_line (1 # 25)) 32 5 0 2.
Lemma corner_run_eq : corner_run = Some (Found [2%Z] [on_line 0; on_line (- (1 # 200)); on_line (1 # 25)]).
Proof.
  unfold corner_run. rewrite (motion_stream_ext qdist _ accept_all corner_samples qann sp_enum beside beside_accepted corner_beside).
  - vm_compute. reflexivity.
  - exists 0%Q. split; auto. split; [split; discriminate|left; discriminate].
  - exists (1 # 25)%Q. split; auto. split; [split; discriminate|right; discriminate].
Qed.

(** the second leg cuts the corner: the middle of it is in collision and belongs to the trajectory *)
Lemma corner_hit : ~ clear_of manip_walls (716/10000 / 2) (716/10000 / 2) (-159/100 + 7/400, 57/100 + 7/400).
Proof.
  intro C. apply (walls_clear _ _ _ _ _ _ manip_world) in C. unfold body_free in C. cbn [fst snd] in C.
  apply (C (-155/100, 564/1000)).
  - cbn [fst]. apply Rabs_le. lra.
  - cbn [snd]. apply Rabs_le. lra.
  - apply walls_iff. cbn zeta. cbn [fst snd]. do 4 right. left. split; [lra|left; lra].
Qed.
Lemma corner_leg : In [-159/100 + 7/400; 57/100 + 7/400] (segment_points (25/1000) (coords (on_line (- (1 # 200)))) (coords (on_line (1 # 25)))).
Proof.
  assert (Ec : forall u, coords (on_line u) = [-159/100 + Q2R u; 57/100 + Q2R u]).
  { intro u. change (coords (on_line u)) with [fst (real (on_line u)); snd (real (on_line u))]. now rewrite on_line_real. }
  rewrite !Ec. unfold segment_points.
  assert (Dn : norm_vec (minus_vec [-159/100 + Q2R (1 # 25); 57/100 + Q2R (1 # 25)] [-159/100 + Q2R (- (1 # 200)); 57/100 + Q2R (- (1 # 200))]) = sqrt (405/100000)).
  { unfold norm_vec, minus_vec. cbn [combine map fold_right fst snd]. f_equal. rewrite Q2R_opp, !Q2R_frac. lra. }
  rewrite Dn.
  assert (S1 : 6/100 < sqrt (405/100000)) by (rewrite <- (sqrt_square (6/100)) by lra; apply sqrt_lt_1; lra).
  assert (S2 : sqrt (405/100000) < 7/100) by (rewrite <- (sqrt_square (7/100)) by lra; apply sqrt_lt_1; lra).
  destruct (Rlt_dec _ _) as [_|N]; [|lra].
  assert (C : ceil (sqrt (405/100000) / (25/1000)) = 3%Z).
  { pose proof (ceil_bounds (sqrt (405/100000) / (25/1000))) as [C1 C2].
    assert (L1 : IZR 2 < IZR (ceil (sqrt (405/100000) / (25/1000)))) by lra. assert (L2 : IZR (ceil (sqrt (405/100000) / (25/1000))) < IZR 4) by lra.
    apply lt_IZR in L1, L2. lia. }
  rewrite C. apply in_or_app. left. change (Z.to_nat (3 - 1 + 2)) with 4%nat. unfold linspace_open. cbn [seq map tl combine fst snd In].
  right. left. rewrite Q2R_opp, !Q2R_frac. cbn [INR]. replace (1 + 1 + 1 + 1) with 4 by lra. f_equal; [lra|]. f_equal; lra.
Qed.

Theorem stream_trajectory_clear_refuted : exists smp start goal sizes path out x y,
  motion_stream qdist (bag_verdicts manip_walls (716/10000) (716/10000)) smp qann sp_enum 10 (3 # 2) start goal 32 5 0 2 = Some (Found sizes path) /\
  trajectory false path = Some out /\ In [x; y] out /\ ~ clear_of manip_walls (716/10000 / 2) (716/10000 / 2) (x, y).
Proof.
  eexists corner_samples, (on_line 0), (on_line (1 # 25)), _, _, _, (-159/100 + 7/400), (57/100 + 7/400).
  split; [exact corner_run_eq|]. split; [reflexivity|]. split; [|exact corner_hit].
  right. cbn [map segments]. apply in_or_app. right. apply in_or_app. left. exact corner_leg.
Qed.
Print Assumptions stream_trajectory_clear_refuted.

(** ** C138: the stream gives up while larger roadmaps remain *)
Definition room_samples (i : nat) : qpt := on_line (nth i [0%Q; (- (10 # 1000))%Q; (- (9 # 1000))%Q; (2 # 1000)%Q] 0%Q).
Lemma room_beside i : beside (room_samples i).
Proof.
  destruct i as [|[|[|[|i]]]]; eexists; (split; [unfold room_samples; cbn [nth]; reflexivity|]); try (split; [split; discriminate|left; discriminate]).
  destruct i; (split; [split; discriminate|left; discriminate]).
Qed.
Definition room_run (min_samples : Z) : option stream_end :=
  motion_stream qdist (bag_verdicts manip_walls (716/10000) (716/10000)) room_samples qann sp_enum 10 (3 # 2)
    (on_line (1 # 1000)) (on_line (- (8 # 1000))) 32 12 0 min_samples.
Lemma room_run_eq : room_run 2 = Some (Raised RuntimeError [2%Z]) /\
  room_run 3 = Some (Found [3%Z] [on_line (1 # 1000); on_line (- (9 # 1000)); on_line (- (8 # 1000))]).
Proof.
  unfold room_run. rewrite !(motion_stream_ext qdist _ accept_all room_samples qann sp_enum beside beside_accepted room_beside).
  - split; vm_compute; reflexivity.
  - eexists. split; [reflexivity|]. split; [split; discriminate|left; discriminate].
  - eexists. split; [reflexivity|]. split; [split; discriminate|left; discriminate].
  - eexists. split; [reflexivity|]. split; [split; discriminate|left; discriminate].
  - eexists. split; [reflexivity|]. split; [split; discriminate|left; discriminate].
Qed.

(** In hallway_manip(), from a start and to a goal that are both in the open: the first roadmap
    makes the stream raise, the second roadmap of the same run would have had a path. *)
Theorem stream_goes_on_refuted : exists smp start goal path,
  let run := motion_stream qdist (bag_verdicts manip_walls (716/10000) (716/10000)) smp qann sp_enum 10 (3 # 2) start goal 32 12 0 in
  clear_of manip_walls (716/10000 / 2) (716/10000 / 2) (real start) /\ clear_of manip_walls (716/10000 / 2) (716/10000 / 2) (real goal) /\
  (Qint (count 2 (3 # 2) 1) = 3)%Z /\ run 2%Z = Some (Raised RuntimeError [2%Z]) /\ run 3%Z = Some (Found [3%Z] path).
Proof.
  exists room_samples, (on_line (1 # 1000)), (on_line (- (8 # 1000))), [on_line (1 # 1000); on_line (- (9 # 1000)); on_line (- (8 # 1000))].
  cbv zeta. split; [|split; [|split; [reflexivity|exact room_run_eq]]];
    (apply beside_clear; eexists; split; [reflexivity|]; split; [split; discriminate|left; discriminate]).
Qed.
Print Assumptions stream_goes_on_refuted.

(** ** Examples *)
(** a run of the stream to which both theorems apply *)
Example stream_trajectory_case : exists out, trajectory false [on_line 0; on_line (- (1 # 200)); on_line (1 # 25)] = Some out /\
  close_steps (25/1000) out /\ (forall p, In p [on_line 0; on_line (- (1 # 200)); on_line (1 # 25)] -> clear_of manip_walls (716/10000 / 2) (716/10000 / 2) (real p)) /\
  inner (3/2) 3 (3716/10000) (real (on_line (1 # 25))) /\
  forall c, In c out -> exists x y p, c = [x; y] /\ inner (3/2) 3 (3716/10000) p /\ Rabs (x - fst p) < 4/100 /\ Rabs (y - snd p) < 4/100.
Proof.
  assert (X : 1/1000 <= 716/10000) by lra.
  destruct (stream_trajectory_near_clear qdist corner_samples qann sp_enum qdist_nonneg qdist_sym qann_shape sp_enum_correct
    10 (3 # 2) (on_line 0) (on_line (1 # 25)) 32 0 2 manip_walls (716/10000) (716/10000) 5 _ _ (proj1 manip_boxes) (proj2 manip_boxes) X X
    ltac:(lia) ltac:(lia) corner_run_eq) as (C & out & E & _ & S & _).
  assert (I0 : inner (3/2) 3 (3716/10000) (real (on_line 0))).
  { rewrite on_line_real. left. cbn [fst snd]. unfold Q2R. cbn. lra. }
  destruct (stream_trajectory_inside qdist corner_samples qann sp_enum qdist_nonneg qdist_sym qann_shape sp_enum_correct
    10 (3 # 2) (on_line 0) (on_line (1 # 25)) 32 0 2 (3/2) 3 (3716/10000) (716/10000) (716/10000) 5 _ _ manip_world X X
    ltac:(lia) ltac:(lia) I0 corner_run_eq) as (G & out' & E' & I).
  rewrite E in E'. injection E' as <-. exists out. split; auto. split; auto. split; auto. split; auto.
  intros c Hc. destruct (I c Hc) as (x & y & p & -> & Ip & _ & X' & Y'). eauto 8.
Qed.
Example stream_teleport_case : exists out, trajectory true [on_line 0; on_line (- (1 # 200)); on_line (1 # 25)] = Some out /\ hd_error out = Some (coords (on_line 0)).
Proof.
  assert (X : 1/1000 <= 716/10000) by lra.
  destruct (stream_teleport_clear qdist corner_samples qann sp_enum qdist_nonneg qdist_sym qann_shape sp_enum_correct
    10 (3 # 2) (on_line 0) (on_line (1 # 25)) 32 0 2 manip_walls (716/10000) (716/10000) 5 _ _ (proj1 manip_boxes) (proj2 manip_boxes) X X
    ltac:(lia) ltac:(lia) corner_run_eq) as (out & E & _ & H & _). eauto.
Qed.
