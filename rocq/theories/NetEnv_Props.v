(** Property C94: roadmaps over a net of samples in the environments of envs.py. *)
From Coq Require Import Arith List Reals QArith Qreals ZArith Lra Lia Psatz.
From Verif Require Import Geom_Model Geom_Proofs Geom_Props Geom_Spec Net_Spec Net_Proofs Net_Props.
From Verif Require Import NkGraph_Spec Prm_Model Prm_Spec Sp_Oracle PrmFc_Props Bound_Model.
Import ListNotations.
Close Scope Q_scope.
Open Scope R_scope.

Definition cpt (dim : nat) : Type := { p : list R | length p = dim }.
Definition coords {dim} (p : cpt dim) : list R := proj1_sig p.
Definition line_check (dim : nat) (delta len : R) (p q : cpt dim) : bool :=
  line_motion_valid dim delta len (coords p) (coords q).

(** Over StraightLine(dim, delta, len), with the clearance of that environment: any net of
    samples along the reference path makes the query from its first to its last point
    answered within the tolerance. *)
Theorem line_net_complete : forall dim delta tol len eta (dst : cpt dim -> cpt dim -> Q) smp sp r0 p0 ops ss start goal,
  (2 <= dim)%nat -> 0 < delta -> 0 < tol -> 0 < len ->
  (forall p q, (0 <= dst p q)%Q) -> (forall p q, (dst p q == dst q p)%Q) -> sp_correct sp ->
  distances_within coords dst eta ->
  let st := fc_run dst (line_check dim delta len) smp sp ops (fc_new r0 p0) in
  fc_samples st = Some ss ->
  (forall t, 0 <= t <= 1 -> exists i p, nth_error ss i = Some p /\
     dist (coords p) (line_curve dim len t) <= compute_epsilon_net_radius delta (Some tol)) ->
  coords start = line_curve dim len 0 -> coords goal = line_curve dim len 1 ->
  compute_connection_radius delta tol + eta <= Q2R (fc_conn_r st) ->
  exists d path, fst (fc_query dst (line_check dim delta len) sp st start goal) = Prm_Model.Ok (Some d, path) /\
    stretch_bound delta tol eta len (Q2R d).
Proof.
  intros dim delta tol len eta dst smp sp r0 p0 ops ss start goal Hdim Hd Ht Hl Nn Sy SP Hdst st Es Hn Hs Hg Hr.
  destruct (line_curve_covers dim len Hdim ltac:(lra)) as (C1 & C2 & C3).
  assert (In01 : forall s, 0 <= s <= len -> 0 <= s / len <= 1).
  { intros s Hs'. split; [apply Rmult_le_pos; [lra|left; now apply Rinv_0_lt_compat]|].
    apply (Rmult_le_reg_r len); auto. unfold Rdiv. rewrite Rmult_assoc, Rinv_l; lra. }
  assert (Hp : forall p : cpt dim, length (coords p) = dim) by (intros [p Lp]; auto).
  apply (fc_stretch dst (line_check dim delta len) smp sp Nn Sy SP dim coords
    (fun p => in_box p (line_lo delta) (line_hi delta len)) eta delta tol len (fun s => line_curve dim len (s / len))
    start goal r0 p0 ops ss Hd Ht Es); auto.
  split; [exact Hp|]. split.
  { intros p q H. apply line_motion_exact; auto. }
  split; [exact Hdst|]. split; [lra|]. split.
  { split; [intros; apply C1|]. intros s t Hs' Ht'. rewrite C3 by auto.
    replace (s / len - t / len) with ((s - t) / len) by (field; lra).
    unfold Rdiv. rewrite Rabs_mult, (Rabs_pos_eq (/ len)) by (left; now apply Rinv_0_lt_compat).
    rewrite Rmult_assoc, Rinv_l by lra. lra. }
  split.
  { intros s x Hs' Lx D. eapply line_clearance; eauto. lra. }
  split; [|split].
  - intros s Hs'. apply Hn. auto.
  - rewrite Hs. f_equal. unfold Rdiv. ring.
  - rewrite Hg. f_equal. field. lra.
Qed.
Print Assumptions line_net_complete.

(** Distances rounded down to thousandths. *)
Definition rdist {dim} (p q : cpt dim) : Q := Qmake (Int_part (1000 * dist (coords p) (coords q))) 1000.
Lemma rdist_ok dim : (forall p q : cpt dim, (0 <= rdist p q)%Q) /\ (forall p q : cpt dim, (rdist p q == rdist q p)%Q) /\
  distances_within (@coords dim) rdist (1 / 1000).
Proof.
  split; [|split].
  - intros p q. unfold rdist, Qle. simpl. rewrite Z.mul_1_r.
    destruct (base_Int_part (1000 * dist (coords p) (coords q))) as [A B].
    pose proof (dist_nonneg (coords p) (coords q)).
    assert (-1 < Int_part (1000 * dist (coords p) (coords q)))%Z; [apply lt_IZR; lra|lia].
  - intros p q. unfold rdist. rewrite dist_sym. reflexivity.
  - intros p q. unfold rdist, Q2R. simpl.
    destruct (base_Int_part (1000 * dist (coords p) (coords q))) as [A B]. apply Rabs_le. lra.
Qed.

(** Samples at 5, 15, 25, 35 on the path of length 40 in the plane, clearance 10. *)
Definition at_x (x : R) : cpt 2 := exist _ [x; 0] eq_refl.
Definition line4 (i : nat) : cpt 2 := nth (i - 1) [at_x 5; at_x 15; at_x 25; at_x 35] (at_x 0).
Example line_net_complete_case :
  let st := fc_run rdist (line_check 2 10 40) line4 sp_enum [FGrow 4] (fc_new 29 0) in
  exists d path, fst (fc_query rdist (line_check 2 10 40) sp_enum st (at_x 0) (at_x 40)) = Prm_Model.Ok (Some d, path) /\
    Q2R d <= 80 + 4 / 1000.
Proof.
  intro st. destruct ten_radii as (A & B & C). destruct (rdist_ok 2) as (R1 & R2 & R3).
  assert (D2 : forall a b, dist [a; 0] [b; 0] = Rabs (a - b)).
  { intros a b. unfold dist. simpl. replace ((a - b) * (a - b) + ((0 - 0) * (0 - 0) + 0)) with (Rsqr (a - b)) by (unfold Rsqr; ring). apply sqrt_Rsqr_abs. }
  assert (Cv : forall t, 0 <= t <= 1 -> line_curve 2 40 t = [t * 40; 0]).
  { intros t Ht. unfold line_curve. now rewrite clip_id by auto. }
  destruct (line_net_complete 2 10 1 40 (1/1000) rdist line4 sp_enum 29 0 [FGrow 4]
    [at_x 5; at_x 15; at_x 25; at_x 35] (at_x 0) (at_x 40)) as (d & path & Eq & S1 & S2); auto; try lra.
  - apply sp_enum_correct.
  - intros t Ht. rewrite Cv by auto.
    destruct (net4_near (compute_epsilon_net_radius 10 (Some 1)) (t * 40) ltac:(lra) ltac:(lra)) as (i & z & Ei & Hz).
    exists i, (at_x (IZR z)). split; [|simpl; now rewrite D2].
    do 4 (destruct i as [|i]; [injection Ei as <-; reflexivity|]). destruct i; discriminate.
  - rewrite Cv by lra. simpl. do 2 f_equal. ring.
  - rewrite Cv by lra. simpl. do 2 f_equal. ring.
  - change (fc_conn_r _) with 29%Q. unfold Q2R. simpl. lra.
  - exists d, path. split; auto. fold st in Eq. apply Rle_trans with ((1 + 1) * 40 + (40 / net_step 10 1 + 1) * (1 / 1000)).
    + apply S1. lra.
    + assert (40 / net_step 10 1 < 3); [|lra]. apply (Rmult_lt_reg_r (net_step 10 1)); [lra|].
      unfold Rdiv. rewrite Rmult_assoc, Rinv_l by lra. lra.
Qed.

(** The narrow passage rejects every motion of length zero, and such motions are free: with
    its motion check, a query from a sample to itself has no answer though the one sample is
    a net. *)
Definition narrow_check (dim : nat) (c : R) (p q : cpt dim) : bool := narrow_motion_valid dim c (coords p) (coords q).
Theorem narrow_net_complete_refuted : exists (ss : list (cpt 2)) (p : cpt 2) delta tol c,
  0 < delta /\ 0 < tol /\ 0 < c <= 1/2 /\
  has_clearance 2 (narrow_free 2 c) delta 0 (fun _ => coords p) /\
  net_along coords (compute_epsilon_net_radius delta (Some tol)) 0 (fun _ => coords p) ss /\
  (forall t, 0 <= t <= 1 -> narrow_free 2 c (at_time t (coords p) (coords p))) /\
  forall r pos, compute_connection_radius delta tol <= Q2R r ->
    let st := fc_run rdist (narrow_check 2 c) (fun _ => p) sp_enum [FGrow 1] (fc_new r pos) in
    fc_samples st = Some ss /\ fst (fc_query rdist (narrow_check 2 c) sp_enum st p p) = Prm_Model.Ok (None, []).
Proof.
  exists [at_x 0], (at_x 0), (1/4), 1, (1/4).
  split; [lra|]. split; [lra|]. split; [lra|].
  assert (Fr : forall x, length x = 2%nat -> dist x [0; 0] <= 1/4 -> narrow_free 2 (1/4) x).
  { intros x Lx D. split; auto. right; left.
    pose proof (dist_coord x [0; 0] 0 (1/4) ltac:(auto) ltac:(lia) D) as A.
    pose proof (dist_coord x [0; 0] 1 (1/4) ltac:(auto) ltac:(lia) D) as B. simpl in A, B.
    split; [lra|]. intros i Hi. replace i with 1%nat by lia. lra. }
  split; [intros s x _ Lx D; apply Fr; auto|]. split.
  { intros s Hs. exists 0%nat, (at_x 0). split; auto. simpl. rewrite dist_self.
    unfold compute_epsilon_net_radius. pose proof (Bound_Proofs2.alpha_nonneg 1 ltac:(lra)). simpl in *. lra. }
  assert (V : narrow_motion_valid 2 (1/4) [0; 0] [0; 0] = false).
  { apply Bool.not_true_iff_false. rewrite narrow_accepts_iff. intro H.
    specialize (H 1%nat ((-1/2, 1/4), (-1/2, 1/2)) ltac:(lia)). cbv zeta in H. cbn [nth fst snd] in H.
    destruct H as [_ H]; [left; reflexivity|]. apply H. unfold parallel, aligned. cbn [fst snd]. lra. }
  split.
  { intros t Ht. simpl. split; auto. right; left. simpl. split; [lra|]. intros i Hi. replace i with 1%nat by lia. simpl. lra. }
  intros r pos Hr st. split; [reflexivity|].
  destruct (rdist_ok 2) as (R1 & R2 & R3).
  destruct (full_conn_query_optimal rdist (narrow_check 2 (1/4)) (fun _ => at_x 0) sp_enum R1 R2 sp_enum_correct r pos [FGrow 1] [at_x 0] (at_x 0) (at_x 0) eq_refl)
    as (g & d & path & Eg & Eq & RA). fold st in Eq, RA. rewrite Eq.
  assert (No : forall i ds, ~ entry rdist (narrow_check 2 (1/4)) [at_x 0] (fc_conn_r st) (at_x 0) i ds).
  { intros i ds (q & Ei & _ & _ & Ck). destruct i as [|[|i]]; try discriminate. injection Ei as <-.
    unfold narrow_check in Ck. simpl in Ck. congruence. }
  destruct d as [d|]; simpl in RA.
  - destruct RA as [(ids & (a & z & cc & ds & dt & _ & _ & _ & En & _) & _) _]. exfalso. eapply No; eauto.
  - destruct RA as [-> _]. reflexivity.
Qed.
Print Assumptions narrow_net_complete_refuted.
