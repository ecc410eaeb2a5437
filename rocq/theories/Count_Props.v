(** C154, C155: for which clearances a sample count is computed, and what the worlds that leave the
    gap of their problem unset ask for. *)
From Coq Require Import ZArith Reals List Lia Lra.
From Verif Require Import Plane Sat_Model Sat_Props World_Model WorldCheck_Props WorldPlace_Props Corner_Model Search_Model Bound_Model Bound_Spec Bound_Proofs Bound_Proofs2 Bound_Props Count_Model.
Import ListNotations.
Open Scope R_scope.

(** a ball of positive radius has positive measure; the radius is the clearance times a positive
    factor unless the tolerance is 0 *)
Definition sound_tol (tol : option R) : Prop := match tol with None => True | Some t => 0 < t end.

Definition tol_factor (tol : option R) : R := match tol with None => 1 | Some t => t / sqrt (1 + t * t) end.
Lemma tol_factor_pos tol : sound_tol tol -> 0 < tol_factor tol.
Proof.
  destruct tol as [t|]; cbn; intros H; [|lra]. assert (0 < sqrt (1 + t * t)) by (apply sqrt_lt_R0; nra).
  apply Rdiv_lt_0_compat; auto.
Qed.
Lemma measure_form c tol dim v : ball_measure c tol dim v = unit_ball_volume dim * (tol_factor tol * c) ^ dim / v.
Proof. reflexivity. Qed.
Lemma ubv_pos d : 0 < unit_ball_volume d.
Proof. rewrite <- unit_ball_correct. apply unit_ball_pos. Qed.

Lemma pow_even_opp x d : Nat.Even d -> (- x) ^ d = x ^ d.
Proof.
  intros [k ->]. rewrite !pow_mult. f_equal. ring.
Qed.
Lemma pow_odd_opp x d : Nat.Odd d -> (- x) ^ d = - x ^ d.
Proof.
  intros [k ->]. rewrite !pow_add, pow_even_opp by (exists k; reflexivity). simpl. ring.
Qed.

Lemma measure_even c tol dim v : Nat.Even dim -> ball_measure (- c) tol dim v = ball_measure c tol dim v.
Proof. intros E. rewrite !measure_form. replace (tol_factor tol * - c) with (- (tol_factor tol * c)) by ring. rewrite pow_even_opp by auto. reflexivity. Qed.
Lemma measure_odd c tol dim v : Nat.Odd dim -> ball_measure (- c) tol dim v = - ball_measure c tol dim v.
Proof. intros E. rewrite !measure_form. replace (tol_factor tol * - c) with (- (tol_factor tol * c)) by ring. rewrite pow_odd_opp by auto. unfold Rdiv. ring. Qed.

(** the sign of the ball's measure *)
Theorem measure_sign c tol dim v : 0 < v -> sound_tol tol -> (1 <= dim)%nat ->
  (0 < ball_measure c tol dim v <-> 0 < c \/ (c < 0 /\ Nat.Even dim)).
Proof.
  intros V T D.
  assert (P : forall x, 0 < x -> 0 < ball_measure x tol dim v).
  { intros x X. rewrite measure_form. apply Rdiv_lt_0_compat; auto. apply Rmult_lt_0_compat; [apply ubv_pos|]. apply pow_lt. pose proof (tol_factor_pos tol T). nra. }
  destruct (Rtotal_order c 0) as [N|[Z|Q]].
  - destruct (Nat.Even_or_Odd dim) as [E|O].
    + split; [intros _; right; auto|]. intros _. rewrite <- (Ropp_involutive c), measure_even by auto. apply P. lra.
    + split.
      * intros H. exfalso. rewrite <- (Ropp_involutive c), measure_odd in H by auto. pose proof (P (- c) ltac:(lra)). lra.
      * intros [H|[_ H]]; [lra|]. exfalso. exact (Nat.Even_Odd_False _ H O).
  - subst c. split; [|intros [H|[H _]]; lra]. rewrite measure_form, Rmult_0_r, pow_i by lia. unfold Rdiv. rewrite Rmult_0_r, Rmult_0_l. lra.
  - split; auto.
Qed.
Print Assumptions measure_sign.

(** a count is only ever returned when the ball's measure is positive: for a positive clearance,
    or for a negative one in an even dimension *)
Theorem count_needs_clearance c p v dim tol fuel z r : 0 < v -> sound_tol tol -> (1 <= dim)%nat ->
  compute_numerical_bound c p v dim tol fuel = Some (Ret z, r) -> 0 < c \/ (c < 0 /\ Nat.Even dim).
Proof.
  intros V T D H. apply (measure_sign c tol dim v V T D).
  destruct (Rlt_le_dec 0 (ball_measure c tol dim v)) as [L|L]; auto. exfalso.
  assert (Hp : 0 < p < 1).
  { destruct (Rle_dec p 0) as [A|A]; [rewrite (proj2 (numerical_bound_error_iff c p v dim tol fuel)) in H by lra; discriminate|].
    destruct (Rle_dec 1 p) as [B|B]; [rewrite (proj2 (numerical_bound_error_iff c p v dim tol fuel)) in H by lra; discriminate|]. lra. }
  apply numerical_bound_least in H. cbn zeta in H. destruct H as (m & _ & _ & _ & B & _).
  pose proof (nfb_rho_nonpos _ (dim + 1) m L). lra.
Qed.
Print Assumptions count_needs_clearance.

(** in an odd dimension a clearance that is not positive overflows *)
Theorem nonpositive_odd_overflows c p v dim tol fuel : 0 < v -> sound_tol tol -> Nat.Odd dim -> c <= 0 ->
  0 < p < 1 -> (1000 <= fuel)%nat ->
  option_map fst (compute_numerical_bound c p v dim tol fuel) = Some ErrOverflow.
Proof.
  intros V T O C P F. assert (D : (1 <= dim)%nat) by (destruct O; lia).
  apply (numerical_bound_outcomes c p v dim tol fuel P F).
  assert (N : ball_measure c tol dim v <= 0).
  { destruct (Rlt_le_dec 0 (ball_measure c tol dim v)) as [L|L]; auto. exfalso.
    apply (measure_sign c tol dim v V T D) in L. destruct L as [L|[_ L]]; [lra|exact (Nat.Even_Odd_False _ L O)]. }
  pose proof (nfb_rho_nonpos _ (dim + 1) (Z.to_nat (2 ^ 996)) N). lra.
Qed.
Print Assumptions nonpositive_odd_overflows.

(** in an even dimension a negative clearance is answered with the count of its absolute value,
    and with a negative connection radius *)
Theorem negative_even_same c p v dim tol fuel : Nat.Even dim ->
  compute_numerical_bound (- c) p v dim tol fuel =
  option_map (fun o => (fst o, - snd o)) (compute_numerical_bound c p v dim tol fuel).
Proof.
  intros E. unfold compute_numerical_bound. destruct (Rleb p 0 || Rgeb p 1)%bool; [reflexivity|].
  cbn zeta. cbn [option_map fst snd]. rewrite !rho_correct, measure_even by auto. f_equal. f_equal. ring.
Qed.
Print Assumptions negative_even_same.

(** the bound at 2^53 samples for the turtlebot's call *)
Lemma turtle_good c : 1 / 1000000 <= Rabs c ->
  net_failure_bound (ball_measure c None 2 16) 3 (Z.to_nat (2 ^ 53)) <= 1 - 99 / 100.
Proof.
  intros C. assert (S : 1 / 1000000000000 <= c * c).
  { replace (c * c) with (Rabs c * Rabs c) by (unfold Rabs; destruct (Rcase_abs c); ring). pose proof (Rabs_pos c). nra. }
  assert (M : 1 / 10000000000000 <= ball_measure c None 2 16).
  { unfold ball_measure. cbn [unit_ball_volume pow]. assert (P : 3 < PI) by (pose proof PI2_3_2; lra). replace (INR 2) with 2 by (simpl; ring). nra. }
  eapply Rle_trans; [apply (nfb_mono_rho _ _ 3 (Z.to_nat (2 ^ 53)) M)|].
  unfold net_failure_bound. rewrite <- psum_spec.
  rewrite INR_IZR_INZ, Z2Nat.id by lia.
  assert (Q : IZR (psum (2 * Z.to_nat (2 ^ 53)) 3) <= IZR (2 ^ 165)).
  { apply IZR_le. eapply Z.le_trans; [apply psum_le_pow|]. rewrite Nat2Z.inj_mul, Z2Nat.id by lia. vm_compute. discriminate. }
  assert (X : Rpower 2 (- (1 / 10000000000000) * IZR (2 ^ 53) / 2) <= / IZR (2 ^ 200)).
  { replace (IZR (2 ^ 200)) with (2 ^ 200) by (rewrite pow_IZR; reflexivity). rewrite <- Rpower_pow by lra. rewrite <- Rpower_Ropp. apply Rle_Rpower; [lra|].
    replace (INR 200) with 200 by (rewrite INR_IZR_INZ; reflexivity). replace (IZR (2 ^ 53)) with 9007199254740992 by reflexivity. lra. }
  assert (Y : 0 < Rpower 2 (- (1 / 10000000000000) * IZR (2 ^ 53) / 2)) by apply exp_pos.
  pose proof (psum_pos_R (2 * Z.to_nat (2 ^ 53)) 3) as W.
  set (a := IZR (psum (2 * Z.to_nat (2 ^ 53)) 3)) in *. set (b := Rpower 2 _) in *.
  assert (Z : a * b <= IZR (2 ^ 165) * / IZR (2 ^ 200)).
  { apply Rmult_le_compat; lra. }
  assert (U : IZR (2 ^ 165) * / IZR (2 ^ 200) <= 1 / 1000).
  { replace (IZR (2 ^ 200)) with (IZR (2 ^ 165) * IZR (2 ^ 35)) by (rewrite <- mult_IZR; reflexivity).
    assert (0 < IZR (2 ^ 165)) by (apply IZR_lt; reflexivity). rewrite Rinv_mult.
    rewrite <- Rmult_assoc, Rinv_r by lra. replace (IZR (2 ^ 35)) with 34359738368 by reflexivity. lra. }
  lra.
Qed.

Theorem turtle_count_returned c fuel : 1 / 1000000 <= Rabs c -> (1000 <= fuel)%nat ->
  exists z, compute_numerical_bound c (99 / 100) 16 2 None fuel = Some (Ret z, 2 * c) /\ (2 <= z)%Z.
Proof.
  intros C F. assert (P : 0 < 99 / 100 < 1) by lra.
  destruct (numerical_bound_outcomes c (99 / 100) 16 2 None fuel P F) as [[_ H] _].
  destruct H as [z Hz]; [exists (Z.to_nat (2 ^ 53)); split; [rewrite Z2Nat.id; lia|apply turtle_good; auto]|].
  destruct (compute_numerical_bound c (99 / 100) 16 2 None fuel) as [[s r]|] eqn:E; [|discriminate].
  cbn in Hz. injection Hz as ->. exists z.
  assert (R : r = 2 * c).
  { unfold compute_numerical_bound in E. destruct (Rleb (99 / 100) 0 || Rgeb (99 / 100) 1)%bool; [discriminate|]. apply (f_equal (fun o => match o with Some q => snd q | None => 0 end)) in E.
    cbn in E. rewrite <- E. unfold alpha_of_tol. replace (1 - 1 * (1 * 1)) with 0 by ring. rewrite sqrt_0. ring. }
  subst r. split; auto. apply numerical_bound_least in E. cbn zeta in E. destruct E as (m & -> & M & _). lia.
Qed.
Print Assumptions turtle_count_returned.

(** C154 refuted: a sample count (with a negative connection radius) is computed for a clearance
    that nothing can have. *)
Theorem impossible_clearance_refuted : exists c fuel z r, c < 0 /\ r < 0 /\ (2 <= z)%Z /\
  compute_numerical_bound c (99 / 100) 16 2 None fuel = Some (Ret z, r).
Proof.
  destruct (turtle_count_returned (-1) 1000) as (z & E & Z); [rewrite Rabs_left; lra|lia|].
  exists (-1), 1000%nat, z, (2 * -1). repeat split; auto; lra.
Qed.
Print Assumptions impossible_clearance_refuted.

(** What the worlds that leave the gap unset ask for: a body wider than 0.05 gets the count of the
    clearance [ex - 0.05], so a wider body gets fewer samples. *)
Theorem unset_gap_count rover held s e fuel : let ex := body_extent rover held in
  50001 / 1000000 <= ex -> (1000 <= fuel)%nat ->
  exists z, sample_range true s e default_gap rover held fuel = Some (Ret ((z - 1)%Z, z)) /\
    compute_numerical_bound (ex - 5 / 100) (99 / 100) 16 2 None fuel = Some (Ret z, 2 * (ex - 5 / 100)).
Proof.
  intros ex X F. destruct (turtle_count_returned (ex - 5 / 100) fuel) as (z & E & _); [rewrite Rabs_right; lra|auto|].
  exists z. split; auto. unfold sample_range. fold ex.
  replace (adaptive_delta default_gap ex) with (- (ex - 5 / 100)) by (unfold adaptive_delta, default_gap; lra).
  rewrite negative_even_same by (exists 1%nat; reflexivity). rewrite E. reflexivity.
Qed.
Print Assumptions unset_gap_count.

Theorem wider_body_fewer_samples r1 h1 r2 h2 s e fuel lo1 hi1 lo2 hi2 :
  50001 / 1000000 <= body_extent r1 h1 <= body_extent r2 h2 -> (1000 <= fuel)%nat ->
  sample_range true s e default_gap r1 h1 fuel = Some (Ret (lo1, hi1)) ->
  sample_range true s e default_gap r2 h2 fuel = Some (Ret (lo2, hi2)) ->
  (lo2 <= lo1)%Z /\ (hi2 <= hi1)%Z.
Proof.
  intros [X1 X2] F E1 E2.
  destruct (unset_gap_count r1 h1 s e fuel X1 F) as (z1 & A1 & B1).
  destruct (unset_gap_count r2 h2 s e fuel ltac:(lra) F) as (z2 & A2 & B2).
  rewrite A1 in E1. rewrite A2 in E2. injection E1 as <- <-. injection E2 as <- <-.
  destruct (numerical_bound_monotone (body_extent r1 h1 - 5 / 100) (body_extent r2 h2 - 5 / 100) (99 / 100) (99 / 100) 16 16 None None 2 fuel fuel z1 (2 * (body_extent r1 h1 - 5 / 100))) as (z & r & E & L); auto; try lra; try exact I.
  rewrite B2 in E. injection E as -> _. lia.
Qed.
Print Assumptions wider_body_fewer_samples.

(** hallway() at its default arguments: the rover is 0.0716 wide and counted for a clearance 0.0216
    although the gap left to it is 0.1 *)
Example hallway_count s e : exists z, sample_range true s e default_gap (716 / 10000) None 1000 = Some (Ret ((z - 1)%Z, z)) /\
  compute_numerical_bound (216 / 10000) (99 / 100) 16 2 None 1000 = Some (Ret z, 2 * (216 / 10000)).
Proof.
  destruct (unset_gap_count (716 / 10000) None s e 1000) as (z & A & B); [cbn; lra|lia|]. exists z. split; auto.
  cbn [body_extent] in B. replace (716 / 10000 - 5 / 100) with (216 / 10000) in B by lra. exact B.
Qed.
Example odd_overflow : option_map fst (compute_numerical_bound (- 1) (99 / 100) 16 3 (Some 1) 1000) = Some ErrOverflow.
Proof. apply nonpositive_odd_overflows; cbn; try lra; try lia. exists 1%nat. reflexivity. Qed.
Example needs_case : exists z r, compute_numerical_bound (1 / 10) (99 / 100) 16 2 None 1000 = Some (Ret z, r).
Proof. destruct (turtle_count_returned (1 / 10) 1000) as (z & E & _); [rewrite Rabs_right; lra|lia|]. eauto. Qed.

(** ** C155 *)

(** the least box with its sides along the axes that holds the points *)
Definition tight_box (pts : list rpt) (b : (R * R) * (R * R)) : Prop :=
  (forall p, In p pts -> fst (fst b) <= fst p <= snd (fst b) /\ fst (snd b) <= snd p <= snd (snd b)) /\
  (exists p, In p pts /\ fst p = fst (fst b)) /\ (exists p, In p pts /\ fst p = snd (fst b)) /\
  (exists p, In p pts /\ snd p = fst (snd b)) /\ (exists p, In p pts /\ snd p = snd (snd b)).
(** corners of a wall *)
Definition corner_of (o : rect) (p : rpt) : Prop :=
  (fst p = r_x o - r_w o / 2 \/ fst p = r_x o + r_w o / 2) /\ (snd p = r_y o - r_l o / 2 \/ snd p = r_y o + r_l o / 2).

Lemma corners o p : In p (get_oobb_vertices (wall_oobb o)) <-> corner_of o p.
Proof.
  unfold get_oobb_vertices, wall_oobb, oobb_vertices2, turn, corner_of. cbn [map In fst snd o_lx o_ly o_ux o_uy o_c o_s o_t]. destruct p as [x y]. cbn [fst snd]. split.
  - intros H. decompose [or] H; clear H; try contradiction; match goal with E : (_, _) = (_, _) |- _ => injection E as <- <- end; split; (left; lra) || (right; lra).
  - intros [[X|X] [Y|Y]]; subst x y.
    + left. f_equal; lra.
    + do 2 right. left. f_equal; lra.
    + do 4 right. left. f_equal; lra.
    + do 6 right. left. f_equal; lra.
Qed.

Lemma in_fst (l : list rpt) x : In x (map fst l) -> exists p, In p l /\ fst p = x.
Proof. intros H. apply in_map_iff in H as (p & E & I). eauto. Qed.
Lemma in_snd (l : list rpt) x : In x (map snd l) -> exists p, In p l /\ snd p = x.
Proof. intros H. apply in_map_iff in H as (p & E & I). eauto. Qed.

Lemma extents_tight vs : vs <> [] -> tight_box vs (extents vs).
Proof.
  intros N. unfold extents, tight_box. cbn [fst snd].
  assert (N1 : map fst vs <> []) by (destruct vs; [congruence|discriminate]).
  assert (N2 : map snd vs <> []) by (destruct vs; [congruence|discriminate]).
  split; [|split; [apply in_fst, lmin_In; auto|split; [apply in_fst, lmax_In; auto|split; [apply in_snd, lmin_In; auto|apply in_snd, lmax_In; auto]]]].
  intros p I. split; split; (apply lmin_le || apply lmax_ge); (apply (in_map fst _ _ I) || apply (in_map snd _ _ I)).
Qed.

(** A query of a problem with walls is set up, when the sample counts are, with the least box that
    holds every corner of every wall; without walls it raises ValueError. *)
Theorem setup_exact adaptive_n s e p rover held fuel lo hi :
  sample_range adaptive_n s e (p_gap p) rover held fuel = Some (Ret (lo, hi)) ->
  (p_obstacles p = [] -> problem_setup adaptive_n s e p rover held fuel = RaisesValue) /\
  (p_obstacles p <> [] -> exists b pts, problem_setup adaptive_n s e p rover held fuel = Ready lo hi b /\
    (forall q, In q pts <-> exists o, In o (p_obstacles p) /\ corner_of o q) /\ tight_box pts b).
Proof.
  intros E. unfold problem_setup, query_setup. rewrite E. split; intros H.
  - rewrite H. reflexivity.
  - set (pts := flat_map get_oobb_vertices (map wall_oobb (p_obstacles p))).
    assert (M : forall q, In q pts <-> exists o, In o (p_obstacles p) /\ corner_of o q).
    { intros q. unfold pts. rewrite in_flat_map. split.
      - intros (o & I & Q). apply in_map_iff in I as (w & <- & I). exists w. split; auto. apply corners; auto.
      - intros (w & I & Q). exists (wall_oobb w). split; [apply in_map; auto|]. apply corners; auto. }
    assert (N : pts <> []).
    { destruct (p_obstacles p) as [|w l]; [congruence|]. discriminate. }
    exists (extents pts), pts. split; [|split; auto using extents_tight].
    unfold py_extents. destruct pts; [congruence|reflexivity].
Qed.
Print Assumptions setup_exact.

(** every draw lies in the box of the walls' corners *)
Theorem draws_in_box adaptive_n s e p rover held fuel lo hi b u v :
  problem_setup adaptive_n s e p rover held fuel = Ready lo hi b -> 0 <= u <= 1 -> 0 <= v <= 1 ->
  exists q1 q2 q3 q4 o1 o2 o3 o4, (In o1 (p_obstacles p) /\ corner_of o1 q1) /\ (In o2 (p_obstacles p) /\ corner_of o2 q2) /\
    (In o3 (p_obstacles p) /\ corner_of o3 q3) /\ (In o4 (p_obstacles p) /\ corner_of o4 q4) /\
    fst q1 <= fst (sample_from_env b u v) <= fst q2 /\ snd q3 <= snd (sample_from_env b u v) <= snd q4.
Proof.
  intros E U V. unfold problem_setup, query_setup in E.
  destruct (sample_range adaptive_n s e (p_gap p) rover held fuel) as [[[l h]| | |]|] eqn:S; try discriminate.
  assert (O : p_obstacles p <> []) by (intros Z; rewrite Z in E; discriminate).
  destruct (proj2 (setup_exact _ _ _ _ _ _ _ _ _ S) O) as (b' & pts & E' & M & T).
  unfold problem_setup, query_setup in E'. rewrite S in E'. rewrite E in E'. injection E' as _ _ <-.
  destruct T as (T & (q1 & I1 & X1) & (q2 & I2 & X2) & (q3 & I3 & X3) & (q4 & I4 & X4)).
  pose proof (proj1 (M _) I1) as (o1 & P1). pose proof (proj1 (M _) I2) as (o2 & P2). pose proof (proj1 (M _) I3) as (o3 & P3). pose proof (proj1 (M _) I4) as (o4 & P4).
  exists q1, q2, q3, q4, o1, o2, o3, o4. do 4 (split; auto).
  pose proof (T _ I1) as [A1 A2]. unfold sample_from_env. cbn [fst snd]. rewrite X1, X2, X3, X4. split; split; nra.
Qed.
Print Assumptions draws_in_box.

(** Every outcome of setting up a query with the adaptive count, by the failure bound [B] of the clearance
    [gap - width + 0.05]: with enough fuel OverflowError exactly when even 2^996 samples are too few, no end
    exactly when more than 2^53 are needed and 2^996 are enough, and otherwise a count, and then ValueError
    exactly when there are no obstacles; the other two exceptions never. *)
Theorem adaptive_outcomes s e p rover held fuel : (1000 <= fuel)%nat ->
  let clearance := p_gap p - body_extent rover held + 5 / 100 in
  let B := net_failure_bound (ball_measure clearance None 2 16) 3 in
  let out := problem_setup true s e p rover held fuel in
  (out = RaisesOverflow <-> B (Z.to_nat (2 ^ 996)) > 1 - 99 / 100) /\
  (out = SearchRuns <-> B (Z.to_nat (2 ^ 996)) <= 1 - 99 / 100 /\ forall m, (Z.of_nat m <= 2 ^ 53)%Z -> B m > 1 - 99 / 100) /\
  (out = RaisesValue <-> p_obstacles p = [] /\ exists m, (Z.of_nat m <= 2 ^ 53)%Z /\ B m <= 1 - 99 / 100) /\
  ((exists lo hi b, out = Ready lo hi b) <-> p_obstacles p <> [] /\ exists m, (Z.of_nat m <= 2 ^ 53)%Z /\ B m <= 1 - 99 / 100) /\
  out <> RaisesArithmetic /\ out <> RaisesInternal.
Proof.
  intros F clearance B out. assert (P : 0 < 99 / 100 < 1) by lra.
  destruct (numerical_bound_outcomes clearance (99 / 100) 16 2 None fuel P F) as (HR & HO & HA). cbn [Nat.add] in HR, HO, HA. fold B in HR, HO.
  assert (C : adaptive_delta (p_gap p) (body_extent rover held) = clearance) by (unfold adaptive_delta, clearance; lra).
  assert (E : compute_numerical_bound clearance (99 / 100) 16 2 None fuel <> None).
  { unfold compute_numerical_bound. destruct (Rleb (99 / 100) 0 || Rgeb (99 / 100) 1)%bool eqn:X; [|discriminate].
    apply Bool.orb_true_iff in X as [X|X]; [apply Rleb_true in X|apply Rgeb_true in X]; lra. }
  assert (S : sample_range true s e (p_gap p) rover held fuel = match compute_numerical_bound clearance (99 / 100) 16 2 None fuel with
      Some (Ret z, _) => Some (Ret ((z - 1)%Z, z)) | Some (ErrOverflow, _) => Some ErrOverflow | Some (ErrArith, _) => Some ErrArith | Some (OutOfFuel, _) => Some OutOfFuel | None => None end).
  { unfold sample_range. rewrite C. destruct (compute_numerical_bound clearance (99 / 100) 16 2 None fuel) as [[[z| | |] r]|]; reflexivity. }
  destruct (compute_numerical_bound clearance (99 / 100) 16 2 None fuel) as [[o r]|] eqn:K; [|congruence]. clear E. cbn [option_map fst] in HR, HO, HA.
  assert (NR : (exists m, (Z.of_nat m <= 2 ^ 53)%Z /\ B m <= 1 - 99 / 100) \/ forall m, (Z.of_nat m <= 2 ^ 53)%Z -> B m > 1 - 99 / 100).
  { destruct o as [z| | |].
    - left. apply HR. eauto.
    - right. intros m M. destruct (Rle_lt_dec (B m) (1 - 99 / 100)); auto. exfalso. destruct (proj2 HR) as [z Hz]; [eauto|discriminate].
    - right. intros m M. destruct (Rle_lt_dec (B m) (1 - 99 / 100)); auto. exfalso. destruct (proj2 HR) as [z Hz]; [eauto|discriminate].
    - right. intros m M. destruct (Rle_lt_dec (B m) (1 - 99 / 100)); auto. exfalso. destruct (proj2 HR) as [z Hz]; [eauto|discriminate]. }
  assert (HR' : (exists m, o = Ret m) <-> exists m, (Z.of_nat m <= 2 ^ 53)%Z /\ B m <= 1 - 99 / 100).
  { rewrite <- HR. split; intros [m M]; exists m; congruence. }
  assert (HO' : o = ErrOverflow <-> B (Z.to_nat (2 ^ 996)) > 1 - 99 / 100) by (rewrite <- HO; split; congruence). clear HR HO.
  assert (O : match o with Ret z => (p_obstacles p = [] -> out = RaisesValue) /\ (p_obstacles p <> [] -> exists b, out = Ready (z - 1) z b)
      | ErrOverflow => out = RaisesOverflow | ErrArith => out = RaisesInternal | OutOfFuel => out = SearchRuns end).
  { destruct o as [z| | |].
    - destruct (setup_exact _ _ _ _ _ _ _ _ _ S) as [V W]. split; auto. intros N. destruct (W N) as (b & _ & X & _). eauto.
    - unfold out, problem_setup, query_setup. rewrite S. reflexivity.
    - unfold out, problem_setup, query_setup. rewrite S. reflexivity.
    - unfold out, problem_setup, query_setup. rewrite S. reflexivity. }
  clearbody out. clear S K.
  destruct o as [z| | |].
  - assert (G : exists m, (Z.of_nat m <= 2 ^ 53)%Z /\ B m <= 1 - 99 / 100) by (apply HR'; eauto).
    assert (NO : ~ B (Z.to_nat (2 ^ 996)) > 1 - 99 / 100) by (intros H; apply HO' in H; discriminate).
    destruct O as [O1 O2]. destruct (p_obstacles p) as [|w l].
    + rewrite (O1 eq_refl). split; [split; [discriminate|contradiction]|]. split; [split; [discriminate|intros [_ H]; destruct G as (m & A & L); specialize (H m A); lra]|].
      split; [tauto|]. split; [split; [intros (? & ? & ? & ?); discriminate|tauto]|]. split; discriminate.
    + destruct (O2 ltac:(discriminate)) as [b ->]. split; [split; [discriminate|contradiction]|]. split; [split; [discriminate|intros [_ H]; destruct G as (m & A & L); specialize (H m A); lra]|].
      split; [split; [discriminate|intros [H _]; discriminate]|]. split; [split; [intros _; split; auto; discriminate|eauto]|]. split; discriminate.
  - assert (X : B (Z.to_nat (2 ^ 996)) > 1 - 99 / 100) by (apply HO'; reflexivity).
    assert (NG : ~ exists m, (Z.of_nat m <= 2 ^ 53)%Z /\ B m <= 1 - 99 / 100) by (intros H; apply HR' in H as [m M]; discriminate).
    rewrite O. split; [tauto|]. split; [split; [discriminate|intros [H _]; lra]|]. split; [split; [discriminate|tauto]|]. split; [split; [intros (? & ? & ? & ?); discriminate|tauto]|]. split; discriminate.
  - congruence.
  - assert (NO : ~ B (Z.to_nat (2 ^ 996)) > 1 - 99 / 100) by (intros H; apply HO' in H; discriminate).
    assert (NG : ~ exists m, (Z.of_nat m <= 2 ^ 53)%Z /\ B m <= 1 - 99 / 100) by (intros H; apply HR' in H as [m M]; discriminate).
    rewrite O. split; [split; [discriminate|tauto]|]. split; [split; [intros _; split; [lra|destruct NR; tauto]|auto]|]. split; [split; [discriminate|tauto]|]. split; [split; [intros (? & ? & ? & ?); discriminate|tauto]|]. split; discriminate.
Qed.
Print Assumptions adaptive_outcomes.

(** a body of width [gap + 0.05] overflows *)
Theorem zero_clearance_query s e p rover held fuel : (1000 <= fuel)%nat -> body_extent rover held = p_gap p + 5 / 100 ->
  problem_setup true s e p rover held fuel = RaisesOverflow.
Proof.
  intros F X. apply (adaptive_outcomes s e p rover held fuel F). rewrite X. replace (p_gap p - (p_gap p + 5 / 100) + 5 / 100) with 0 by lra.
  apply Rlt_gt. eapply Rlt_le_trans; [|apply Rge_le, Rle_ge, (nfb_rho_nonpos (ball_measure 0 None 2 16) 3)].
  - lra.
  - unfold ball_measure. rewrite Rmult_0_r, pow_i by lia. lra.
Qed.
Print Assumptions zero_clearance_query.
Example overflowing_rover s e places : problem_setup true s e (random_problem places) (5 / 100) None 1000 = RaisesOverflow.
Proof. apply zero_clearance_query; [lia|]. cbn [body_extent p_gap random_problem]. unfold default_gap. lra. Qed.

(** Without the adaptive count every query of hallway_manip, hallway and corner is set up. *)
Theorem worlds_set_up s e p rover held fuel :
  (exists scale dd us, p = manip_problem scale dd us) \/ (exists scale dd, p = hallway_problem scale dd) \/ (exists scale dd, p = corner_problem scale dd) ->
  exists b, problem_setup false s e p rover held fuel = Ready s e b.
Proof.
  intros W. assert (O : p_obstacles p <> []) by (destruct W as [(sc & dd & us & ->)|[(sc & dd & ->)|(sc & dd & ->)]]; discriminate).
  destruct (proj2 (setup_exact false s e p rover held fuel s e eq_refl) O) as (b & pts & E & _). eauto.
Qed.
Print Assumptions worlds_set_up.

(** With the adaptive count those of hallway_manip are, for the rover and for every target, with the
    count of the clearance [gap - width + 0.05], which is at least dd + 0.05. *)
Theorem manip_adaptive_set_up s e scale dd us held fuel : Forall (fun u => 0 <= u < 1) us -> 0 < scale -> 0 <= dd ->
  (held = None \/ exists r, In r (target_sizes scale us) /\ held = Some (2 * r)) -> (1000 <= fuel)%nat ->
  let p := manip_problem scale dd us in
  let rover := 2 * (scale * BOT_RADIUS) in
  let clearance := p_gap p - body_extent rover held + 5 / 100 in
  dd + 5 / 100 <= clearance /\
  exists z b, compute_numerical_bound clearance (99 / 100) 16 2 None fuel = Some (Ret z, 2 * clearance) /\ (2 <= z)%Z /\
    problem_setup true s e p rover held fuel = Ready (z - 1) z b.
Proof.
  intros U S D H F p rover clearance.
  destruct (hallway_gap_exact scale us dd U) as [G L].
  assert (C : dd + 5 / 100 <= clearance).
  { unfold clearance, p, rover. cbn [p_gap manip_problem]. destruct H as [->|(r & I & ->)]; cbn [body_extent].
    - rewrite G. unfold max_object_size, min_object_size. lra.
    - specialize (L r I). lra. }
  split; auto.
  destruct (turtle_count_returned clearance fuel) as (z & E & Z); [rewrite Rabs_right; lra|auto|].
  assert (R : sample_range true s e (p_gap p) rover held fuel = Some (Ret ((z - 1)%Z, z))).
  { unfold sample_range. replace (adaptive_delta (p_gap p) (body_extent rover held)) with clearance by (unfold adaptive_delta, clearance; lra). rewrite E. reflexivity. }
  destruct (proj2 (setup_exact true s e p rover held fuel _ _ R)) as (b & _ & B & _); [discriminate|].
  exists z, b. auto.
Qed.
Print Assumptions manip_adaptive_set_up.

(** C155 refuted: no query in the world of random obstacles can be set up, wherever its boxes stand;
    none of its walls and boxes is an obstacle of the problem. *)
Theorem random_world_refuted : exists n, forall places, length places = n ->
  (forall s e rover held fuel, problem_setup false s e (random_problem places) rover held fuel = RaisesValue) /\
  (length (random_solids places) = n + 4)%nat /\ forall o, In o (random_solids places) -> ~ In o (p_obstacles (random_problem places)).
Proof.
  exists 50%nat. intros places L. split; [intros; reflexivity|]. split; [|intros o _ []].
  unfold random_solids. rewrite app_length, map_length, L. reflexivity.
Qed.
Print Assumptions random_world_refuted.

(** ... and with the adaptive count neither, whatever the robot's width *)
Theorem random_world_adaptive adaptive_n s e places rover held fuel lo hi b :
  problem_setup adaptive_n s e (random_problem places) rover held fuel <> Ready lo hi b.
Proof. unfold problem_setup, query_setup. destruct (sample_range _ _ _ _ _ _ _) as [[[l h]| | |]|]; discriminate. Qed.
Print Assumptions random_world_adaptive.

Example corner_set_up : exists b, problem_setup false 10 100 (corner_problem (1 / 5) (1 / 10)) (716 / 10000) None 0 = Ready 10 100 b.
Proof. apply worlds_set_up. eauto. Qed.
Example manip_set_up : exists z b, problem_setup true 10 100 (manip_problem (1 / 5) (1 / 10) []) (2 * (1 / 5 * BOT_RADIUS)) (Some (2 * max_object_size (1 / 5))) 1000 = Ready (z - 1) z b.
Proof.
  destruct (manip_adaptive_set_up 10 100 (1 / 5) (1 / 10) [] (Some (2 * max_object_size (1 / 5))) 1000) as (_ & z & b & _ & _ & E); auto; try lra.
  - right. eexists. split; [left; reflexivity|reflexivity].
  - eauto.
Qed.
