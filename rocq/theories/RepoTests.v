(** The deterministic tests of the repository, tests/test_envs.py and tests/test_utils.py
    116-154, evaluated on the models: each Example is one test, with the numbers of the test
    as rationals (Gray) or reals (Geom), and proves what the test asserts.  pytest's approx
    becomes equality of rationals.  Nothing is proved from these; they check that the models
    give the results the authors expect of the code. *)
From Coq Require Import Arith ZArith QArith List Bool Reals Lra Lia.
From Verif Require Import Geom_Model Geom_Spec Geom_Proofs Geom_Props Gray_Model.
Import ListNotations.
Open Scope Q_scope.

Definition same_point (p q : point) : bool :=
  Nat.eqb (length p) (length q) && forallb (fun r => Qeq_bool (fst r) (snd r)) (combine p q).
Definition is_dist (r : gray_res (option Q)) (v : Q) : bool :=
  match r with Ok (Some d) => Qeq_bool d v | _ => false end.
Definition is_point (r : gray_res point) (p : point) : bool :=
  match r with Ok q => same_point q p | _ => false end.

(** ** Test3dGrayCodeEnvNoThickness, test_envs.py 10-160 *)
Definition path34 := linear_list 3 4.
Definition zero3 : point := [0; 0; 0].
Definition half3 : point := [1#2; 1#2; 1#2].

(** test_graph_connects_start_and_end, 23-24: the list itself is a path of the graph from
    the start to the end *)
Example t_connects : hd [] path34 = [0; 0; 0]%Z /\ last path34 [] = [3; 0; 0]%Z /\
  forallb (fun e => existsb (cube_eqb (snd e)) (successors path34 (fst e))) (edges path34) = true.
Proof. repeat split. Qed.

(** test_graph_is_linear, 26-37 *)
Example t_linear :
  forallb (fun c => Nat.eqb (length (neighbors path34 c))
                            (if cube_eqb c [0; 0; 0]%Z || cube_eqb c [3; 0; 0]%Z then 1 else 2)) path34 = true.
Proof. vm_compute. reflexivity. Qed.

(** test_cube_centers, 39-47: over the Gray code of three bits *)
Example t_centers : forallb (fun c => is_dist (distance_to_wall 3 path34 0 (center c)) (1#2)) (gray 3) = true.
Proof. vm_compute. reflexivity. Qed.

(** the three tests of wall positions, 49-90 *)
Example t_walls :
  is_dist (distance_to_wall 3 path34 0 [1#2; 1#2; 8#10]) (1#2) &&
  is_dist (distance_to_wall 3 path34 0 [1#2; 1#2; 1#10]) (1#10) &&
  is_dist (distance_to_wall 3 path34 0 [1#2; 1#2; 11#10]) (1#2) &&
  is_dist (distance_to_wall 3 path34 0 [1#2; 9#10; 15#10]) (1#2) &&
  is_dist (distance_to_wall 3 path34 0 [95#100; 15#10; 1#2]) (1#2) = true.
Proof. vm_compute. reflexivity. Qed.

(** test_end_block_sampling_transform_no_thickness and the mid block one, 92-160 *)
Example t_transform_thin :
  same_point (transform_sample 3 path34 0 zero3 [3; 0; 0]%Z EndCenter) [3; 0; 0] &&
  same_point (transform_sample 3 path34 0 zero3 [3; 0; 0]%Z EndPassage) [3; 0; 1] &&
  same_point (transform_sample 3 path34 0 zero3 [2; 1; 1]%Z MidPassage1) [2; 1; 1] &&
  same_point (transform_sample 3 path34 0 zero3 [2; 1; 1]%Z MidCenter) [2; 1; 1] &&
  same_point (transform_sample 3 path34 0 zero3 [2; 1; 1]%Z MidPassage2) [2; 1; 1] = true.
Proof. vm_compute. reflexivity. Qed.

(** ** Test3dGrayCodeEnvWithThickness, test_envs.py 163-279 *)
Example t_transform_end :
  same_point (transform_sample 3 path34 (1#10) zero3 [0; 0; 0]%Z EndCenter) [1#10; 1#10; 1#10] &&
  same_point (transform_sample 3 path34 (1#10) zero3 [0; 0; 0]%Z EndPassage) [1#10; 1#10; 9#10] &&
  same_point (transform_sample 3 path34 (1#10) half3 [0; 0; 0]%Z EndCenter) half3 &&
  same_point (transform_sample 3 path34 (1#10) half3 [0; 0; 0]%Z EndPassage) [1#2; 1#2; 95#100] = true.
Proof. vm_compute. reflexivity. Qed.

Example t_transform_mid :
  let at_cube p := qadd p [2; 0; 1] in
  same_point (transform_sample 3 path34 (1#10) zero3 [2; 0; 1]%Z MidPassage1) (at_cube [1#10; 1#10; 0]) &&
  same_point (transform_sample 3 path34 (1#10) zero3 [2; 0; 1]%Z MidCenter) (at_cube [1#10; 1#10; 1#10]) &&
  same_point (transform_sample 3 path34 (1#10) zero3 [2; 0; 1]%Z MidPassage2) (at_cube [1#10; 9#10; 1#10]) &&
  same_point (transform_sample 3 path34 (1#10) half3 [2; 0; 1]%Z MidPassage1) (at_cube [1#2; 1#2; 5#100]) &&
  same_point (transform_sample 3 path34 (1#10) half3 [2; 0; 1]%Z MidCenter) (at_cube half3) &&
  same_point (transform_sample 3 path34 (1#10) half3 [2; 0; 1]%Z MidPassage2) (at_cube [1#2; 95#100; 1#2]) = true.
Proof. vm_compute. reflexivity. Qed.

(** ** TestGrayCodeEnvCurveRep, test_envs.py 298-443 *)
Definition path33 := linear_list 3 3.
Definition path32 := linear_list 3 2.
(** the legs the tests expect: 1 + 2 * 10 + 1 and 1 + 2 * 6 + 1 *)
Definition legs_odd : Q := 22.
Definition legs_even : Q := 14.
(** np.linspace(0, 1 / legs, 10) *)
Definition ts (legs : Q) : list Q := map (fun i => (1 / legs) * (inject_Z (Z.of_nat i) / 9)) (seq 0 10).
(** the curve at t0 plus or minus each t is base plus the arc length times d *)
Definition leg_ok (path : list cube) (legs t0 sign : Q) (base : cube) (d : point) : bool :=
  forallb (fun t => is_point (curve_point 3 path (t0 + sign * t))
                             (qadd (center base) (map (Qmult (t * (legs * (1#2)))) d))) (ts legs).

(** test_first_cube 309-325, test_mid_cube_entry_leg 360-393, test_mid_cube_exit_leg 395-427 *)
Example t_first_cube : leg_ok path33 legs_odd 0 1 [0; 0; 0]%Z [0; 0; 1] = true.
Proof. vm_compute. reflexivity. Qed.
Example t_entry_leg :
  leg_ok path33 legs_odd (4 / legs_odd) (-1) [0; 1; 1]%Z [0; -1; 0] &&
  leg_ok path33 legs_odd (8 / legs_odd) (-1) [1; 1; 0]%Z [-1; 0; 0] = true.
Proof. vm_compute. reflexivity. Qed.
Example t_exit_leg :
  leg_ok path33 legs_odd (4 / legs_odd) 1 [0; 1; 1]%Z [0; 0; -1] &&
  leg_ok path33 legs_odd (8 / legs_odd) 1 [1; 1; 0]%Z [0; 0; 1] = true.
Proof. vm_compute. reflexivity. Qed.

(** test_cube_transition 429-442 *)
Example t_transition :
  forallb (fun p => is_point (curve_point 3 path32 (fst p / (legs_even * (1#2))))
                             (map (fun x => x / 2) (qadd (center (fst (snd p))) (center (snd (snd p))))))
    (combine [1#2; 3#2; 5#2; 7#2; 9#2; 11#2; 13#2] (edges path32)) = true.
Proof. vm_compute. reflexivity. Qed.

(** test_last_cube_odd_length 327-342 and test_last_cube_even_length 344-358 collect errors
    but never assert that there are none.  Their expected points lie below the last centre,
    while the last leg comes from above: the comparison fails at every one of the nine
    points other than the centre, in both corridors.  The curve itself is right, as the last
    cube is entered from the cube above it. *)
Definition leg_errors (path : list cube) (legs t0 sign : Q) (base : cube) (d : point) : nat :=
  length (filter (fun t => negb (is_point (curve_point 3 path (t0 + sign * t))
                                          (qadd (center base) (map (Qmult (t * (legs * (1#2)))) d)))) (ts legs)).
Example t_last_cube_unasserted :
  leg_errors path33 legs_odd 1 (-1) (last path33 []) [0; 0; -1] = 9%nat /\
  leg_errors path32 legs_even 1 (-1) (last path32 []) [0; 0; -1] = 9%nat /\
  leg_ok path33 legs_odd 1 (-1) (last path33 []) [0; 0; 1] = true /\
  leg_ok path32 legs_even 1 (-1) (last path32 []) [0; 0; 1] = true /\
  predecessors path33 (last path33 []) = [[2; 1; 1]]%Z /\ last path33 [] = [2; 1; 0]%Z.
Proof. vm_compute. repeat split. Qed.

(** ** TestGrayCodeEnvMotionValidityChecker, test_envs.py 446-526 *)
Definition valid22 (start goal : point) : gray_res bool :=
  is_motion_valid 2 (linear_list 2 2) (375#1000) start goal.
Definition start_center : point := [1#2; 1#2].
Definition two_block : point := [1#2; 3#2].
Definition three_block : point := [3#2; 3#2].

Example t_motion_same_block :
  valid22 (qadd start_center [-(1#10); -(1#10)]) (qadd start_center [126#1000; 0]) = Ok false /\
  valid22 (qadd start_center [126#1000; 0]) (qadd start_center [-(1#10); -(1#10)]) = Ok false /\
  valid22 (qadd start_center [-(1#10); -(1#10)]) (qadd start_center [1#10; 1#10]) = Ok true /\
  valid22 (qadd start_center [-(126#1000); -(1#10)]) (qadd start_center [1#10; 126#1000]) = Ok false.
Proof. vm_compute. repeat split. Qed.

Example t_motion_two_blocks :
  valid22 (qadd start_center [124#1000; -(124#1000)]) (qadd two_block [49#100; -(124#1000)]) = Ok false /\
  valid22 start_center two_block = Ok true /\
  valid22 (qadd start_center [-(124#1000); 49#100]) (qadd two_block [49#100; 124#1000]) = Ok true /\
  valid22 (qadd two_block [0; -(1#4)]) (qadd three_block [0; -(1#4)]) = Ok true.
Proof. vm_compute. repeat split. Qed.

Example t_motion_three_blocks :
  valid22 start_center (qadd three_block [0; 1#10]) = Ok false /\
  valid22 (qadd start_center [-(124#1000); 49#100]) (qadd three_block [-(49#100); 124#1000]) = Ok true.
Proof. vm_compute. repeat split. Qed.

Example t_motion_four_blocks :
  valid22 start_center (qadd start_center [1#2; 0]) = Ok false /\
  valid22 start_center (qadd start_center [1#2; -(1#10)]) = Ok false.
Proof. vm_compute. repeat split. Qed.

Example t_motion_regression :
  is_motion_valid 2 (linear_list 2 2) (1#10) [1127#1000; 26#100] [802#1000; 3702#10000] = Ok false.
Proof. vm_compute. reflexivity. Qed.

(** ** TestIntersection, test_utils.py 116-154 *)
Open Scope R_scope.
Ltac misses := apply not_true_iff_false; rewrite segment_test_exact;
  [ intros (x & (t & Ht & X & Y) & (s & Hs & X' & Y')); cbn [fst snd] in *; lra
  | unfold parallel, aligned; cbn [fst snd]; lra ].
Ltac meets p u v := apply segment_test_never_misses; exists p; split; [exists u|exists v];
  cbn [fst snd]; (split; [lra|split; lra]).

Example t_intersection :
  detect_intersect (1/100, -5/100) (0, 5/100) (-5/10, 1/10) (5/10, 11/100) = false /\
  detect_intersect (-5/10, 1/10) (5/10, 1/10) (0, -5/100) (0, 15/100) = true /\
  detect_intersect (-5/10, -1/10) (5/10, -1/10) (0, -5/100) (0, 15/100) = false /\
  detect_intersect (-5/10, -5/10) (5/10, 5/10) (5/10, -5/10) (-5/10, 5/10) = true.
Proof.
  split; [|split; [|split]].
  - misses.
  - meets (0, 1/10) (1/2) (3/4).
  - misses.
  - meets (0, 0) (1/2) (1/2).
Qed.

(** ** TestNarrowPassagesMotionValidityChecker, test_envs.py 553-582: NarrowPassage(2, 0.1) *)
Ltac accepted := apply narrow_accepts_iff; intros i s Hi Hs;
  assert (i = 1%nat) by lia; subst i; unfold Geom_Spec.walls in Hs; simpl in Hs;
  destruct Hs as [<-|[<-|[<-|[<-|[<-|[<-|[]]]]]]]; cbn [fst snd nth]; split;
  try (intros (x & (t & Ht & X & Y) & (s & Hs & X' & Y')); cbn [fst snd] in *; lra);
  (intros [A B]; unfold parallel, aligned in *; cbn [fst snd] in *; lra).
Lemma hit_rejected : forall c p q s, Geom_Spec.walls c s ->
  share_point (nth 0 p 0, nth 1 p 0) (nth 0 q 0, nth 1 q 0) (fst s) (snd s) ->
  narrow_motion_valid 2 c p q = false.
Proof.
  intros c p q s W S. apply not_true_iff_false. rewrite narrow_accepts_iff. intro H.
  destruct (H 1%nat s ltac:(lia) W) as [N _]. exact (N S).
Qed.
Ltac rejected w p u v := apply hit_rejected with w; [unfold Geom_Spec.walls; simpl; auto 10|];
  exists p; split; [exists u|exists v]; cbn [fst snd nth]; (split; [lra|split; lra]).

Example t_narrow_rejects :
  narrow_motion_valid 2 (1/10) [14/10; 4/10] [0; 0] = false /\
  narrow_motion_valid 2 (1/10) [14/10; 4/10] [-14/10; 4/10] = false.
Proof.
  split.
  - rejected ((1/2, 1/10), (1/2, 1/2)) (1/2, 1/7) (9/14) (3/28).
  - rejected ((1/2, 1/10), (1/2, 1/2)) (1/2, 4/10) (9/28) (3/4).
Qed.

Example t_narrow_accepts :
  narrow_motion_valid 2 (1/10) [-5/10; 0] [5/10; 0] = true /\
  narrow_motion_valid 2 (1/10) [1/100; 5/100] [0; -5/100] = true /\
  narrow_motion_valid 2 (1/10) [-5/10; 0] [-1; 0] = true.
Proof. split; [|split]; accepted. Qed.
