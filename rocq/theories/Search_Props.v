(** Properties C04, C05, C08 and C11: the searches of nonasymptotic/bound.py. *)
From Coq Require Import ZArith QArith Lia.
From Verif Require Import Search_Model Search_Spec Search_Proofs.
Open Scope Z_scope.

(** C04.  For every bound function without NaN values: the returned count is
    acceptable, and it is 2 or its predecessor is not acceptable.  The result never
    exceeds 2^53. *)
Theorem doubling_search_certified : forall (f : Z -> fval) (L : fval) fuel m,
  (forall k, f k <> FNaN) -> L <> FNaN ->
  doubling_search fge fgt f L fuel = Ret m ->
  2 <= m <= 2 ^ 53 /\ count_ok f L m /\ (m = 2 \/ ~ count_ok f L (m - 1)).
Proof. exact certified_proof. Qed.
Print Assumptions doubling_search_certified.

(** The hypotheses are met by a falling bound function; the search returns 7. *)
Example doubling_search_certified_case :
  let f := fun m => FFin (inject_Z (- m)) in
  (forall k, f k <> FNaN) /\ doubling_search fge fgt f (FFin (-7 # 1)) 1000 = Ret 7.
Proof. split; [intros k; discriminate|vm_compute; reflexivity]. Qed.

(** C04 is false if the bound function may return NaN: the second loop accepts NaN. *)
Theorem doubling_search_certified_nan_refuted :
  exists (f : Z -> fval) (L : fval) m,
    L <> FNaN /\ doubling_search fge fgt f L 1000 = Ret m /\ f m = FNaN.
Proof. exists nan_at_3, (FFin (-1 # 1)), 3. split; [discriminate|split; vm_compute; reflexivity]. Qed.
Print Assumptions doubling_search_certified_nan_refuted.

(** C05, full statement: forall f L, exists fuel, doubling_search f L fuel <> OutOfFuel.
    It is false; see doubling_search_terminates_refuted.  What holds: if some power
    of two up to 2^53 is acceptable the search returns (1000 loop rounds suffice). *)
Theorem doubling_search_terminates_partial : forall (f : Z -> fval) (L : fval),
  (exists j, 1 <= j <= 53 /\ count_ok f L (2 ^ j)) ->
  forall fuel, (1000 <= fuel)%nat -> exists m, doubling_search fge fgt f L fuel = Ret m.
Proof. exact terminates_proof. Qed.
Print Assumptions doubling_search_terminates_partial.

Example doubling_search_terminates_case :
  exists j, 1 <= j <= 53 /\ count_ok (fun m => FFin (inject_Z (- m))) (FFin (-7 # 1)) (2 ^ j).
Proof. exists 3. split; [lia|]. split; vm_compute; discriminate. Qed.

(** C05.  OverflowError is raised exactly when no power of two up to 2^996 (the last
    one below 1e300) is acceptable. *)
Theorem doubling_search_overflow_iff : forall (f : Z -> fval) (L : fval) fuel,
  (1000 <= fuel)%nat ->
  (doubling_search fge fgt f L fuel = ErrOverflow <->
   forall j, 1 <= j <= 996 -> ~ count_ok f L (2 ^ j)).
Proof. exact overflow_proof. Qed.
Print Assumptions doubling_search_overflow_iff.

Example doubling_search_overflow_case :
  doubling_search fge fgt (fun _ => FFin 0) (FFin (-7 # 1)) 1000 = ErrOverflow.
Proof. vm_compute. reflexivity. Qed.

(** C05.  The remaining case: a power of two is acceptable but no count up to 2^53
    is.  Then the float midpoint stalls and the search never finishes. *)
Theorem doubling_search_diverges_beyond_2_53 : forall (f : Z -> fval) (L : fval),
  (forall k, f k <> FNaN) -> L <> FNaN ->
  (exists j, 1 <= j <= 996 /\ count_ok f L (2 ^ j)) ->
  (forall m, 2 <= m <= 2 ^ 53 -> ~ count_ok f L m) ->
  forall fuel, doubling_search fge fgt f L fuel = OutOfFuel.
Proof. exact diverges_proof. Qed.
Print Assumptions doubling_search_diverges_beyond_2_53.

(** C05 refuted: a NaN-free nonincreasing bound function whose least acceptable count
    is 2^53 + 1. *)
Theorem doubling_search_terminates_refuted :
  exists (f : Z -> fval) (L : fval),
    (forall k, f k <> FNaN) /\ L <> FNaN /\
    (forall k, fle (f (k + 1)) (f k)) /\ count_ok f L (2 ^ 53 + 1) /\
    forall fuel, doubling_search fge fgt f L fuel = OutOfFuel.
Proof. exact terminates_refuted_proof. Qed.
Print Assumptions doubling_search_terminates_refuted.

(** C05.  'Something wrong happened' (line 119) is unreachable, even with NaN values. *)
Theorem doubling_search_no_internal_error : forall (f : Z -> fval) (L : fval) fuel,
  doubling_search fge fgt f L fuel <> ErrArith.
Proof. exact (fun f L => search_no_err_arith fge fgt f L fge_not_fgt). Qed.
Print Assumptions doubling_search_no_internal_error.

(** C08.  Radius search: the result is in [rad_lb, rad_ub), is rad_lb or acceptable,
    and within tol above it there is rad_ub or a radius that is not acceptable. *)
Theorem halving_search_certified : forall (f : Q -> fval) (L : fval) tol fuel lb ub r,
  (forall k, f k <> FNaN) -> L <> FNaN ->
  halving_search fge fgt f L tol fuel lb ub = Some (Ret r) ->
  (lb <= r /\ r < ub)%Q /\ (r = lb \/ radius_ok f L tol r) /\
  exists u, (r < u /\ u <= r + tol /\ u <= ub)%Q /\ (u = ub \/ ~ radius_ok f L tol u).
Proof. exact halving_proof. Qed.
Print Assumptions halving_search_certified.

Example halving_search_certified_case :
  exists r, halving_search fge fgt (fun x => FFin x) (FFin (1 # 3)) (1 # 10) 100 0 1 = Some (Ret r)
            /\ (r == 5 # 16)%Q.
Proof. eexists. split; [vm_compute; reflexivity|vm_compute; reflexivity]. Qed.

(** C08.  If acceptability is inherited by smaller radii, no acceptable radius is more
    than tol above the result. *)
Theorem halving_search_near_optimal : forall (f : Q -> fval) (L : fval) tol fuel lb ub r,
  (forall k, f k <> FNaN) -> L <> FNaN ->
  (forall a b, lb <= a -> a <= b -> b <= ub -> radius_ok f L tol b -> radius_ok f L tol a)%Q ->
  halving_search fge fgt f L tol fuel lb ub = Some (Ret r) ->
  forall x, (lb <= x /\ x < ub)%Q -> radius_ok f L tol x -> (x <= r + tol)%Q.
Proof. exact halving_near_optimal_proof. Qed.
Print Assumptions halving_search_near_optimal.

(** C08.  Termination for every positive tolerance. *)
Theorem halving_search_terminates : forall (f : Q -> fval) (L : fval) tol lb ub,
  (0 < tol)%Q -> (lb < ub)%Q ->
  exists N, forall fuel, (N <= fuel)%nat ->
    exists r, halving_search fge fgt f L tol fuel lb ub = Some (Ret r).
Proof. exact (fun f L tol => halving_terminates fge fgt f L tol). Qed.
Print Assumptions halving_search_terminates.

(** C08.  The only exception is the AssertionError for an empty interval; for
    tol <= 0 the search never finishes. *)
Theorem halving_search_outcomes : forall (f : Q -> fval) (L : fval) tol fuel lb ub,
  halving_search fge fgt f L tol fuel lb ub <> Some ErrArith /\
  halving_search fge fgt f L tol fuel lb ub <> Some ErrOverflow /\
  (halving_search fge fgt f L tol fuel lb ub = None <-> (ub <= lb)%Q) /\
  ((tol <= 0)%Q -> (lb < ub)%Q -> halving_search fge fgt f L tol fuel lb ub = Some OutOfFuel).
Proof. exact halving_outcomes_proof. Qed.
Print Assumptions halving_search_outcomes.

(** C11.  The linear search decides everything with its first test; otherwise it
    never finishes, whatever the fuel. *)
Theorem linear_search_decided_by_first_test_partial :
  forall (f : Q -> fval) (fp : fval) tol fuel lb ub,
  linear_search fgt f fp tol (S fuel) lb ub =
    (if negb (Qle_bool lb ub) then ErrArith
     else if fgt (f (lb + tol)%Q) fp then Ret lb else OutOfFuel).
Proof. exact (linear_search_outcome fval fgt). Qed.
Print Assumptions linear_search_decided_by_first_test_partial.

(** C11 refuted: the bound is exceeded inside the interval, yet the search never stops. *)
Theorem linear_search_terminates_refuted :
  exists (f : Q -> fval) (fp : fval) tol lb ub x,
    (0 < tol)%Q /\ (lb <= x /\ x + tol <= ub)%Q /\ ~ fle (f (x + tol)%Q) fp /\
    forall fuel, linear_search fgt f fp tol fuel lb ub = OutOfFuel.
Proof.
  exists (fun x => FFin x), (FFin (1 # 2)), (1 # 10), 0%Q, 1%Q, (3 # 4).
  repeat split; try (vm_compute; congruence).
  intros [|fuel]; [reflexivity|].
  rewrite linear_search_decided_by_first_test_partial. reflexivity.
Qed.
Print Assumptions linear_search_terminates_refuted.
