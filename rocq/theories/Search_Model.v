(** Model of the search loops of nonasymptotic/bound.py.

    The searches call back into a caller supplied function and only ever compare
    the values it returns, so the value type [V] and the Python comparisons
    [a >= b], [a > b] on it are parameters.  Two instances are used: [fval]
    (float64 values including NaN and the infinities, finite ones as rationals)
    and [R] (see Bound_Model.v). *)
From Coq Require Import ZArith QArith Bool.
Open Scope Z_scope.

(** Outcome of a search: a value, the two Python exceptions of bound.py 112 and
    119/280, or "still running when the fuel ran out" (not a Python outcome). *)
Inductive sres (A : Type) : Type :=
| Ret (a : A)
| ErrOverflow
| ErrArith
| OutOfFuel.
Arguments Ret {A} a.
Arguments ErrOverflow {A}.
Arguments ErrArith {A}.
Arguments OutOfFuel {A}.

(** Python float values, for the comparisons of bound.py 106, 128, 276-287. *)
Inductive fval : Type :=
| FNaN
| FNegInf
| FFin (q : Q)
| FPosInf.

(** [a >= b] on floats (any comparison with NaN is False). *)
Definition fge (a b : fval) : bool :=
  match a, b with
  | FNaN, _ | _, FNaN => false
  | FPosInf, _ => true
  | _, FNegInf => true
  | FFin x, FFin y => Qle_bool y x
  | _, _ => false
  end.

(** [a > b] on floats. *)
Definition fgt (a b : fval) : bool :=
  match a, b with
  | FNaN, _ | _, FNaN => false
  | FPosInf, FPosInf => false
  | FPosInf, _ => true
  | FFin _, FNegInf => true
  | FFin x, FFin y => negb (Qle_bool x y)
  | _, _ => false
  end.

(** The float literal [1e300] of bound.py 111, as the exact integer value of that
    float64. *)
Definition float_1e300 : Z :=
  1000000000000000052504760255204420248704468581108159154915854115511802457988908195786371375080447864043704443832883878176942523235360430575644792184786706982848387200926575803737830233794788090059368953234970799945081119038967640880074652742780142494579258788820056842838115669472196386865459400540160.

(** [int(s / 2)] for a nonnegative Python integer [s] (bound.py 121, with
    [s = m_samples_lb + m_samples_ub]): Python's true division returns the float64
    nearest to [s/2] (ties to even), [int] then truncates.  For [s < 2^53] the quotient is
    exact; otherwise the unit in the last place of [s/2] is [2^(log2 s - 53)] and
    the rounded quotient is an integer. *)
Definition py_half_int (s : Z) : Z :=
  if s <? 2 ^ 53 then s / 2
  else
    let e := Z.log2 s - 53 in
    let q := s / 2 ^ (e + 1) in
    let r := s mod 2 ^ (e + 1) in
    let up :=
      if r <? 2 ^ e then false
      else if 2 ^ e <? r then true
      else negb (Z.even q) in
    (if up then q + 1 else q) * 2 ^ e.

Section DoublingSearch.
  Context {V : Type}.
  Variable ge gt : V -> V -> bool.

  (** bound.py 101-112: the first loop, from [m_samples_ub = ub]. *)
  Fixpoint doubling_phase (f : Z -> V) (log_failure_prob : V) (fuel : nat) (ub : Z)
    : sres Z :=
    match fuel with
    | O => OutOfFuel
    | S fuel' =>
        let cand_gamma := f ub in
        let next_gamma := f (ub + 1) in
        if ge log_failure_prob cand_gamma && ge cand_gamma next_gamma
        then Ret ub
        else
          let ub' := ub * 2 in
          if float_1e300 <? ub' then ErrOverflow
          else doubling_phase f log_failure_prob fuel' ub'
    end.

  (** bound.py 115-133: the second loop.  [mid] is [py_half_int (lb + ub)]. *)
  Fixpoint binary_phase (f : Z -> V) (log_failure_prob : V) (fuel : nat) (lb ub : Z)
    : sres Z :=
    match fuel with
    | O => OutOfFuel
    | S fuel' =>
        if ub =? lb + 1 then Ret ub
        else if ub <=? lb then ErrArith
        else
          let test := py_half_int (lb + ub) in
          let cand_gamma := f test in
          let next_gamma := f (test + 1) in
          if gt cand_gamma log_failure_prob || gt next_gamma cand_gamma
          then binary_phase f log_failure_prob fuel' test ub
          else binary_phase f log_failure_prob fuel' lb test
    end.

  (** bound.py 87-133: doubling_sample_search_over_log2_prob_bound, after line 97
      has computed [log_failure_prob]. *)
  Definition doubling_search (f : Z -> V) (log_failure_prob : V) (fuel : nat) : sres Z :=
    match doubling_phase f log_failure_prob fuel 2 with
    | Ret ub => binary_phase f log_failure_prob fuel 1 ub
    | other => other
    end.
End DoublingSearch.

Section RadiusSearch.
  Context {V : Type}.
  Variable ge gt : V -> V -> bool.
  Open Scope Q_scope.

  (** bound.py 275-290: loop of halving_radius_search_over_log_prob_bound.
      Radii are exact rationals (float rounding of the midpoint is not modelled). *)
  Fixpoint halving_loop (f : Q -> V) (log_failure_prob : V) (tol : Q) (fuel : nat)
    (rad_lb rad_ub : Q) : sres Q :=
    match fuel with
    | O => OutOfFuel
    | S fuel' =>
        if Qle_bool (rad_ub - rad_lb) tol then Ret rad_lb
        else if negb (Qle_bool rad_lb rad_ub) then ErrArith
        else
          let test_rad := (rad_lb + rad_ub) / 2 in
          let test_gamma := f test_rad in
          let next_test_gamma := f (test_rad - tol / 2) in
          if ge next_test_gamma test_gamma || gt test_gamma log_failure_prob
          then halving_loop f log_failure_prob tol fuel' rad_lb test_rad
          else halving_loop f log_failure_prob tol fuel' test_rad rad_ub
    end.

  (** bound.py 265-290: [None] is the AssertionError of line 271. *)
  Definition halving_search (f : Q -> V) (log_failure_prob : V) (tol : Q) (fuel : nat)
    (rad_lb rad_ub : Q) : option (sres Q) :=
    if negb (Qle_bool rad_ub rad_lb)
    then Some (halving_loop f log_failure_prob tol fuel rad_lb rad_ub)
    else None.

  (** bound.py 301-314: linear_radius_search_over_prob_bound.  [rad] is never
      assigned inside the loop, which is why the recursive call repeats it. *)
  Fixpoint linear_loop (f : Q -> V) (failure_prob : V) (tol rad_ub : Q) (fuel : nat)
    (rad : Q) : sres Q :=
    match fuel with
    | O => OutOfFuel
    | S fuel' =>
        if negb (Qle_bool rad rad_ub) then ErrArith
        else if gt (f (rad + tol)) failure_prob then Ret rad
        else linear_loop f failure_prob tol rad_ub fuel' rad
    end.

  Definition linear_search (f : Q -> V) (failure_prob : V) (tol : Q) (fuel : nat)
    (rad_lb rad_ub : Q) : sres Q :=
    linear_loop f failure_prob tol rad_ub fuel rad_lb.
End RadiusSearch.
