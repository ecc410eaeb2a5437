(** Specification vocabulary for the search properties (C04, C05, C08, C11).
    Nothing here refers to the search loops of Search_Model.v. *)
From Coq Require Import ZArith QArith.
From Verif Require Import Search_Model.
Open Scope Z_scope.

(** Mathematical order on the extended rationals; false on NaN. *)
Definition fle (a b : fval) : Prop :=
  match a, b with
  | FNaN, _ | _, FNaN => False
  | FNegInf, _ => True
  | _, FPosInf => True
  | FFin x, FFin y => (x <= y)%Q
  | _, _ => False
  end.

(** A sample count is acceptable: the bound is met and does not rise at the next count. *)
Definition count_ok (f : Z -> fval) (L : fval) (m : Z) : Prop :=
  fle (f m) L /\ fle (f (m + 1)) (f m).

(** A radius is acceptable: the bound is met and is smaller slightly below. *)
Definition radius_ok (f : Q -> fval) (L : fval) (tol r : Q) : Prop :=
  fle (f r) L /\ ~ fle (f r) (f (r - tol / 2)%Q).
