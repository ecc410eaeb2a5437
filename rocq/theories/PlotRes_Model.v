(** Model of notebooks/plot_results.ipynb, cell 4: the theoretical probabilities drawn beside the success rates.
    Floats are reals; [None] stands for NaN.  The pivot table, the labels and the plots are left out. *)
From Coq Require Import Reals.
From Verif Require Import Bound_Model.
Open Scope R_scope.

(** plot_results.ipynb, cell 4: measure_unit_ball; np.pi ** (dim / 2) / gamma(dim / 2 + 1) is the volume of compute_vol_unit_sphere *)
Definition measure_unit_ball (delta : R) (dim : nat) : R :=
  compute_vol_unit_sphere dim / ((2 * delta + 1) * (2 * delta) ^ (dim - 1)).
(** plot_results.ipynb, cell 4: rho *)
Definition rho (eps delta : R) (dim : nat) : R := measure_unit_ball delta dim * (eps * delta / sqrt (1 + delta ^ 2)) ^ dim.
(** plot_results.ipynb, cell 4: not_in_gamma_regime; np.log is the natural logarithm *)
Definition not_in_gamma_regime (n : nat) (dim : nat) (r : R) : bool := if Rlt_dec (INR n) (8 * (INR dim + 1) / r * ln (13 / r)) then true else false.
(** plot_results.ipynb, cell 4: th_prob_ed_complete *)
Definition th_prob (n : nat) (dim : nat) (r : R) : option R := if not_in_gamma_regime n dim r then None else Some (1 - 2 * exp (- INR n * r / 4)).
Definition th_prob_ed_complete (eps delta : R) (dim n : nat) : option R := th_prob n dim (rho eps delta dim).
