(** Model of the code in the notebooks that compare the sample bounds:

    notebooks/numerical_bound_comparisons.ipynb   cells 3, 4, 7 and 9
    notebooks/numerical_bound_computations.ipynb  cell 3 (the same functions as cell 7 of the first)
    notebooks/designing_tractable_experiments.ipynb  cells 14 and 23

    Numbers are reals (numpy floats and decimals with 100 digits in the code); the searches are those of
    Search_Model.v.  pandas and the plots are left out. *)
From Coq Require Import ZArith Reals List Bool String.
From Verif Require Import Search_Model Bound_Model Submit_Model.
Import ListNotations.
Open Scope R_scope.

(** cell 7: blumer_bound *)
Definition blumer_bound (eps gamma : R) (vc_dim : nat) : R :=
  Rmax (4 / eps * log2R (2 / gamma)) (8 * INR vc_dim / eps * log2R (13 / eps)).

(** the four columns of results_record *)
Record record := mkRecord { c_dimension : list string; c_probs : list R; c_samples : list R; c_type : list string }.
Definition empty_record : record := mkRecord [] [] [] [].
(** np.concatenate on every column *)
Definition append_rows (r : record) (dims : list string) (probs samples : list R) (types : list string) : record :=
  mkRecord (c_dimension r ++ dims) (c_probs r ++ probs) (c_samples r ++ samples) (c_type r ++ types).

(** cell 7: the loop over the probabilities; an exception ends the whole computation *)
Fixpoint numer_samples (eps : R) (vc_dim : nat) (ps : list R) (fuel : nat) : sres (list R) :=
  match ps with
  | [] => Ret []
  | p :: ps' =>
      match doubling_sample_search_over_log2_prob_bound (fun m => compute_sauer_shelah_bound_log2 m eps vc_dim) (1 - p) fuel with
      | Ret z => match numer_samples eps vc_dim ps' fuel with Ret l => Ret (IZR z :: l) | other => other end
      | ErrOverflow => ErrOverflow
      | ErrArith => ErrArith
      | OutOfFuel => OutOfFuel
      end
  end.
Definition dim_label (dim : nat) : string := ("$d=" ++ show (Z.of_nat dim) ++ "$")%string.
(** cell 7: compare_bounds *)
Fixpoint compare_loop (rad : R) (ps : list R) (fuel : nat) (dims : list nat) (r : record) : sres record :=
  match dims with
  | [] => Ret r
  | dim :: dims' =>
      let eps := compute_vol_unit_sphere dim * rad ^ dim in
      match numer_samples eps (dim + 1) ps fuel with
      | Ret ns =>
          let r1 := append_rows r (repeat (dim_label dim) (List.length ps)) ps ns (repeat "Numerical"%string (List.length ps)) in
          let r2 := append_rows r1 (repeat (dim_label dim) (List.length ps)) ps (map (fun p => blumer_bound eps p (dim + 1)) ps)
                      (repeat "Blumer et al."%string (List.length ps)) in
          compare_loop rad ps fuel dims' r2
      | ErrOverflow => ErrOverflow
      | ErrArith => ErrArith
      | OutOfFuel => OutOfFuel
      end
  end.
Definition compare_bounds (dims : list nat) (rad : R) (ps : list R) (fuel : nat) : sres record :=
  compare_loop rad ps fuel dims empty_record.

(** cell 7: dims and rad *)
Definition plotted_dims : list nat := [2; 3; 4; 5; 6; 7]%nat.
Definition plotted_rad : R := 1 / 2.

(** ** The version with decimals, cell 9; [pi] is the float math.pi *)
Section Decimal.
Variable pi : R.
Definition volume_half_rad_ball : R := pi / 4.
Definition conversion_factor : R := ln 2.
Definition sample_constant : R := volume_half_rad_ball / 2 * conversion_factor.
Definition blumer_bound_decimal (gamma : R) : R :=
  Rmax (4 / volume_half_rad_ball * ln (2 / gamma)) (8 * 3 / volume_half_rad_ball * ln (13 / volume_half_rad_ball)).
Definition compute_sauer_shelah_bound_d2_ln_decimal (m_samples : Z) : R :=
  let ss_comb_sum := IZR (compute_ss_comb_sum m_samples 3) in
  ln ss_comb_sum - sample_constant * IZR m_samples + conversion_factor.
End Decimal.

(** cell 9: the first loop, with the limit 10 ** 3000 *)
Fixpoint doubling_phase_decimal (f : Z -> R) (log_failure_prob : R) (fuel : nat) (ub : Z) : sres Z :=
  match fuel with
  | O => OutOfFuel
  | S fuel' =>
      let cand_gamma := f ub in
      let next_gamma := f (ub + 1)%Z in
      if (Rgeb log_failure_prob cand_gamma && Rgeb cand_gamma next_gamma)%bool then Ret ub
      else
        let ub' := (ub * 2)%Z in
        if (10 ^ 3000 <? ub')%Z then ErrOverflow else doubling_phase_decimal f log_failure_prob fuel' ub'
  end.
(** cell 9: the second loop; int((lb + ub) / 2) raises OverflowError if the quotient is no float *)
Fixpoint binary_phase_decimal (f : Z -> R) (log_failure_prob : R) (fuel : nat) (lb ub : Z) : sres Z :=
  match fuel with
  | O => OutOfFuel
  | S fuel' =>
      if (ub =? lb + 1)%Z then Ret ub
      else if (ub <=? lb)%Z then ErrArith
      else
        let test := py_half_int (lb + ub) in
        if (2 ^ 1024 <=? test)%Z then ErrOverflow
        else
          let cand_gamma := f test in
          let next_gamma := f (test + 1)%Z in
          if (Rgtb cand_gamma log_failure_prob || Rgtb next_gamma cand_gamma)%bool
          then binary_phase_decimal f log_failure_prob fuel' test ub
          else binary_phase_decimal f log_failure_prob fuel' lb test
  end.
Definition doubling_sample_search_over_ln_prob_bound_decimal (f : Z -> R) (failure_prob : R) (fuel : nat) : sres Z :=
  let log_failure_prob := ln failure_prob in
  match doubling_phase_decimal f log_failure_prob fuel 2 with
  | Ret ub => binary_phase_decimal f log_failure_prob fuel 1 ub
  | other => other
  end.

(** ** The comparison with Halton points, cells 2-4 (d = 2: the bases are 2 and 3).
    [len] is the length that np.arange computes from rounded numbers. *)
Definition halton_constant : R := sqrt (2 ^ 4 + 3 ^ 2).
Definition min_halton_N : R := 2 * 3.
Definition max_samples : R := 10 ^ 12.
Definition n_curve_points : nat := 1000.
Definition halton_n_samples (i : nat) : R := min_halton_N + INR i * ((max_samples - min_halton_N) / INR n_curve_points).
Definition halton_dispersion (i : nat) : R := halton_constant * Rpower (halton_n_samples i) (- 1 / 2).
(** np.linspace(0.5, halton_dispersion[-1], num=n_curve_points) *)
Definition blumer_dispersion (len i : nat) : R :=
  1 / 2 + INR i * ((halton_dispersion (len - 1) - 1 / 2) / INR (n_curve_points - 1)).
Definition blumer_n_samples (len i : nat) (success_prob : R) (fuel : nat) : sres Z :=
  let rho := compute_vol_unit_sphere 2 * blumer_dispersion len i ^ 2 in
  doubling_sample_search_over_log2_prob_bound (fun m => compute_sauer_shelah_bound_log2 m rho 3) success_prob fuel.

(** ** designing_tractable_experiments.ipynb, cell 14 *)
(** _partition_curves_into_equal_chunks; [None] is ZeroDivisionError.  The curves are a list of rows; a slice
    of an array is clipped at its end. *)
Definition slice {A} (i j : nat) (l : list A) : list A := firstn (j - i) (skipn i l).
Fixpoint chunk_loop {X Y} (xs : list X) (ys : list (list Y)) (nominal : nat) (n cur : nat) : list (list X) * list (list (list Y)) :=
  match n with
  | O => ([], [])
  | S n' =>
      let next := (cur + nominal)%nat in
      let (ds, rs) := chunk_loop xs ys nominal n' next in
      (slice cur next xs :: ds, map (slice cur next) ys :: rs)
  end.
Definition partition_curves {X Y} (xs : list X) (ys : list (list Y)) (n_chunks : nat) : option (list (list X) * list (list (list Y))) :=
  match n_chunks with
  | O => None
  | S n' =>
      let n_points := List.length xs in
      let nominal := (n_points / n_chunks)%nat in
      let extra := (n_points - nominal * n_chunks)%nat in
      let cur := (nominal + extra)%nat in
      let (ds, rs) := chunk_loop xs ys nominal n' cur in
      Some (slice 0 cur xs :: ds, map (slice 0 cur) ys :: rs)
  end.

(** _batch_net_search: outcomes are a value, the exceptions of the search, and IndexError *)
Inductive nres (A : Type) : Type := Done (a : A) | Overflow | Arith | Fuel | Index.
Arguments Done {A} a. Arguments Overflow {A}. Arguments Arith {A}. Arguments Fuel {A}. Arguments Index {A}.
(** one row; nan is [None].  The array has as many columns as [_param]; the search runs before the store. *)
Fixpoint batch_row (vc : nat) (sp thresh : R) (fuel columns : nat) (rhos : list R) : nres (list (option Z)) :=
  match rhos with
  | [] => Done (repeat None columns)
  | rho :: rhos' =>
      if Rlt_dec rho thresh then
        match columns with
        | O => batch_row vc sp thresh fuel O rhos'
        | S n => match batch_row vc sp thresh fuel n rhos' with Done l => Done (None :: l) | other => other end
        end
      else
        match doubling_sample_search_over_log2_prob_bound (fun m => compute_sauer_shelah_bound_log2 m rho vc) sp fuel with
        | Ret z =>
            match columns with
            | O => Index
            | S n => match batch_row vc sp thresh fuel n rhos' with Done l => Done (Some z :: l) | other => other end
            end
        | ErrOverflow => Overflow
        | ErrArith => Arith
        | OutOfFuel => Fuel
        end
  end.
(** the loop over the probabilities; _hit_vols[i_d] is only looked up in its body *)
Fixpoint batch_rows (vc : nat) (sps : list R) (thresh : R) (fuel columns : nat) (vols : option (list R)) : nres (list (list (option Z))) :=
  match sps with
  | [] => Done []
  | sp :: sps' =>
      match vols with
      | None => Index
      | Some rhos =>
          match batch_row vc sp thresh fuel columns rhos with
          | Done row => match batch_rows vc sps' thresh fuel columns vols with Done t => Done (row :: t) | other => other end
          | Overflow => Overflow | Arith => Arith | Fuel => Fuel | Index => Index
          end
      end
  end.
Fixpoint batch_loop (ds : list nat) (sps : list R) (thresh : R) (fuel columns i : nat) (hit_vols : list (list R)) : nres (list (list (list (option Z)))) :=
  match ds with
  | [] => Done []
  | d :: ds' =>
      match batch_rows (d + 1) sps thresh fuel columns (nth_error hit_vols i) with
      | Done rows => match batch_loop ds' sps thresh fuel columns (S i) hit_vols with Done t => Done (rows :: t) | other => other end
      | Overflow => Overflow | Arith => Arith | Fuel => Fuel | Index => Index
      end
  end.
Definition batch_net_search (ds : list nat) (sps : list R) (columns : nat) (hit_vols : list (list R)) (thresh : R) (fuel : nat) :=
  batch_loop ds sps thresh fuel columns 0 hit_vols.
