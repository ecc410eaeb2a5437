(** C163 (the tables that compare the bounds), C164 (the recomputation with decimals) and
    C165 (the comparison with Halton points) *)
From Coq Require Import ZArith Reals List Bool String Lra Lia.
From Verif Require Import Search_Model Bound_Model Bound_Spec Notebook_Spec Notebook_Model Notebook_Proofs Notebook_Proofs2 Submit_Model.
Import ListNotations.
Open Scope R_scope.

(** * C163 *)
(** the [k]th entries of the four columns *)
Definition row (r : record) (k : nat) : option (string * R * R * string) :=
  match nth_error (c_dimension r) k, nth_error (c_probs r) k, nth_error (c_samples r) k, nth_error (c_type r) k with
  | Some d, Some p, Some s, Some t => Some (d, p, s, t)
  | _, _, _, _ => None
  end.
Lemma at_row_row : forall r k d p s t, at_row r k d p s t -> row r k = Some (d, p, s, t).
Proof. intros r k d p s t (A & B & C & D). unfold row. now rewrite A, B, C, D. Qed.
Lemma empty_wide : wide empty_record 0.
Proof. repeat split. Qed.

(** Of every table: where each entry stands and what it is *)
Theorem compare_table : forall dims rad ps fuel r,
  (forall p, In p ps -> 0 < p < 2) -> compare_bounds dims rad ps fuel = Ret r ->
  let n := List.length ps in
  (forall c, In c [List.length (c_dimension r); List.length (c_probs r); List.length (c_samples r); List.length (c_type r)] ->
     c = (2 * List.length dims * n)%nat) /\
  forall j dim i p, nth_error dims j = Some dim -> nth_error ps i = Some p ->
    let label := ("$d=" ++ show (Z.of_nat dim) ++ "$")%string in
    (exists z, row r (2 * j * n + i) = Some (label, p, IZR z, "Numerical"%string) /\ least_count (ball dim rad) (dim + 1) p z) /\
    row r ((2 * j + 1) * n + i) = Some (label, p, blumer (ball dim rad) p (dim + 1), "Blumer et al."%string).
Proof.
  intros dims rad ps fuel r Hp H n. unfold compare_bounds in H.
  destruct (compare_loop_spec rad ps fuel Hp dims empty_record 0 r empty_wide H) as ((W1 & W2 & W3 & W4) & _ & HR).
  split.
  - intros c Hc. cbn [In] in Hc. unfold n. intuition (subst; assumption).
  - intros j dim i p Ej Ei label. destruct (HR j dim Ej i p Ei) as ((z & A & B) & C). split.
    + exists z. split; [|exact B]. apply at_row_row. exact A.
    + apply at_row_row. replace ((2 * j + 1) * n + i)%nat with (0 + 2 * j * List.length ps + List.length ps + i)%nat by (unfold n; lia). exact C.
Qed.
Print Assumptions compare_table.

(** Wherever the ball has measure at most one, a numerical entry exceeds Blumer's entry for the same
    dimension and probability by less than one. *)
Theorem compare_order : forall dims rad ps fuel r,
  (forall p, In p ps -> 0 < p < 2) -> compare_bounds dims rad ps fuel = Ret r ->
  forall j dim i p, nth_error dims j = Some dim -> nth_error ps i = Some p -> 0 < ball dim rad <= 1 ->
  let n := List.length ps in
  exists d a b t u, row r (2 * j * n + i) = Some (d, p, a, t) /\ row r ((2 * j + 1) * n + i) = Some (d, p, b, u) /\ a < b + 1.
Proof.
  intros dims rad ps fuel r Hp H j dim i p Ej Ei Hb n.
  destruct (compare_table dims rad ps fuel r Hp H) as (_ & HT).
  destruct (HT j dim i p Ej Ei) as ((z & A & B) & C).
  do 5 eexists. split; [exact A|]. split; [exact C|].
  apply least_blumer; try assumption; [lia|]. apply (Hp p). eapply nth_error_In; exact Ei.
Qed.
Print Assumptions compare_order.

(** A smaller probability of failure never takes fewer samples. *)
Theorem compare_monotone : forall dims rad ps fuel r,
  (forall p, In p ps -> 0 < p < 2) -> compare_bounds dims rad ps fuel = Ret r ->
  forall j dim i i' p p', nth_error dims j = Some dim -> nth_error ps i = Some p -> nth_error ps i' = Some p' -> p' <= p ->
  let n := List.length ps in
  exists d a a' t, row r (2 * j * n + i) = Some (d, p, a, t) /\ row r (2 * j * n + i') = Some (d, p', a', t) /\ a <= a'.
Proof.
  intros dims rad ps fuel r Hp H j dim i i' p p' Ej Ei Ei' Hle n.
  destruct (compare_table dims rad ps fuel r Hp H) as (_ & HT).
  destruct (HT j dim i p Ej Ei) as ((z & A & B) & _). destruct (HT j dim i' p' Ej Ei') as ((z' & A' & B') & _).
  do 4 eexists. split; [exact A|]. split; [exact A'|].
  apply IZR_le. eapply least_mono; [| |exact B|exact B']; [lra|exact Hle].
Qed.
Print Assumptions compare_monotone.

(** A table is produced whenever Blumer's bounds stay below 2^53. *)
Theorem compare_runs : forall dims rad ps fuel, (1000 <= fuel)%nat ->
  (forall dim, In dim dims -> 0 < ball dim rad <= 1) ->
  (forall p, In p ps -> 0 < p < 2) ->
  (forall dim p, In dim dims -> In p ps -> blumer (ball dim rad) p (dim + 1) <= 2 ^ 53 - 1) ->
  exists r, compare_bounds dims rad ps fuel = Ret r.
Proof. intros dims rad ps fuel Hf Hb Hp Hm. unfold compare_bounds. apply compare_loop_runs; assumption. Qed.
Print Assumptions compare_runs.

(** Every call the notebooks make, with probabilities between 1e-15 and 1, produces its table. *)
Theorem plotted_tables : forall ps fuel, (1000 <= fuel)%nat -> (forall p, In p ps -> 1 / 10 ^ 15 <= p <= 1) ->
  exists r, compare_bounds plotted_dims plotted_rad ps fuel = Ret r.
Proof.
  intros ps fuel Hf Hp. apply compare_runs; [exact Hf| | |].
  - intros dim H. pose proof (plotted_ball dim H). lra.
  - intros p H. pose proof (Hp p H). lra.
  - intros dim p Hd H. pose proof (plotted_ball dim Hd). pose proof (Hp p H).
    eapply Rle_trans; [apply (blumer_upper _ _ _ (1 / 100) (1 / 10 ^ 15) 51); lra|].
    assert (INR (dim + 1) <= 8).
    { replace 8 with (INR 8) by (simpl; ring). apply le_INR. cbn in Hd. lia. }
    rewrite pow2_53. replace (INR 51) with 51 by (rewrite INR_IZR_INZ; reflexivity). lra.
Qed.
Print Assumptions plotted_tables.

Example plotted_tables_demo : exists r, compare_bounds plotted_dims plotted_rad [1 / 20; 1 / 10 ^ 15] 1000 = Ret r /\
  List.length (c_samples r) = 24%nat /\
  exists a, row r 6 = Some ("$d=3$"%string, 1 / 20, blumer (ball 3 (1 / 2)) (1 / 20) 4, "Blumer et al."%string) /\
            row r 4 = Some ("$d=3$"%string, 1 / 20, a, "Numerical"%string) /\ a < blumer (ball 3 (1 / 2)) (1 / 20) 4 + 1.
Proof.
  assert (HP : forall p, In p [1 / 20; 1 / 10 ^ 15] -> 1 / 10 ^ 15 <= p <= 1).
  { intros p [<-|[<-|[]]]; lra. }
  destruct (plotted_tables [1 / 20; 1 / 10 ^ 15] 1000 (le_n _) HP) as (r & E). exists r. split; [exact E|].
  assert (HP2 : forall p, In p [1 / 20; 1 / 10 ^ 15] -> 0 < p < 2) by (intros p H; specialize (HP p H); lra).
  destruct (compare_table _ _ _ _ _ HP2 E) as (HL & HT).
  split; [apply HL; cbn; auto|].
  destruct (HT 1%nat 3%nat 0%nat (1 / 20) eq_refl eq_refl) as ((z & A & B) & C).
  exists (IZR z). split; [exact C|]. split; [exact A|].
  apply least_blumer; [|lia|lra|exact B]. pose proof (plotted_ball 3 ltac:(cbn; auto)). unfold plotted_rad in *. lra.
Qed.

(** * C164 *)
(** A count of the float search is the count of the search with decimals. *)
Theorem decimal_same : forall pi gam fuel z, 0 < gam ->
  doubling_sample_search_over_log2_prob_bound (fun m => compute_sauer_shelah_bound_log2 m (pi / 4) 3) (1 - gam) fuel = Ret z ->
  doubling_sample_search_over_ln_prob_bound_decimal (compute_sauer_shelah_bound_d2_ln_decimal pi) gam fuel = Ret z.
Proof.
  intros pi gam fuel z Hg H. rewrite dec_search. apply d_sim.
  unfold doubling_sample_search_over_log2_prob_bound in H. rewrite one_minus in H. exact H.
Qed.
Print Assumptions decimal_same.

(** Whatever the search with decimals returns is the least certified count. *)
Theorem decimal_least : forall pi gam fuel z, 0 < gam < 2 ->
  doubling_sample_search_over_ln_prob_bound_decimal (compute_sauer_shelah_bound_d2_ln_decimal pi) gam fuel = Ret z ->
  least_count (pi / 4) 3 gam z /\ (2 <= z <= 2 ^ 53)%Z.
Proof.
  intros pi gam fuel z Hg H. rewrite dec_search in H. apply d_ret_inv in H. destruct H as (H1 & H2 & H3).
  split; [apply g_least_of; assumption || lia|exact H1].
Qed.
Print Assumptions decimal_least.

(** It returns, for every probability from 1e-15 to one, and the count is below Blumer's bound plus one. *)
Theorem decimal_runs : forall pi gam fuel, 3 <= pi <= 4 -> 1 / 10 ^ 15 <= gam <= 1 -> (1000 <= fuel)%nat ->
  exists z, doubling_sample_search_over_ln_prob_bound_decimal (compute_sauer_shelah_bound_d2_ln_decimal pi) gam fuel = Ret z /\
    least_count (pi / 4) 3 gam z /\ IZR z < blumer (pi / 4) gam 3 + 1.
Proof.
  intros pi gam fuel Hpi Hg Hf.
  destruct (search_if_blumer (pi / 4) gam 3 ltac:(lra) ltac:(lia) ltac:(lra)) with (fuel := fuel) as (z & E & Hz); [|exact Hf|].
  - eapply Rle_trans; [apply (blumer_upper _ _ _ (1 / 2) (1 / 10 ^ 15) 51); lra|].
    rewrite pow2_53, !INR_IZR_INZ. simpl (Z.of_nat _). lra.
  - exists z. split; [rewrite dec_search; apply d_sim; exact E|]. split; [exact Hz|].
    apply least_blumer; [lra|lia|lra|exact Hz].
Qed.
Print Assumptions decimal_runs.
Example decimal_runs_demo : exists z, doubling_sample_search_over_ln_prob_bound_decimal (compute_sauer_shelah_bound_d2_ln_decimal math_pi) (1 / 2) 1000 = Ret z /\
  least_count (math_pi / 4) 3 (1 / 2) z.
Proof.
  pose proof math_pi_bounds.
  destruct (decimal_runs math_pi (1 / 2) 1000 ltac:(lra) ltac:(lra) ltac:(lia)) as (z & A & B & _). now exists z.
Qed.

(** The limit 10 ** 3000 is never what ends a search: if no power of two up to 2^1024 is accepted, the search raises
    OverflowError, whatever function is searched. *)
Theorem decimal_limit : forall f gam fuel, (9966 <= Z.of_nat fuel)%Z ->
  (forall j, (1 <= j <= 1024)%Z -> ln gam < f (2 ^ j)%Z \/ f (2 ^ j)%Z < f (2 ^ j + 1)%Z) ->
  doubling_sample_search_over_ln_prob_bound_decimal f gam fuel = ErrOverflow.
Proof.
  intros f gam fuel Hf H. apply (d_limit f (ln gam)); [|exact Hf].
  intros j Hj. unfold Search_Proofs.passes. destruct (H j Hj) as [A|A].
  - apply andb_false_iff. left. unfold Rgeb. destruct (Rle_dec (f (2 ^ j)%Z) (ln gam)); [lra|reflexivity].
  - apply andb_false_iff. right. unfold Rgeb. destruct (Rle_dec (f (2 ^ j + 1)%Z) (f (2 ^ j)%Z)); [lra|reflexivity].
Qed.
Print Assumptions decimal_limit.
(** a bound that only drops at 2^1030, far below the limit *)
Example decimal_limit_demo : forall fuel, (9966 <= Z.of_nat fuel)%Z ->
  doubling_sample_search_over_ln_prob_bound_decimal (fun m => if (m <? 2 ^ 1030)%Z then 1 else 0) 1 fuel = ErrOverflow.
Proof.
  intros fuel Hf. apply decimal_limit; [exact Hf|]. intros j Hj. left. rewrite ln_1.
  assert (2 ^ j < 2 ^ 1030)%Z by (apply Z.pow_lt_mono_r; lia).
  replace (2 ^ j <? 2 ^ 1030)%Z with true by (symmetry; apply Z.ltb_lt; assumption). lra.
Qed.

(** blumer_bound_decimal, which takes natural logarithms, is Blumer's bound times ln 2 ... *)
Theorem natural_log_factor : forall pi gam, blumer_bound_decimal pi gam = ln 2 * blumer (pi / 4) gam 3.
Proof. exact natural_log_factor_proof. Qed.
Print Assumptions natural_log_factor.

(** ... and does not bound the count: at a failure probability of 2^-33 it is below 131, and the count at least 136. *)
Theorem natural_log_bound_refuted : exists gam z, 0 < gam < 1 /\
  doubling_sample_search_over_ln_prob_bound_decimal (compute_sauer_shelah_bound_d2_ln_decimal math_pi) gam 1000 = Ret z /\
  least_count (math_pi / 4) 3 gam z /\ blumer_bound_decimal math_pi gam + 5 < IZR z.
Proof.
  destruct tiny_search as (z & A & B & C). exists tiny, z.
  split; [unfold tiny; split; [apply Rinv_0_lt_compat, pow_lt|]; lra|]. split; [exact A|]. split; [exact B|].
  pose proof tiny_blumer. apply IZR_le in C. lra.
Qed.
Print Assumptions natural_log_bound_refuted.

(** * C165 *)
(** The Halton curve: 5 / sqrt N at every plotted N. *)
Theorem halton_curve : forall i, (i <= 1000)%nat ->
  6 <= halton_n_samples i <= 10 ^ 12 /\ halton_dispersion i = 5 / sqrt (halton_n_samples i).
Proof.
  intros i H. pose proof (halton_n_range i H). split; [assumption|]. apply halton_disp. lra.
Qed.
Print Assumptions halton_curve.

(** The sampled curve: every count is found, is the least one, and stays below 2e13. *)
Theorem sampled_curve : forall len i sp fuel, (len = 1000 \/ len = 1001)%nat -> (i < 1000)%nat -> 0 <= sp <= 95 / 100 -> (1000 <= fuel)%nat ->
  exists z, blumer_n_samples len i sp fuel = Ret z /\ least_count (PI * blumer_dispersion len i ^ 2) 3 (1 - sp) z /\ IZR z < 2 * 10 ^ 13.
Proof. exact halton_search. Qed.
Print Assumptions sampled_curve.
Example sampled_curve_demo : exists z, blumer_n_samples 1000 999 (9 / 10) 1000 = Ret z /\ 25 / halton_dispersion 999 ^ 2 < IZR z.
Proof.
  destruct (sampled_curve 1000 999 (9 / 10) 1000 ltac:(lia) ltac:(lia) ltac:(lra) ltac:(lia)) as (z & A & B & _).
  exists z. split; [exact A|].
  assert (E : blumer_dispersion 1000 999 = halton_dispersion 999).
  { unfold blumer_dispersion. rewrite INR_999. change (1000 - 1)%nat with 999%nat.
    replace (INR 999) with 999 by (rewrite INR_IZR_INZ; reflexivity). field. }
  rewrite E in B. pose proof (halton_last 1000 (or_introl eq_refl)) as HL. change (1000 - 1)%nat with 999%nat in HL.
  apply (fine_count _ (1 - 9 / 10)); [lra|lra|exact B].
Qed.

(** It runs evenly from a half to the last Halton dispersion. *)
Theorem sampled_dispersions : forall len i, (len = 1000 \/ len = 1001)%nat -> (i < 1000)%nat ->
  blumer_dispersion len 0 = 1 / 2 /\ blumer_dispersion len 999 = 5 / sqrt (halton_n_samples (len - 1)) /\
  ((1 <= i)%nat -> blumer_dispersion len i < blumer_dispersion len (i - 1)) /\ 5 / 10 ^ 6 <= blumer_dispersion len i <= 1 / 2.
Proof.
  intros len i Hl Hi. pose proof (halton_last len Hl) as HL.
  split; [unfold blumer_dispersion; simpl (INR 0); ring|].
  split; [|split].
  - rewrite <- halton_disp by (pose proof (halton_n_range (len - 1) ltac:(lia)); lra).
    unfold blumer_dispersion. rewrite INR_999. replace (INR 999) with 999 by (rewrite INR_IZR_INZ; reflexivity). field.
  - intros H1. unfold blumer_dispersion. rewrite INR_999, minus_INR by lia. simpl (INR 1). lra.
  - apply blumer_disp_range; assumption.
Qed.
Print Assumptions sampled_dispersions.

(** Below a hundredth the sampled curve always needs more points than Halton's bound (N = 25 / d^2, where 5 / sqrt N = d) ... *)
Theorem halton_wins_when_fine : forall d gam z, 0 < d <= 1 / 100 -> 0 < gam < 2 ->
  least_count (PI * d ^ 2) 3 gam z -> 25 / d ^ 2 < IZR z.
Proof. exact fine_count. Qed.
Print Assumptions halton_wins_when_fine.

(** ... and at its first point, with a tenth of failure allowed, fewer. *)
Theorem sampling_wins_when_coarse : forall len fuel z, blumer_n_samples len 0 (9 / 10) fuel = Ret z ->
  IZR z <= 70 /\ 25 / blumer_dispersion len 0 ^ 2 = 100.
Proof.
  intros len fuel z H.
  assert (E : blumer_dispersion len 0 = 1 / 2) by (unfold blumer_dispersion; simpl (INR 0); ring).
  unfold blumer_n_samples in H. cbv zeta in H. rewrite ball2_model, E in H. rewrite E.
  split; [|field]. apply coarse_count.
  unfold doubling_sample_search_over_log2_prob_bound in H.
  replace (1 - 9 / 10) with (1 / 10) in H by field.
  apply (g_search_least (PI * (1 / 2) ^ 2) (1 / 10) 3 ltac:(lra) fuel). exact H.
Qed.
Print Assumptions sampling_wins_when_coarse.
Example sampling_wins_demo : exists z, blumer_n_samples 1000 0 (9 / 10) 1000 = Ret z /\ IZR z <= 70.
Proof.
  destruct (sampled_curve 1000 0 (9 / 10) 1000 ltac:(lia) ltac:(lia) ltac:(lra) ltac:(lia)) as (z & A & _).
  exists z. split; [exact A|]. apply (sampling_wins_when_coarse 1000 1000 z A).
Qed.
