(** Proofs about Notebook_Model.v *)
From Coq Require Import ZArith Reals List Bool String Lra Lia.
From Verif Require Import Search_Model Search_Proofs Bound_Model Bound_Spec Bound_Proofs Bound_Proofs2 Bound_Proofs3 Notebook_Spec Notebook_Model.
Import ListNotations.
Open Scope R_scope.

(** * The search for a failure probability below two *)
Section Gamma.
  Variables (rho gam : R) (vc : nat).
  Hypothesis Hg : 0 < gam < 2.
  Let f := fun m => compute_sauer_shelah_bound_log2 m rho vc.
  Let L := log2R gam.
  Notation B := (net_failure_bound rho vc).

  Lemma g_le_L : forall m, f (Z.of_nat m) <= L <-> B m <= gam.
  Proof. intros. unfold f, L. rewrite bound_log2_spec. apply log2R_le_iff; [apply nfb_pos|lra]. Qed.
  Lemma g_next : forall m, B m <= gam -> f (Z.of_nat m + 1) <= f (Z.of_nat m).
  Proof.
    intros m H. unfold f. replace (Z.of_nat m + 1)%Z with (Z.of_nat (S m)) by lia.
    rewrite !bound_log2_spec. apply log2R_le; [apply nfb_pos|]. apply nfb_downhill. lra.
  Qed.
  Lemma g_passes : forall m, passes Rgeb f L (Z.of_nat m) = true <-> B m <= gam.
  Proof.
    intros m. unfold passes. rewrite Bool.andb_true_iff, !Rgeb_true, g_le_L. split; [tauto|].
    intros H. split; [exact H|]. apply g_next. exact H.
  Qed.
  Lemma g_rejects : forall m, rejects Rgtb f L (Z.of_nat m) = true <-> gam < B m.
  Proof.
    intros m. unfold rejects. rewrite Bool.orb_true_iff, !Rgtb_true. split.
    - intros H. destruct (Rle_lt_dec (B m) gam) as [Hle|]; [exfalso|assumption].
      pose proof (g_next m Hle). apply g_le_L in Hle. lra.
    - intros H. left. destruct (Rle_lt_dec (f (Z.of_nat m)) L) as [Hle|]; [|assumption].
      apply g_le_L in Hle. lra.
  Qed.
  Lemma g_up : forall m m', (m <= m')%nat -> B m <= gam -> B m' <= gam.
  Proof. intros m m' Hm H. pose proof (nfb_permanent rho vc m m' Hm ltac:(lra)). lra. Qed.

  Lemma g_least_of : forall z, (2 <= z)%Z -> rejects Rgtb f L z = false -> (z = 2%Z \/ rejects Rgtb f L (z - 1) = true) ->
    least_count rho vc gam z.
  Proof.
    intros z Hz Hr Hl. exists (Z.to_nat z).
    assert (Ez : z = Z.of_nat (Z.to_nat z)) by lia.
    assert (HB : B (Z.to_nat z) <= gam).
    { destruct (Rle_lt_dec (B (Z.to_nat z)) gam) as [|Hgt]; [assumption|].
      apply g_rejects in Hgt. rewrite <- Ez in Hgt. congruence. }
    split; [exact Ez|]. split; [lia|]. split; [exact HB|].
    intros m' Hm'. destruct Hl as [->|Hl]; [simpl in Hm'; lia|].
    replace (z - 1)%Z with (Z.of_nat (Z.to_nat z - 1)) in Hl by lia.
    apply g_rejects in Hl.
    destruct (Rle_lt_dec (B m') gam) as [Hle|]; [|assumption].
    pose proof (g_up m' (Z.to_nat z - 1) ltac:(lia) Hle). lra.
  Qed.
  Lemma g_search_least : forall fuel z, doubling_search Rgeb Rgtb f L fuel = Ret z -> least_count rho vc gam z.
  Proof.
    intros fuel z H. apply (search_ret_inv Rgeb Rgtb f L Rge_not_gt) in H.
    destruct H as (Hz & Hr & _ & Hl & _). apply g_least_of; [lia|exact Hr|exact Hl].
  Qed.
  Lemma g_passes_pow2 : forall j, (0 <= j)%Z -> (passes Rgeb f L (2 ^ j) = true <-> B (Z.to_nat (2 ^ j)) <= gam).
  Proof.
    intros j Hj. rewrite <- g_passes.
    assert (0 <= 2 ^ j)%Z by (apply Z.pow_nonneg; lia).
    rewrite Z2Nat.id by assumption. reflexivity.
  Qed.
  Lemma g_search_total : forall m, (Z.of_nat m <= 2 ^ 53)%Z -> B m <= gam ->
    forall fuel, (1000 <= fuel)%nat -> exists z, doubling_search Rgeb Rgtb f L fuel = Ret z.
  Proof.
    intros m Hm HB fuel Hf.
    apply (search_terminates Rgeb Rgtb f _ 53); [lia| |exact Hf].
    apply g_passes_pow2; [lia|]. apply (g_up m); [lia|exact HB].
  Qed.
End Gamma.

Lemma least_unique : forall rho vc gam z z', least_count rho vc gam z -> least_count rho vc gam z' -> z = z'.
Proof.
  intros rho vc gam z z' (m & -> & Hm & HB & Hl) (m' & -> & Hm' & HB' & Hl').
  destruct (Nat.lt_trichotomy m m') as [H|[->|H]]; [|reflexivity|].
  - specialize (Hl' m ltac:(lia)). lra.
  - specialize (Hl m' ltac:(lia)). lra.
Qed.

(** a count below twice and antitone in the probability and in the measure *)
Lemma nfb_anti : forall rho rho' vc m, rho <= rho' -> net_failure_bound rho' vc m <= net_failure_bound rho vc m.
Proof.
  intros rho rho' vc m H. unfold net_failure_bound. rewrite <- psum_spec.
  pose proof (psum_pos_R (2 * m) vc).
  apply Rmult_le_compat_l; [lra|]. apply Rle_Rpower; [lra|].
  pose proof (pos_INR m). nra.
Qed.
Lemma least_mono : forall rho rho' vc gam gam' z z', rho' <= rho -> gam' <= gam ->
  least_count rho vc gam z -> least_count rho' vc gam' z' -> (z <= z')%Z.
Proof.
  intros rho rho' vc gam gam' z z' Hr Hg (m & -> & Hm & HB & Hl) (m' & -> & Hm' & HB' & Hl').
  destruct (Nat.le_gt_cases m m') as [H|H]; [lia|exfalso].
  specialize (Hl m' ltac:(lia)). pose proof (nfb_anti rho' rho vc m' Hr). lra.
Qed.

(** Blumer's bound suffices *)
Lemma nat_above : forall x, 0 <= x -> exists m, x <= INR m < x + 1.
Proof.
  intros x Hx. destruct (archimed x) as [A1 A2].
  assert (0 <= up x)%Z by (apply le_IZR; simpl; lra).
  destruct (Req_dec (IZR (up x)) (x + 1)) as [E|N].
  - exists (Z.to_nat (up x - 1)). rewrite INR_IZR_INZ, Z2Nat.id.
    + rewrite minus_IZR. lra.
    + assert (0 < up x)%Z by (apply lt_IZR; simpl; lra). lia.
  - exists (Z.to_nat (up x)). rewrite INR_IZR_INZ, Z2Nat.id by assumption. lra.
Qed.
Lemma lg_log2R : forall x, lg x = log2R x.
Proof. reflexivity. Qed.
Lemma blumer_large : forall eps gam vc, 0 < eps <= 1 -> (1 <= vc)%nat -> 8 < blumer eps gam vc.
Proof.
  intros eps gam vc He Hv. unfold blumer. eapply Rlt_le_trans; [|apply Rmax_r].
  assert (1 <= INR vc) by (replace 1 with (INR 1) by reflexivity; apply le_INR; assumption).
  assert (1 <= / eps) by (rewrite <- Rinv_1; apply Rinv_le_contravar; lra).
  assert (1 < lg (13 / eps)).
  { rewrite lg_log2R, <- log2R_2. apply log2R_lt; [lra|]. unfold Rdiv. nra. }
  assert (8 <= 8 * INR vc / eps).
  { unfold Rdiv. apply Rle_trans with (8 * INR vc * 1); [lra|]. apply Rmult_le_compat_l; lra. }
  nra.
Qed.
Lemma blumer_enough : forall eps gam vc m, 0 < eps <= 1 -> (1 <= vc)%nat -> 0 < gam ->
  blumer eps gam vc <= INR m -> net_failure_bound eps vc m <= gam.
Proof.
  intros eps gam vc m He Hv Hg H. unfold blumer in H. apply blumer_sufficient; try assumption.
  - eapply Rle_trans; [apply Rmax_l|exact H].
  - eapply Rle_trans; [apply Rmax_r|exact H].
Qed.
Lemma least_blumer : forall eps gam vc z, 0 < eps <= 1 -> (1 <= vc)%nat -> 0 < gam ->
  least_count eps vc gam z -> IZR z < blumer eps gam vc + 1.
Proof.
  intros eps gam vc z He Hv Hg (m & -> & Hm & HB & Hl).
  pose proof (blumer_large eps gam vc He Hv) as H8.
  destruct (Rlt_le_dec (IZR (Z.of_nat m)) (blumer eps gam vc + 1)) as [|Hge]; [assumption|exfalso].
  rewrite <- INR_IZR_INZ in Hge.
  assert (3 <= m)%nat by (apply INR_le; simpl; lra).
  specialize (Hl (m - 1)%nat ltac:(lia)).
  pose proof (blumer_enough eps gam vc (m - 1) He Hv Hg) as HE.
  rewrite minus_INR in HE by lia. simpl (INR 1) in HE. specialize (HE ltac:(lra)). lra.
Qed.
Lemma search_if_blumer : forall eps gam vc, 0 < eps <= 1 -> (1 <= vc)%nat -> 0 < gam < 2 -> blumer eps gam vc <= 2 ^ 53 - 1 ->
  forall fuel, (1000 <= fuel)%nat ->
  exists z, doubling_search Rgeb Rgtb (fun m => compute_sauer_shelah_bound_log2 m eps vc) (log2R gam) fuel = Ret z /\ least_count eps vc gam z.
Proof.
  intros eps gam vc He Hv Hg Hb fuel Hf.
  pose proof (blumer_large eps gam vc He Hv) as H8.
  destruct (nat_above (blumer eps gam vc) ltac:(lra)) as (m & Hm1 & Hm2).
  destruct (g_search_total eps gam vc Hg m) with (fuel := fuel) as (z & Hz).
  - apply le_IZR. rewrite <- INR_IZR_INZ. replace (IZR (2 ^ 53)) with (2 ^ 53); [lra|].
    rewrite (pow_IZR 2 53). reflexivity.
  - apply blumer_enough; [assumption|assumption|lra|lra].
  - exact Hf.
  - exists z. split; [exact Hz|]. apply (g_search_least eps gam vc Hg fuel). exact Hz.
Qed.

(** * compare_bounds *)
Lemma one_minus : forall p, 1 - (1 - p) = p.
Proof. intros. ring. Qed.
Lemma numer_spec : forall eps vc ps fuel ns, numer_samples eps vc ps fuel = Ret ns -> (forall p, In p ps -> 0 < p < 2) ->
  List.length ns = List.length ps /\
  forall i p, nth_error ps i = Some p -> exists z, nth_error ns i = Some (IZR z) /\ least_count eps vc p z.
Proof.
  intros eps vc. induction ps as [|p ps IH]; intros fuel ns H Hp; cbn [numer_samples] in H.
  - injection H as <-. split; [reflexivity|]. intros [|i] q E; discriminate E.
  - destruct (doubling_sample_search_over_log2_prob_bound _ _ fuel) as [z| | |] eqn:ES; try discriminate H.
    destruct (numer_samples eps vc ps fuel) as [l| | |] eqn:EN; try discriminate H. injection H as <-.
    destruct (IH fuel l EN) as [HL HN]; [intros q Hq; apply Hp; now right|].
    split; [simpl; now rewrite HL|]. intros [|i] q E; simpl in E.
    + injection E as <-. exists z. split; [reflexivity|].
      unfold doubling_sample_search_over_log2_prob_bound in ES. rewrite one_minus in ES.
      apply (g_search_least eps p vc (Hp p (or_introl eq_refl)) fuel). exact ES.
    + exact (HN i q E).
Qed.
Lemma numer_runs : forall eps vc ps fuel, 0 < eps <= 1 -> (1 <= vc)%nat -> (1000 <= fuel)%nat ->
  (forall p, In p ps -> 0 < p < 2 /\ blumer eps p vc <= 2 ^ 53 - 1) -> exists ns, numer_samples eps vc ps fuel = Ret ns.
Proof.
  intros eps vc ps fuel He Hv Hf. induction ps as [|p ps IH]; intros Hp; cbn [numer_samples]; [eexists; reflexivity|].
  destruct (Hp p (or_introl eq_refl)) as [H1 H2].
  destruct (search_if_blumer eps p vc He Hv H1 H2 fuel Hf) as (z & Ez & _).
  unfold doubling_sample_search_over_log2_prob_bound. rewrite one_minus, Ez.
  destruct IH as (ns & ->); [intros q Hq; apply Hp; now right|]. eexists; reflexivity.
Qed.

(** columns of equal length *)
Definition wide (r : record) (n : nat) : Prop :=
  List.length (c_dimension r) = n /\ List.length (c_probs r) = n /\ List.length (c_samples r) = n /\ List.length (c_type r) = n.
Lemma wide_append : forall r n ds ps ss ts k, wide r n -> List.length ds = k -> List.length ps = k -> List.length ss = k -> List.length ts = k ->
  wide (append_rows r ds ps ss ts) (n + k).
Proof. intros r n ds ps ss ts k (A & B & C & D) H1 H2 H3 H4. unfold wide, append_rows. cbn. rewrite !app_length. lia. Qed.

Definition at_row (r : record) (k : nat) (d : string) (p s : R) (t : string) : Prop :=
  nth_error (c_dimension r) k = Some d /\ nth_error (c_probs r) k = Some p /\
  nth_error (c_samples r) k = Some s /\ nth_error (c_type r) k = Some t.
Lemma at_row_old : forall r n ds ps ss ts k d p s t, wide r n -> (k < n)%nat ->
  at_row r k d p s t -> at_row (append_rows r ds ps ss ts) k d p s t.
Proof.
  intros r n ds ps ss ts k d p s t (A & B & C & D) Hk (H1 & H2 & H3 & H4). unfold at_row, append_rows. cbn.
  rewrite !nth_error_app1 by lia. auto.
Qed.
Lemma at_row_new : forall r n ds ps ss ts i d p s t, wide r n ->
  nth_error ds i = Some d -> nth_error ps i = Some p -> nth_error ss i = Some s -> nth_error ts i = Some t ->
  at_row (append_rows r ds ps ss ts) (n + i) d p s t.
Proof.
  intros r n ds ps ss ts i d p s t (A & B & C & D) H1 H2 H3 H4. unfold at_row, append_rows. cbn.
  rewrite !nth_error_app2 by lia. rewrite A, B, C, D. replace (n + i - n)%nat with i by lia. auto.
Qed.
Lemma nth_repeat : forall A (a : A) n i, (i < n)%nat -> nth_error (repeat a n) i = Some a.
Proof. intros A a n. induction n as [|n IH]; intros [|i] H; simpl; try lia; [reflexivity|]. apply IH. lia. Qed.

Section Compare.
  Variables (rad : R) (ps : list R) (fuel : nat).
  Hypothesis Hps : forall p, In p ps -> 0 < p < 2.
  Let n := List.length ps.

  Lemma compare_loop_spec : forall dims r w out, wide r w -> compare_loop rad ps fuel dims r = Ret out ->
    wide out (w + 2 * List.length dims * n) /\
    (forall k d p s t, (k < w)%nat -> at_row r k d p s t -> at_row out k d p s t) /\
    forall j dim, nth_error dims j = Some dim -> forall i p, nth_error ps i = Some p ->
      let eps := ball dim rad in
      (exists z, at_row out (w + 2 * j * n + i) (dim_label dim) p (IZR z) "Numerical" /\ least_count eps (dim + 1) p z) /\
      at_row out (w + 2 * j * n + n + i) (dim_label dim) p (blumer eps p (dim + 1)) "Blumer et al.".
  Proof.
    induction dims as [|dim dims IH]; intros r w out Hw H.
    - cbn [compare_loop] in H. injection H as <-. split; [simpl; now rewrite Nat.add_0_r|]. split; [auto|].
      intros [|j] d E; discriminate E.
    - cbn [compare_loop] in H. cbv zeta in H. rewrite unit_ball_correct in H. fold (ball dim rad) in H.
      destruct (numer_samples (ball dim rad) (dim + 1) ps fuel) as [ns| | |] eqn:EN; try discriminate H.
      destruct (numer_spec _ _ _ _ _ EN Hps) as [HL HN].
      set (r1 := append_rows r (repeat (dim_label dim) (List.length ps)) ps ns (repeat "Numerical"%string (List.length ps))) in *.
      set (r2 := append_rows r1 _ ps _ _) in H.
      assert (W1 : wide r1 (w + n)). { apply wide_append; try assumption; try apply repeat_length; reflexivity. }
      assert (W2 : wide r2 (w + n + n)). { apply wide_append; try assumption; try apply repeat_length; try apply map_length; reflexivity. }
      destruct (IH r2 _ out W2 H) as (I1 & I2 & I3).
      split; [|split].
      + replace (w + 2 * List.length (dim :: dims) * n)%nat with (w + n + n + 2 * List.length dims * n)%nat by (simpl List.length; lia). exact I1.
      + intros k d p s t Hk A. apply I2; [lia|]. apply (at_row_old _ (w + n)); [exact W1|lia|].
        apply (at_row_old _ w); [exact Hw|exact Hk|exact A].
      + intros [|j] d E i p Ep.
        * injection E as <-. intros eps. unfold eps; clear eps.
          assert (Hi : (i < n)%nat) by (apply nth_error_Some; congruence).
          split.
          -- destruct (HN i p Ep) as (z & Ez & Hz). exists z. split; [|exact Hz].
             replace (w + 2 * 0 * n + i)%nat with (w + i)%nat by lia.
             apply I2; [lia|]. apply (at_row_old _ (w + n)); [exact W1|lia|].
             apply at_row_new; try assumption; apply nth_repeat; exact Hi.
          -- replace (w + 2 * 0 * n + n + i)%nat with (w + n + i)%nat by lia.
             apply I2; [lia|]. apply at_row_new; try assumption; try (apply nth_repeat; exact Hi).
             erewrite map_nth_error by exact Ep. reflexivity.
        * simpl in E. specialize (I3 j d E i p Ep). cbv zeta in I3 |- *.
          replace (w + 2 * S j * n + i)%nat with (w + n + n + 2 * j * n + i)%nat by lia.
          replace (w + 2 * S j * n + n + i)%nat with (w + n + n + 2 * j * n + n + i)%nat by lia. exact I3.
  Qed.

  Lemma compare_loop_runs : forall dims r, (1000 <= fuel)%nat ->
    (forall dim, In dim dims -> 0 < ball dim rad <= 1) ->
    (forall dim p, In dim dims -> In p ps -> blumer (ball dim rad) p (dim + 1) <= 2 ^ 53 - 1) ->
    exists out, compare_loop rad ps fuel dims r = Ret out.
  Proof.
    induction dims as [|dim dims IH]; intros r Hf Hb Hm; cbn [compare_loop]; [eexists; reflexivity|].
    cbv zeta. rewrite unit_ball_correct. fold (ball dim rad).
    destruct (numer_runs (ball dim rad) (dim + 1) ps fuel) as (ns & ->).
    - apply Hb. now left.
    - lia.
    - exact Hf.
    - intros p Hp. split; [apply Hps; exact Hp|]. apply Hm; [now left|exact Hp].
    - apply IH; [exact Hf| |]; intros; [apply Hb; now right|apply Hm; [now right|assumption]].
  Qed.
End Compare.

(** * The plotted parameters *)
Lemma PI_3_4 : 3 < PI <= 4.
Proof. split; [pose proof PI2_3_2; lra|apply PI_4]. Qed.
Lemma lg_le_pow : forall x k, 0 < x <= 2 ^ k -> lg x <= INR k.
Proof.
  intros x k [H1 H2]. rewrite lg_log2R. apply Rle_trans with (log2R (2 ^ k)); [apply log2R_le; assumption|].
  rewrite <- Rpower_pow by lra. rewrite log2R_Rpower. lra.
Qed.
Lemma blumer_upper : forall eps gam vc e g k, 0 < e <= eps -> eps <= 1 -> 0 < g <= gam -> 2 / g <= 2 ^ k -> 13 / e <= 2 ^ k ->
  gam <= 2 -> blumer eps gam vc <= (4 + 8 * INR vc) / e * INR k.
Proof.
  intros eps gam vc e g k He H1 Hg Hk1 Hk2 Hg2.
  assert (I1 : / eps <= / e) by (apply Rinv_le_contravar; lra).
  assert (I0 : 0 < / eps) by (apply Rinv_0_lt_compat; lra).
  assert (G1 : / gam <= / g) by (apply Rinv_le_contravar; lra).
  assert (G0 : 0 < / gam) by (apply Rinv_0_lt_compat; lra).
  assert (L1 : lg (2 / gam) <= INR k). { apply lg_le_pow. unfold Rdiv in *. nra. }
  assert (L2 : lg (13 / eps) <= INR k). { apply lg_le_pow. unfold Rdiv in *. nra. }
  pose proof (pos_INR vc) as Hv. pose proof (pos_INR k) as Hk.
  unfold blumer. apply Rmax_lub; unfold Rdiv in *.
  - apply Rle_trans with (4 * / eps * INR k); [apply Rmult_le_compat_l; lra|].
    apply Rmult_le_compat_r; [assumption|]. nra.
  - apply Rle_trans with (8 * INR vc * / eps * INR k).
    + apply Rmult_le_compat_l; [|exact L2]. apply Rmult_le_pos; nra.
    + apply Rmult_le_compat_r; [assumption|]. nra.
Qed.

Lemma plotted_ball : forall dim, In dim plotted_dims -> 1 / 100 <= ball dim plotted_rad <= 1.
Proof.
  intros dim H. pose proof PI_3_4 as HP. unfold ball, plotted_rad. cbn in H.
  assert (9 <= PI * PI <= 16) by nra. assert (27 <= PI * PI * PI <= 64) by nra.
  repeat (destruct H as [<-|H]; [cbn [unit_ball_volume pow]; rewrite !INR_IZR_INZ; cbn [Z.of_nat Pos.of_succ_nat Pos.succ]; split; lra|]). destruct H.
Qed.

(** * The search with decimals *)
Lemma limit_lo : (2 ^ 9965 <= 10 ^ 3000)%Z.
Proof. apply Z.leb_le. vm_compute. reflexivity. Qed.
Lemma limit_hi : (10 ^ 3000 < 2 ^ 9966)%Z.
Proof. apply Z.ltb_lt. vm_compute. reflexivity. Qed.
Lemma limit_above : (float_1e300 < 10 ^ 3000)%Z.
Proof. apply Z.ltb_lt. vm_compute. reflexivity. Qed.
Opaque Z.pow.

Section DecimalSearch.
  Variable f : Z -> R.
  Variable L : R.

  Lemma dd_spec : forall fuel k ub, (1 <= k)%Z -> doubling_phase_decimal f L fuel (2 ^ k) = Ret ub ->
    exists j, (k <= j)%Z /\ ub = (2 ^ j)%Z /\ passes Rgeb f L ub = true /\ (forall i, (k <= i < j)%Z -> passes Rgeb f L (2 ^ i) = false).
  Proof.
    induction fuel as [|fuel IH]; intros k ub Hk; cbn [doubling_phase_decimal]; [discriminate|]. cbv zeta.
    destruct (Rgeb L (f (2 ^ k)%Z) && Rgeb (f (2 ^ k)%Z) (f (2 ^ k + 1)%Z)) eqn:E.
    - intros [= <-]. exists k. split; [lia|]. split; [reflexivity|]. split; [exact E|]. intros; lia.
    - destruct (10 ^ 3000 <? 2 ^ k * 2)%Z; [discriminate|].
      replace (2 ^ k * 2)%Z with (2 ^ (k + 1))%Z by (rewrite Z.pow_add_r by lia; lia).
      intros H. destruct (IH (k + 1)%Z ub ltac:(lia) H) as (j & Hj & -> & Hp & Hno).
      exists j. split; [lia|]. split; [reflexivity|]. split; [exact Hp|].
      intros i Hi. destruct (Z.eq_dec i k) as [->|]; [exact E|apply Hno; lia].
  Qed.
  Lemma dd_sim : forall fuel ub u, doubling_phase Rgeb f L fuel ub = Ret u -> doubling_phase_decimal f L fuel ub = Ret u.
  Proof.
    induction fuel as [|fuel IH]; intros ub u; cbn [doubling_phase doubling_phase_decimal]; [discriminate|]. cbv zeta.
    destruct (Rgeb L (f ub) && Rgeb (f ub) (f (ub + 1)%Z)); [auto|].
    destruct (float_1e300 <? ub * 2)%Z eqn:E1; [discriminate|]. apply Z.ltb_ge in E1.
    pose proof limit_above. replace (10 ^ 3000 <? ub * 2)%Z with false by (symmetry; apply Z.ltb_ge; lia). apply IH.
  Qed.
  Lemma db_sim : forall fuel lb ub u, (0 <= lb)%Z -> (0 <= ub)%Z -> (lb <= 2 ^ 1023)%Z -> (ub <= 2 ^ 1023)%Z ->
    binary_phase Rgtb f L fuel lb ub = Ret u -> binary_phase_decimal f L fuel lb ub = Ret u.
  Proof.
    induction fuel as [|fuel IH]; intros lb ub u H1 H2 H3 H4; cbn [binary_phase binary_phase_decimal]; [discriminate|].
    destruct (ub =? lb + 1)%Z; [auto|]. destruct (ub <=? lb)%Z eqn:E; [auto|]. cbv zeta. apply Z.leb_gt in E.
    pose proof (rep_ge_py_half (2 ^ 1023) (lb + ub) (rep_pow2 1023 ltac:(lia)) ltac:(lia) ltac:(lia)) as Hh.
    assert (2 ^ 1024 = 2 * 2 ^ 1023)%Z by (change 1024%Z with (Z.succ 1023); apply Z.pow_succ_r; lia).
    assert (0 < 2 ^ 1023)%Z by (apply Z.pow_pos_nonneg; lia).
    replace (2 ^ 1024 <=? py_half_int (lb + ub))%Z with false by (symmetry; apply Z.leb_gt; lia).
    assert (0 <= py_half_int (lb + ub))%Z.
    { destruct (Z_le_gt_dec 2 (lb + ub)) as [G|G]; [pose proof (py_half_int_pos (lb + ub) G); lia|].
      rewrite py_half_int_small by (assert (2 ^ 53 = 9007199254740992)%Z by reflexivity; lia). apply Z.div_pos; lia. }
    destruct (_ || _); apply IH; lia.
  Qed.
  Lemma db_back : forall fuel lb ub u, binary_phase_decimal f L fuel lb ub = Ret u -> binary_phase Rgtb f L fuel lb ub = Ret u.
  Proof.
    induction fuel as [|fuel IH]; intros lb ub u; cbn [binary_phase binary_phase_decimal]; [discriminate|].
    destruct (ub =? lb + 1)%Z; [auto|]. destruct (ub <=? lb)%Z; [auto|]. cbv zeta.
    destruct (2 ^ 1024 <=? py_half_int (lb + ub))%Z; [discriminate|].
    destruct (_ || _); apply IH.
  Qed.
  Definition dsearch (fuel : nat) : sres Z :=
    match doubling_phase_decimal f L fuel 2 with Ret ub => binary_phase_decimal f L fuel 1 ub | other => other end.
  Lemma d_sim : forall fuel z, doubling_search Rgeb Rgtb f L fuel = Ret z -> dsearch fuel = Ret z.
  Proof.
    intros fuel z H. unfold doubling_search in H. unfold dsearch.
    destruct (doubling_phase Rgeb f L fuel 2) as [ub| | |] eqn:E; try discriminate H.
    rewrite (dd_sim _ _ _ E).
    change 2%Z with (2 ^ 1)%Z in E. apply doubling_phase_spec in E; [|lia].
    destruct E as (j & Hj & -> & _).
    assert (0 < 2 ^ j)%Z by (apply Z.pow_pos_nonneg; lia).
    assert (0 < 2 ^ 1023)%Z by (apply Z.pow_pos_nonneg; lia).
    assert (2 ^ j <= 2 ^ 1023)%Z by (apply Z.pow_le_mono_r; lia).
    apply db_sim; try assumption; lia.
  Qed.
  Lemma d_ret_inv : forall fuel m, dsearch fuel = Ret m ->
    (2 <= m <= 2 ^ 53)%Z /\ rejects Rgtb f L m = false /\ (m = 2%Z \/ rejects Rgtb f L (m - 1) = true).
  Proof.
    intros fuel m H. unfold dsearch in H.
    destruct (doubling_phase_decimal f L fuel 2) as [ub| | |] eqn:E; try discriminate H.
    change 2%Z with (2 ^ 1)%Z in E. apply dd_spec in E; [|lia].
    destruct E as (j & Hj & -> & Hp & _). apply db_back in H.
    assert (H2 : (2 <= 2 ^ j)%Z) by (rewrite <- (Z.pow_1_r 2) at 1; apply Z.pow_le_mono_r; lia).
    pose proof (binary_phase_spec Rgtb f L fuel 1 (2 ^ j) m ltac:(lia) H2 H) as (A & B & C).
    pose proof (binary_phase_le_2_53 Rgtb f L fuel 1 (2 ^ j) m ltac:(lia) ltac:(lia)
                  (rep_small 1 ltac:(lia)) (rep_pow2 j ltac:(lia)) H) as D.
    split; [lia|]. split; [|destruct C as [C|C]; [left; lia|right; exact C]].
    destruct B as [->|B]; [|exact B]. apply (passes_not_rejects Rgeb Rgtb Rge_not_gt); exact Hp.
  Qed.
  (** the first loop ends within 9966 rounds *)
  Lemma dd_ends : forall fuel k, (1 <= k <= 9965)%Z -> (9966 - k <= Z.of_nat fuel)%Z ->
    doubling_phase_decimal f L fuel (2 ^ k) = ErrOverflow \/ exists j, (k <= j)%Z /\ passes Rgeb f L (2 ^ j) = true /\ doubling_phase_decimal f L fuel (2 ^ k) = Ret (2 ^ j)%Z.
  Proof.
    induction fuel as [|fuel IH]; intros k Hk Hf; [lia|]. cbn [doubling_phase_decimal]. cbv zeta.
    destruct (Rgeb L (f (2 ^ k)%Z) && Rgeb (f (2 ^ k)%Z) (f (2 ^ k + 1)%Z)) eqn:E.
    - right. exists k. split; [lia|]. split; [exact E|reflexivity].
    - replace (2 ^ k * 2)%Z with (2 ^ (k + 1))%Z by (rewrite Z.pow_add_r by lia; lia).
      destruct (10 ^ 3000 <? 2 ^ (k + 1))%Z eqn:E2; [now left|]. apply Z.ltb_ge in E2.
      assert (k + 1 <= 9965)%Z.
      { destruct (Z_lt_le_dec 9965 (k + 1)) as [G|]; [|assumption]. exfalso.
        pose proof limit_hi. assert (2 ^ 9966 <= 2 ^ (k + 1))%Z by (apply Z.pow_le_mono_r; lia). lia. }
      destruct (IH (k + 1)%Z ltac:(lia) ltac:(lia)) as [->|(j & Hj & Hp & ->)]; [now left|].
      right. exists j. split; [lia|]. auto.
  Qed.
  Lemma d_limit : (forall j, (1 <= j <= 1024)%Z -> passes Rgeb f L (2 ^ j) = false) ->
    forall fuel, (9966 <= Z.of_nat fuel)%Z -> dsearch fuel = ErrOverflow.
  Proof.
    intros Hno fuel Hf. unfold dsearch.
    change 2%Z with (2 ^ 1)%Z at 1.
    destruct (dd_ends fuel 1 ltac:(lia) ltac:(lia)) as [->|(j & Hj & Hp & ->)]; [reflexivity|].
    destruct (Z_le_gt_dec j 1024) as [G|G]; [rewrite Hno in Hp by lia; discriminate|].
    destruct fuel as [|fuel]; [lia|]. cbn [binary_phase_decimal].
    assert (A : (2 ^ 1025 <= 2 ^ j)%Z) by (apply Z.pow_le_mono_r; lia).
    assert (A1 : (2 ^ 1025 = 2 * 2 ^ 1024)%Z) by (change 1025%Z with (Z.succ 1024); apply Z.pow_succ_r; lia).
    assert (A0 : (2 ^ 2 <= 2 ^ 1024)%Z) by (apply Z.pow_le_mono_r; lia). change (2 ^ 2)%Z with 4%Z in A0.
    replace (2 ^ j =? 1 + 1)%Z with false by (symmetry; apply Z.eqb_neq; lia).
    replace (2 ^ j <=? 1)%Z with false by (symmetry; apply Z.leb_gt; lia). cbv zeta.
    pose proof (rep_le_py_half (2 ^ 1024) (1 + 2 ^ j) (rep_pow2 1024 ltac:(lia)) ltac:(lia) ltac:(lia)).
    replace (2 ^ 1024 <=? py_half_int (1 + 2 ^ j))%Z with true by (symmetry; apply Z.leb_le; lia). reflexivity.
  Qed.
End DecimalSearch.
Transparent Z.pow.

(** ** scaling by ln 2 *)
Lemma Rgeb_scale : forall c a b, 0 < c -> Rgeb (c * a) (c * b) = Rgeb a b.
Proof. intros c a b Hc. unfold Rgeb. destruct (Rle_dec b a), (Rle_dec (c * b) (c * a)); try reflexivity; exfalso; nra. Qed.
Lemma Rgtb_scale : forall c a b, 0 < c -> Rgtb (c * a) (c * b) = Rgtb a b.
Proof. intros c a b Hc. unfold Rgtb. destruct (Rlt_dec b a), (Rlt_dec (c * b) (c * a)); try reflexivity; exfalso; nra. Qed.
Lemma dec_bound : forall pi m, compute_sauer_shelah_bound_d2_ln_decimal pi m = ln 2 * compute_sauer_shelah_bound_log2 m (pi / 4) 3.
Proof.
  intros. unfold compute_sauer_shelah_bound_d2_ln_decimal, compute_sauer_shelah_bound_log2, sample_constant, volume_half_rad_ball, conversion_factor, log2R.
  pose proof ln2_pos. field. lra.
Qed.
Lemma ln_scale : forall g, ln g = ln 2 * log2R g.
Proof. intros. unfold log2R. pose proof ln2_pos. field. lra. Qed.
Lemma search_ext : forall (f g : Z -> R) L M c, 0 < c -> (forall m, f m = c * g m) -> L = c * M -> forall fuel, dsearch f L fuel = dsearch g M fuel.
Proof.
  intros f g L M c Hc Hf -> fuel. unfold dsearch.
  assert (D : forall n ub, doubling_phase_decimal f (c * M) n ub = doubling_phase_decimal g M n ub).
  { induction n as [|n IH]; intros ub; [reflexivity|]. cbn [doubling_phase_decimal]. cbv zeta. rewrite !Hf, !Rgeb_scale, IH by assumption. reflexivity. }
  assert (E : forall n lb ub, binary_phase_decimal f (c * M) n lb ub = binary_phase_decimal g M n lb ub).
  { induction n as [|n IH]; intros lb ub; [reflexivity|]. cbn [binary_phase_decimal]. cbv zeta. rewrite !Hf, !Rgtb_scale, !IH by assumption. reflexivity. }
  rewrite D. destruct (doubling_phase_decimal g M fuel 2); auto.
Qed.
Lemma dec_search : forall pi gam fuel,
  doubling_sample_search_over_ln_prob_bound_decimal (compute_sauer_shelah_bound_d2_ln_decimal pi) gam fuel =
  dsearch (fun m => compute_sauer_shelah_bound_log2 m (pi / 4) 3) (log2R gam) fuel.
Proof. intros. apply (search_ext _ _ _ _ (ln 2)); [apply ln2_pos|apply dec_bound|apply ln_scale]. Qed.

(** ** numbers for the counterexample *)
Lemma exp3_big : 1656 / 100 < exp 3.
Proof.
  assert (H : 1 + 1 / 8 <= exp (1 / 8)) by (left; apply exp_ineq1; lra).
  assert (E : exp 3 = exp (1 / 8) ^ 24). { rewrite exp_pow. f_equal. rewrite INR_IZR_INZ. simpl. field. }
  rewrite E. apply Rlt_le_trans with ((1 + 1 / 8) ^ 24); [lra|]. apply pow_incr. lra.
Qed.
Lemma ln2_upper : ln 2 <= 3 / 4.
Proof.
  assert (H : ln (2 ^ 4) < 3).
  { rewrite <- (ln_exp 3). apply ln_increasing; [lra|]. pose proof exp3_big. lra. }
  replace (2 ^ 4) with (2 * 2 * (2 * 2)) in H by ring. rewrite !ln_mult in H by lra. lra.
Qed.
