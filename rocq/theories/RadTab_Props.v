(** C171 (the radius found with the Kullback-Leibler bound is the largest up to the tolerance; the radii listed beside the
    experiments) and C172 (the ratios of the radii): notebooks/designing_tractable_experiments.ipynb, cells 23 and 27 *)
From Coq Require Import ZArith QArith Qreals Reals List Sorted Bool Arith Lra Lia Psatz.
From Coq Require Lqa.
From Verif Require Import Search_Model Search_Proofs Bound_Model Bound_Spec Bound_Proofs Bound_Proofs2 Bound_Proofs3 Bound_Props Tail_Props Notebook_Proofs NarrowTab_Props RadTab_Model.
Import ListNotations.
Open Scope R_scope.

(** * The search *)
Section Loop.
  Context {V : Type}.
  Variable ge gt : V -> V -> bool.
  Variable f : Q -> V.
  Variable L : V.
  Variable tol : Q.
  Open Scope Q_scope.
  Lemma halving_loop_spec2 : forall fuel lb ub r, lb < ub -> halving_loop ge gt f L tol fuel lb ub = Ret r ->
    lb <= r /\ r < ub /\ (r = lb \/ radius_rejected ge gt f L tol r = false) /\
    exists u, r < u /\ u <= r + tol /\ u <= ub /\ (u = ub \/ (radius_rejected ge gt f L tol u = true /\ lb < u - tol / 2)).
  Proof.
    induction fuel as [|fuel IH]; intros lb ub r Hlt; simpl; [discriminate|]. destruct (Qle_bool (ub - lb) tol) eqn:E1.
    - intros [= <-]. apply Qle_bool_iff in E1. repeat split; try Lqa.lra; [left; reflexivity|]. exists ub. repeat split; try Lqa.lra. left; reflexivity.
    - assert (E1' : tol < ub - lb). { destruct (Qlt_le_dec tol (ub - lb)) as [|H]; [assumption|]. apply Qle_bool_iff in H. congruence. }
      destruct (negb (Qle_bool lb ub)) eqn:E2; [discriminate|]. set (t := (lb + ub) / 2).
      assert (Ht : t == lb * (1 # 2) + ub * (1 # 2)) by (unfold t; field).
      assert (Hh : tol / 2 == tol * (1 # 2)) by field.
      change (ge (f (t - tol / 2)) (f t) || gt (f t) L)%bool with (radius_rejected ge gt f L tol t). destruct (radius_rejected ge gt f L tol t) eqn:E3; intros Hr.
      + destruct (IH lb t r ltac:(Lqa.lra) Hr) as (A & B & C & u & D1 & D2 & D3 & D4). repeat split; try Lqa.lra; auto. exists u. repeat split; try Lqa.lra.
        right. destruct D4 as [->|D4]; [|assumption]. split; [assumption|]. Lqa.lra.
      + destruct (IH t ub r ltac:(Lqa.lra) Hr) as (A & B & C & u & D1 & D2 & D3 & D4). repeat split; try Lqa.lra; [right; destruct C as [->|C]; assumption|].
        exists u. repeat split; try Lqa.lra. destruct D4 as [->|(D4 & D5)]; [now left|right]. split; [assumption|]. Lqa.lra.
  Qed.
End Loop.

(** ** The bound strictly grows with the radius until the ball holds the share k / m *)
Lemma entropy2_strict q p1 p2 : 0 < p1 < p2 -> p2 < q <= 1 -> exists h1 h2, entropy2 q p1 = Some h1 /\ entropy2 q p2 = Some h2 /\ h2 < h1.
Proof.
  intros H1 H2.
  assert (Ha : rel_entr q p1 = Some (q * ln (q / p1))) by (apply rel_entr_pos; lra).
  assert (Hb : rel_entr q p2 = Some (q * ln (q / p2))) by (apply rel_entr_pos; lra).
  pose proof (ln_ge_1sub (p2 / p1) ltac:(apply Rdiv_lt_0_compat; lra)) as L1.
  pose proof (ln_ge_1sub ((1 - p2) / (1 - p1)) ltac:(apply Rdiv_lt_0_compat; lra)) as L2.
  replace (/ (p2 / p1)) with (p1 / p2) in L1 by (field; lra).
  replace (/ ((1 - p2) / (1 - p1))) with ((1 - p1) / (1 - p2)) in L2 by (field; lra).
  unfold Rdiv in L1 at 2. unfold Rdiv in L2 at 2.
  rewrite ln_mult, ln_Rinv in L1 by (try lra; apply Rinv_0_lt_compat; lra).
  rewrite ln_mult, ln_Rinv in L2 by (try lra; apply Rinv_0_lt_compat; lra).
  assert (D : 0 < q * (1 - p1 / p2) + (1 - q) * (1 - (1 - p1) / (1 - p2))).
  { replace (q * (1 - p1 / p2) + (1 - q) * (1 - (1 - p1) / (1 - p2))) with ((p2 - p1) * (q - p2) / (p2 * (1 - p2))) by (field; lra).
    apply Rmult_lt_0_compat; [apply Rmult_lt_0_compat; lra|]. apply Rinv_0_lt_compat. apply Rmult_lt_0_compat; lra. }
  assert (M1 : q * (1 - p1 / p2) <= q * (ln p2 + - ln p1)) by (apply Rmult_le_compat_l; lra).
  assert (M2 : (1 - q) * (1 - (1 - p1) / (1 - p2)) <= (1 - q) * (ln (1 - p2) + - ln (1 - p1))) by (apply Rmult_le_compat_l; lra).
  unfold entropy2. rewrite Ha, Hb. destruct (Req_dec q 1) as [->|Hq1].
  - replace (1 - 1) with 0 in * by ring. rewrite !rel_entr_0 by lra. do 2 eexists. split; [reflexivity|]. split; [reflexivity|].
    unfold Rdiv. rewrite !ln_mult, !ln_Rinv; try lra; apply Rinv_0_lt_compat; lra.
  - rewrite !rel_entr_pos by lra. do 2 eexists. split; [reflexivity|]. split; [reflexivity|].
    unfold Rdiv. rewrite !ln_mult, !ln_Rinv; try lra; apply Rinv_0_lt_compat; lra.
Qed.
Lemma pow_strict a b n : (1 <= n)%nat -> 0 < a < b -> a ^ n < b ^ n.
Proof.
  intros Hn H. induction n as [|n IH]; [lia|]. destruct n as [|n]; [simpl; lra|]. specialize (IH ltac:(lia)).
  change (a * a ^ S n < b * b ^ S n). assert (0 < a ^ S n) by (apply pow_lt; lra). apply Rmult_le_0_lt_compat; lra.
Qed.
Section Kl.
  Variables (m k : Z) (dim : nat) (vol : R) (union : bool).
  Hypotheses (Hm : (2 <= m)%Z) (Hk : (1 <= k <= m)%Z) (Hd : (1 <= dim)%nat) (Hv : 0 < vol).
  Notation B r := (compute_tail_knn_radius_log_prob_chernoff_kl m k r dim vol union).
  Let share (r : R) : R := Rmin (compute_vol_unit_sphere dim / vol * r ^ dim) 1.
  Lemma unit_share : 0 < compute_vol_unit_sphere dim / vol.
  Proof. apply Rdiv_lt_0_compat; [apply Bound_Proofs2.unit_ball_pos|assumption]. Qed.
  Lemma km_range : 0 < IZR k / IZR m <= 1.
  Proof.
    assert (2 <= IZR m) by (apply IZR_le; lia). assert (1 <= IZR k <= IZR m) by (split; apply IZR_le; lia). split; [apply Rdiv_lt_0_compat; lra|].
    apply Rmult_le_reg_r with (IZR m); [lra|]. unfold Rdiv. rewrite Rmult_assoc, Rinv_l; lra.
  Qed.
  Lemma kl_saturated r : 0 <= r -> IZR k / IZR m <= share r -> B r = Some (if union then ln (IZR m) else 0).
  Proof.
    intros Hr H. unfold compute_tail_knn_radius_log_prob_chernoff_kl. fold (share r). rewrite (Rmax_right (_ - _) 0) by lra. rewrite Rplus_0_r, entropy2_same.
    - destruct union; f_equal; ring.
    - pose proof km_range. split; [lra|apply Rmin_r].
  Qed.
  Lemma kl_strict r1 r2 : 0 < r1 < r2 -> share r2 < IZR k / IZR m -> exists b1 b2, B r1 = Some b1 /\ B r2 = Some b2 /\ b1 < b2.
  Proof.
    intros Hr H. pose proof km_range as Hq. pose proof unit_share as Hu. assert (M1 : 1 <= IZR m - 1) by (assert (2 <= IZR m) by (apply IZR_le; lia); lra).
    assert (P : 0 < r1 ^ dim < r2 ^ dim). { split; [apply pow_lt; lra|]. apply pow_strict; [lia|lra]. }
    assert (S2 : share r2 = compute_vol_unit_sphere dim / vol * r2 ^ dim). { unfold share, Rmin. unfold share, Rmin in H. destruct (Rle_dec _ 1); [reflexivity|lra]. }
    assert (S12 : 0 < share r1 < share r2). { rewrite S2. unfold share. rewrite Rmin_left; [split; [apply Rmult_lt_0_compat; lra|apply Rmult_lt_compat_l; lra]|]. rewrite S2 in H. nra. }
    destruct (entropy2_strict (IZR k / IZR m) (share r1) (share r2) S12 ltac:(lra)) as (h1 & h2 & E1 & E2 & L).
    unfold compute_tail_knn_radius_log_prob_chernoff_kl. fold (share r1) (share r2). rewrite !Rmax_left by lra. replace (share r1 + (IZR k / IZR m - share r1)) with (IZR k / IZR m) by ring. replace (share r2 + (IZR k / IZR m - share r2)) with (IZR k / IZR m) by ring.
    rewrite E1, E2. do 2 eexists. split; [reflexivity|]. split; [reflexivity|]. assert (h2 * (IZR m - 1) < h1 * (IZR m - 1)) by (apply Rmult_lt_compat_r; lra). destruct union; lra.
  Qed.
End Kl.

(** * C171 *)
(** the bound certifies the radius: the probability it gives is at most [1 - p] *)
Definition certifies (n k : Z) (dim : nat) (vol : R) (union : bool) (p x : R) : Prop :=
  exp_ext (compute_tail_knn_radius_log_prob_chernoff_kl n k x dim vol union) <= 1 - p.
Lemma certifies_ln n k dim vol union p x : 0 < p < 1 ->
  (certifies n k dim vol union p x <-> ext_gtb (compute_tail_knn_radius_log_prob_chernoff_kl n k x dim vol union) (Some (ln (1 - p))) = false).
Proof.
  intro Hp. unfold certifies. destruct (compute_tail_knn_radius_log_prob_chernoff_kl _ _ _ _ _ _) as [b|]; simpl; [|split; [reflexivity|lra]].
  unfold Rgtb. destruct (Rlt_dec (ln (1 - p)) b) as [H|H].
  - apply exp_increasing in H. rewrite exp_ln in H by lra. split; [lra|discriminate].
  - split; [reflexivity|]. intros _. destruct (Rle_lt_or_eq_dec b (ln (1 - p)) ltac:(lra)) as [G| ->]; [apply exp_increasing in G; rewrite exp_ln in G; lra|rewrite exp_ln; lra].
Qed.
(** The search returns a radius of the interval which is certified, or the lower end, and no radius of the interval
    longer by the tolerance is certified. *)
Theorem kl_radius_largest : forall n k dim vol union lb ub tol p fuel r, (2 <= n)%Z -> (1 <= k <= n)%Z -> (1 <= dim)%nat -> 0 < vol -> 0 < p < 1 ->
  (0 < tol)%Q -> (0 <= lb)%Q -> kl_search n k dim vol union lb ub tol p fuel = Ok r ->
  (lb <= r < ub)%Q /\ (r = lb \/ certifies n k dim vol union p (Q2R r)) /\
  forall x, Q2R r + Q2R tol <= x < Q2R ub -> ~ certifies n k dim vol union p x.
Proof.
  intros n k dim vol union lb ub tol p fuel r Hn Hk Hd Hv Hp Ht Hl E. unfold kl_search in E.
  set (f := fun q => compute_tail_knn_radius_log_prob_chernoff_kl n k (Q2R q) dim vol union) in E.
  destruct (halving_search ext_geb ext_gtb f (Some (ln (1 - p))) tol fuel lb ub) as [o|] eqn:S; [|discriminate]. destruct o; try discriminate. injection E as ->.
  unfold halving_search in S. destruct (Qle_bool ub lb) eqn:LU; [discriminate|]. injection S as S.
  assert (Hlt : (lb < ub)%Q). { destruct (Qlt_le_dec lb ub) as [|H]; [assumption|]. apply Qle_bool_iff in H. congruence. }
  destruct (halving_loop_spec2 _ _ _ _ _ _ _ _ _ Hlt S) as (A & B & C & u & D1 & D2 & D3 & D4).
  split; [split; assumption|]. split.
  - destruct C as [->|C]; [now left|right]. unfold radius_rejected in C. apply orb_false_elim in C. apply certifies_ln; tauto.
  - intros x Hx. destruct D4 as [->|(D4 & D5)]; [exfalso|].
    { apply Qle_Rle in D2. rewrite Q2R_plus in D2. lra. }
    assert (U : 0 < Q2R u - Q2R tol / 2 /\ 0 < Q2R tol).
    { assert (H : (0 < u - tol / 2)%Q) by Lqa.lra. apply Qlt_Rlt in H, Ht. unfold Qdiv in H. rewrite Q2R_minus, Q2R_mult in H. rewrite RMicromega.Q2R_0 in *. replace (Q2R (/ 2)) with (/ 2) in H by (unfold Q2R; simpl; lra). lra. }
    assert (X : Q2R u <= x) by (apply Qle_Rle in D2; rewrite Q2R_plus in D2; lra).
    assert (G : ext_gtb (f u) (Some (ln (1 - p))) = true).
    { unfold radius_rejected in D4. apply orb_prop in D4. destruct D4 as [D4|D4]; [|assumption].
      assert (L0 : ln (1 - p) < 0) by (rewrite <- ln_1; apply ln_increasing; lra).
      destruct (Rlt_le_dec (Rmin (compute_vol_unit_sphere dim / vol * Q2R u ^ dim) 1) (IZR k / IZR n)) as [H|H].
      - exfalso. destruct (kl_strict n k dim vol union Hn Hk Hd Hv (Q2R u - Q2R tol / 2) (Q2R u) ltac:(lra) H) as (b1 & b2 & E1 & E2 & L).
        revert D4. unfold f. replace (Q2R (u - tol / 2)) with (Q2R u - Q2R tol / 2).
        + rewrite E1, E2. simpl. unfold Rgeb. destruct (Rle_dec _ _); [lra|discriminate].
        + unfold Qdiv. rewrite Q2R_minus, Q2R_mult. replace (Q2R (/ 2)) with (/ 2) by (unfold Q2R; simpl; lra). reflexivity.
      - unfold f. rewrite (kl_saturated n k dim vol union Hn Hk Hd (Q2R u) ltac:(lra) H). simpl. unfold Rgtb. destruct (Rlt_dec _ _) as [|N]; [reflexivity|]. exfalso. apply N.
        destruct union; [|lra]. assert (0 < ln (IZR n)); [|lra]. rewrite <- ln_1. apply ln_increasing; [lra|]. apply IZR_lt. lia. }
    intro K. apply certifies_ln in K; [|assumption]. pose proof (chernoff_kl_tail_monotone n k (Q2R u) x dim vol union Hn Hv ltac:(lra)) as M.
    unfold f in G. destruct (compute_tail_knn_radius_log_prob_chernoff_kl n k (Q2R u) dim vol union) as [b|]; [|discriminate]. simpl in G. unfold Rgtb in G. destruct (Rlt_dec _ b); [|discriminate].
    destruct (compute_tail_knn_radius_log_prob_chernoff_kl n k x dim vol union) as [b'|]; simpl in M, K; [|contradiction]. unfold Rgtb in K. destruct (Rlt_dec _ b'); [discriminate|lra].
Qed.
Print Assumptions kl_radius_largest.

(** ** The table of cell 23 *)
(** the index of a dimension, its volume, and the triples listed *)
Definition listed (l : list (nat * (Z * Z))) : list (nat * (Z * Z)) := filter (fun t => (snd (snd t) <=? fst (snd t))%Z) l.
Definition triple (e : entry) : nat * (Z * Z) := (e_dim e, (e_n e, e_k e)).
(** the radius of Corollary 1 *)
Definition theory_radius (n k : Z) (d : nat) (vol p rad : R) : Prop :=
  0 <= rad /\ rad ^ d * ((IZR n - 1) * Rmin (unit_ball_volume d / vol) 1) = IZR k - sqrt (2 * IZR k * (ln (IZR n) - ln (1 - p))).
(** the number of neighbours is large enough for Corollary 1 *)
Definition enough_neighbours (n k : Z) (p : R) : Prop := 2 * (ln (IZR n) - ln (1 - p)) <= IZR k.

Lemma failure_pos p n : 0 < p < 1 -> (2 <= n)%Z -> 0 < ln (IZR n) - ln (1 - p).
Proof.
  intros Hp Hn. assert (ln (1 - p) < 0) by (rewrite <- ln_1; apply ln_increasing; lra). assert (2 <= IZR n) by (apply IZR_le; lia).
  assert (0 < ln (IZR n)) by (rewrite <- ln_1; apply ln_increasing; lra). lra.
Qed.
Lemma numer_sign n k p : 0 < p < 1 -> (2 <= n)%Z -> (1 <= k)%Z ->
  (enough_neighbours n k p <-> 0 <= IZR k - sqrt (2 * IZR k * (ln (IZR n) - ln (1 - p)))).
Proof.
  intros Hp Hn Hk. unfold enough_neighbours. pose proof (failure_pos p n Hp Hn) as A. set (a := ln (IZR n) - ln (1 - p)) in *. assert (K : 1 <= IZR k) by (apply IZR_le; lia).
  assert (Z0 : 0 <= 2 * IZR k * a) by nra. split; intro H.
  - assert (sqrt (2 * IZR k * a) <= IZR k); [|lra]. rewrite <- (sqrt_square (IZR k)) at 2 by lra. apply sqrt_le_1; nra.
  - assert (S : sqrt (2 * IZR k * a) <= IZR k) by lra. pose proof (sqrt_sqrt _ Z0). pose proof (sqrt_pos (2 * IZR k * a)). assert (2 * IZR k * a <= IZR k * IZR k) by nra. nra.
Qed.
Lemma theory_cases n k d vol p : 0 < p < 1 -> (2 <= n)%Z -> (1 <= k)%Z -> (1 <= d)%nat -> 0 < vol ->
  (enough_neighbours n k p /\ exists rad, compute_eff_conn_rad_bound n k d vol (1 - p) = Some rad /\ theory_radius n k d vol p rad) \/
  (~ enough_neighbours n k p /\ compute_eff_conn_rad_bound n k d vol (1 - p) = None).
Proof.
  intros Hp Hn Hk Hd Hv. rewrite (numer_sign n k p Hp Hn Hk). unfold compute_eff_conn_rad_bound, theory_radius. rewrite unit_ball_correct.
  set (num := IZR k - sqrt (2 * IZR k * (ln (IZR n) - ln (1 - p)))). assert (N1 : 1 <= IZR n - 1) by (assert (2 <= IZR n) by (apply IZR_le; lia); lra).
  assert (D : 0 < (IZR n - 1) * Rmin (unit_ball_volume d / vol) 1).
  { apply Rmult_lt_0_compat; [lra|]. apply Rmin_glb_lt; [|lra]. apply Rdiv_lt_0_compat; [|assumption]. rewrite <- unit_ball_correct. apply Bound_Proofs2.unit_ball_pos. }
  set (den := (IZR n - 1) * Rmin (unit_ball_volume d / vol) 1) in *. assert (Q : num = num / den * den) by (field; lra).
  destruct (Rlt_dec 0 (num / den)) as [P|P].
  - left. split; [nra|]. eexists. split; [reflexivity|]. split; [left; apply exp_pos|].
    rewrite <- Rpower_pow by apply exp_pos. rewrite Rpower_mult. replace (1 / INR d * INR d) with 1 by (field; apply not_0_INR; lia). rewrite Rpower_1 by assumption. lra.
  - destruct (Req_EM_T (num / den) 0) as [E|E].
    + left. split; [nra|]. exists 0. split; [reflexivity|]. split; [lra|]. rewrite pow_i by lia. rewrite E in Q. lra.
    + right. split; [|reflexivity]. intro H. apply P. destruct H as [H|H]; [apply Rdiv_lt_0_compat; lra|]. exfalso. apply E. rewrite <- H. field. lra.
Qed.
Lemma entry_ok ds vols p fuel d n k o : radius_entry ds vols p fuel (d, (n, k)) = Ok o ->
  ((n < k)%Z /\ o = None) \/
  ((k <= n)%Z /\ exists vol numer theory, nth_error vols (searchsorted ds d) = Some vol /\ kl_search n k d vol true numer_lb numer_ub numer_tol p fuel = Ok numer /\
     compute_eff_conn_rad_bound n k d vol (1 - p) = Some theory /\ o = Some (mkEntry d n k numer theory)).
Proof.
  unfold radius_entry. destruct (Z.ltb_spec n k) as [H|H]; [intros [= <-]; now left|]. destruct (nth_error vols (searchsorted ds d)) as [vol|]; [|discriminate].
  destruct (kl_search n k d vol true numer_lb numer_ub numer_tol p fuel) as [numer|] eqn:E1; [|discriminate]. simpl. destruct (compute_eff_conn_rad_bound n k d vol (1 - p)) as [theory|] eqn:E2; [|discriminate].
  intros [= <-]. right. split; [lia|]. exists vol, numer, theory. auto.
Qed.
(** Each line of the table is a triple of the three schedules with at most as many neighbours as samples, in the order of
    the product; its first radius is the largest certified one between 0.01 and 1.4 up to a millionth, its second the one
    of Corollary 1, both at the volume found for the dimension. *)
Theorem radius_table : forall ds vols p fuel dims ns ks es, 0 < p < 1 -> (forall d, In d dims -> (1 <= d)%nat) -> (forall n, In n ns -> (2 <= n)%Z) -> (forall k, In k ks -> (1 <= k)%Z) ->
  (forall v, In v vols -> 0 < v) -> exp_name_to_radius_df ds vols p fuel dims ns ks = Ok es ->
  map triple es = listed (list_prod dims (list_prod ns ks)) /\
  forall e, In e es -> exists vol, nth_error vols (searchsorted ds (e_dim e)) = Some vol /\
    (1 # 100 <= e_numer e < 14 # 10)%Q /\ (e_numer e = (1 # 100)%Q \/ certifies (e_n e) (e_k e) (e_dim e) vol true p (Q2R (e_numer e))) /\
    (forall x, Q2R (e_numer e) + 1 / 1000000 <= x < 14 / 10 -> ~ certifies (e_n e) (e_k e) (e_dim e) vol true p x) /\
    enough_neighbours (e_n e) (e_k e) p /\ theory_radius (e_n e) (e_k e) (e_dim e) vol p (e_theory e).
Proof.
  intros ds vols p fuel dims ns ks es Hp Hd Hn Hk Hv E. unfold exp_name_to_radius_df in E.
  assert (T : forall t, In t (list_prod dims (list_prod ns ks)) -> (1 <= fst t)%nat /\ (2 <= fst (snd t))%Z /\ (1 <= snd (snd t))%Z).
  { intros (d & n & k) H. apply in_prod_iff in H. destruct H as (H1 & H2). apply in_prod_iff in H2. simpl. destruct H2. auto. }
  revert es E T. generalize (list_prod dims (list_prod ns ks)) as l. induction l as [|(d & n & k) l IH]; cbn [radius_entries listed filter]; intros es E T; [injection E as <-; split; [reflexivity|intros e []]|].
  destruct (radius_entry ds vols p fuel (d, (n, k))) as [o|] eqn:O; [|discriminate]. cbn [bind] in E. destruct (radius_entries ds vols p fuel l) as [es'|] eqn:R; [|discriminate]. cbn [bind] in E. injection E as <-.
  destruct (IH es' eq_refl ltac:(intros; apply T; now right)) as (I1 & I2). destruct (T _ (or_introl eq_refl)) as (T1 & T2 & T3). simpl in T1, T2, T3.
  apply entry_ok in O. destruct O as [(G & ->)|(G & vol & numer & theory & V & N & Th & ->)]; cbn [fst snd].
  - destruct (Z.leb_spec k n); [lia|]. split; assumption.
  - destruct (Z.leb_spec k n); [|lia]. split; [simpl; f_equal; assumption|]. intros e [<-|He]; [|now apply I2]. exists vol. cbn [e_dim e_n e_k e_numer e_theory].
    assert (V0 : 0 < vol) by (eapply Hv, nth_error_In, V). split; [assumption|].
    destruct (kl_radius_largest n k d vol true numer_lb numer_ub numer_tol p fuel numer T2 ltac:(lia) T1 V0 Hp ltac:(reflexivity) ltac:(unfold numer_lb, Qle; simpl; lia) N) as (A & B & C).
    split; [exact A|]. split; [exact B|]. split.
    + intros x Hx. apply C. unfold numer_tol, numer_ub. unfold Q2R at 2 3. simpl. lra.
    + destruct (theory_cases n k d vol p Hp T2 T3 T1 V0) as [(X & rad & Y & W)|(X & Y)]; [|congruence]. rewrite Y in Th. injection Th as <-. auto.
Qed.
Print Assumptions radius_table.

(** The volume found for a dimension is the one at its own place when the dimension is among those of the notebook;
    for another dimension it is that of the next larger one. *)
Theorem volume_found : forall ds d, StronglySorted lt ds ->
  (forall i, nth_error ds i = Some d -> searchsorted ds d = i) /\
  (forall x, nth_error ds (searchsorted ds d) = Some x -> (d <= x)%nat /\ forall y, In y ds -> (d <= y)%nat -> (x <= y)%nat) /\
  (nth_error ds (searchsorted ds d) = None <-> forall y, In y ds -> (y < d)%nat).
Proof.
  intros ds d S. induction S as [|a ds S IH F].
  - split; [intros [|i] H; discriminate|]. split; [intros [|x] H; discriminate|]. simpl. tauto.
  - destruct IH as (I1 & I2 & I3). rewrite Forall_forall in F. unfold searchsorted in *. simpl. destruct (Nat.ltb_spec a d) as [L|L]; cbn [length nth_error].
    + split; [|split].
      * intros [|i] H; simpl in H; [injection H as ->; lia|]. f_equal. auto.
      * intros x H. destruct (I2 x H) as (J1 & J2). split; [assumption|]. intros y [<-|Hy] Hd; [lia|auto].
      * rewrite I3. split; [intros H y [<-|Hy]; auto|auto].
    + assert (E : filter (fun x => (x <? d)%nat) ds = []).
      { clear -F L. induction ds as [|b ds IH]; [reflexivity|]. simpl. pose proof (F b (or_introl eq_refl)). destruct (Nat.ltb_spec b d); [lia|]. apply IH. intros; apply F; now right. }
      rewrite E. simpl. split; [|split].
      * intros [|i] H; [reflexivity|]. simpl in H. apply nth_error_In, F in H. lia.
      * intros x [= <-]. split; [assumption|]. intros y [<-|Hy] _; [lia|]. apply F in Hy. lia.
      * split; [discriminate|]. intro H. specialize (H a (or_introl eq_refl)). lia.
Qed.
Print Assumptions volume_found.

Lemma kl_search_runs n k d vol union lb ub tol p fuel N : (0 < tol)%Q -> (lb < ub)%Q -> (ub - lb <= inject_Z (2 ^ Z.of_nat N) * tol)%Q -> (N < fuel)%nat -> exists r, kl_search n k d vol union lb ub tol p fuel = Ok r.
Proof.
  intros Ht Hl Hs Hf. unfold kl_search, halving_search. replace (Qle_bool ub lb) with false.
  2:{ symmetry. apply not_true_iff_false. rewrite Qle_bool_iff. Lqa.lra. }
  cbn [negb]. destruct (halving_loop_terminates ext_geb ext_gtb (fun r => compute_tail_knn_radius_log_prob_chernoff_kl n k (Q2R r) d vol union) (Some (ln (1 - p))) tol N fuel lb ub Ht Hl Hs Hf) as (r & ->). now exists r.
Qed.
(** The table is made exactly when every listed dimension finds a volume and every listed count has enough neighbours:
    then it is, and otherwise the cell ends with an exception. *)
Theorem radius_table_made : forall ds vols p dims ns ks, 0 < p < 1 -> (forall d, In d dims -> (1 <= d)%nat) -> (forall n, In n ns -> (2 <= n)%Z) -> (forall k, In k ks -> (1 <= k)%Z) -> (forall v, In v vols -> 0 < v) ->
  forall fuel, (22 <= fuel)%nat ->
  ((exists es, exp_name_to_radius_df ds vols p fuel dims ns ks = Ok es) <->
   forall d n k, In d dims -> In n ns -> In k ks -> (k <= n)%Z -> (searchsorted ds d < length vols)%nat /\ enough_neighbours n k p) /\
  exp_name_to_radius_df ds vols p fuel dims ns ks <> Err NoFuel /\ exp_name_to_radius_df ds vols p fuel dims ns ks <> Err AssertionError /\ exp_name_to_radius_df ds vols p fuel dims ns ks <> Err ArithmeticError.
Proof.
  intros ds vols p dims ns ks Hp Hd Hn Hk Hv.
  assert (T : forall t, In t (list_prod dims (list_prod ns ks)) -> (1 <= fst t)%nat /\ (2 <= fst (snd t))%Z /\ (1 <= snd (snd t))%Z).
  { intros (d & n & k) H. apply in_prod_iff in H. destruct H as (H1 & H2). apply in_prod_iff in H2. simpl. destruct H2. auto. }
  intros fuel Hf. assert (K : forall d n k vol, exists r, kl_search n k d vol true numer_lb numer_ub numer_tol p fuel = Ok r) by (intros; apply kl_search_runs with 21%nat; [reflexivity|reflexivity|unfold Qle; vm_compute; discriminate|lia]).
  assert (M : forall l, (forall t, In t l -> (1 <= fst t)%nat /\ (2 <= fst (snd t))%Z /\ (1 <= snd (snd t))%Z) ->
    ((exists es, radius_entries ds vols p fuel l = Ok es) <-> forall t, In t l -> (snd (snd t) <= fst (snd t))%Z -> (searchsorted ds (fst t) < length vols)%nat /\ enough_neighbours (fst (snd t)) (snd (snd t)) p) /\
    (radius_entries ds vols p fuel l = Err IndexError \/ radius_entries ds vols p fuel l = Err ValueError \/ exists es, radius_entries ds vols p fuel l = Ok es)).
  { clear Hd Hn Hk T. induction l as [|(d & n & k) l IH]; intro T; [split; [split; [intros _ t []|intros _; now exists []]|right; right; now exists []]|].
    destruct (IH ltac:(intros; apply T; now right)) as (I1 & I2). destruct (T _ (or_introl eq_refl)) as (T1 & T2 & T3). cbn [fst snd] in T1, T2, T3.
    assert (Fail : forall e, radius_entry ds vols p fuel (d, (n, k)) = Err e -> radius_entries ds vols p fuel ((d, (n, k)) :: l) = Err e) by (intros e H; cbn [radius_entries]; rewrite H; reflexivity).
    assert (Step : forall o, radius_entry ds vols p fuel (d, (n, k)) = Ok o -> ((exists es, radius_entries ds vols p fuel ((d, (n, k)) :: l) = Ok es) <-> exists es, radius_entries ds vols p fuel l = Ok es) /\
      forall e, radius_entries ds vols p fuel l = Err e -> radius_entries ds vols p fuel ((d, (n, k)) :: l) = Err e).
    { intros o H. cbn [radius_entries]. rewrite H. cbn [bind]. split; [|intros e ->; reflexivity]. split; [intros (es & Q); destruct (radius_entries ds vols p fuel l); [eauto|discriminate]|intros (es & ->); cbn [bind]; eauto]. }
    assert (Done : forall o, radius_entry ds vols p fuel (d, (n, k)) = Ok o -> ((k <= n)%Z -> (searchsorted ds d < length vols)%nat /\ enough_neighbours n k p) ->
      ((exists es, radius_entries ds vols p fuel ((d, (n, k)) :: l) = Ok es) <-> forall t, In t ((d, (n, k)) :: l) -> (snd (snd t) <= fst (snd t))%Z -> (searchsorted ds (fst t) < length vols)%nat /\ enough_neighbours (fst (snd t)) (snd (snd t)) p) /\
      (radius_entries ds vols p fuel ((d, (n, k)) :: l) = Err IndexError \/ radius_entries ds vols p fuel ((d, (n, k)) :: l) = Err ValueError \/ exists es, radius_entries ds vols p fuel ((d, (n, k)) :: l) = Ok es)).
    { intros o H C. destruct (Step o H) as (S1 & S2). split; [rewrite S1, I1; split; [intros G t [<-|Ht] L; auto|intros G t Ht L; apply G; [now right|assumption]]|].
      destruct I2 as [I2|[I2|I2]]; [left; auto|right; left; auto|right; right; now apply S1]. }
    assert (Bad : forall e, radius_entry ds vols p fuel (d, (n, k)) = Err e -> e = IndexError \/ e = ValueError -> (k <= n)%Z -> ~ ((searchsorted ds d < length vols)%nat /\ enough_neighbours n k p) ->
      ((exists es, radius_entries ds vols p fuel ((d, (n, k)) :: l) = Ok es) <-> forall t, In t ((d, (n, k)) :: l) -> (snd (snd t) <= fst (snd t))%Z -> (searchsorted ds (fst t) < length vols)%nat /\ enough_neighbours (fst (snd t)) (snd (snd t)) p) /\
      (radius_entries ds vols p fuel ((d, (n, k)) :: l) = Err IndexError \/ radius_entries ds vols p fuel ((d, (n, k)) :: l) = Err ValueError \/ exists es, radius_entries ds vols p fuel ((d, (n, k)) :: l) = Ok es)).
    { intros e H Q L C. rewrite (Fail e H). split; [split; [intros (es & Z); discriminate|intro G; exfalso; apply C; apply (G (d, (n, k))); [now left|exact L]]|].
      destruct Q as [-> | ->]; auto. }
    destruct (Z.ltb_spec n k) as [L|L].
    { apply (Done None); [unfold radius_entry; destruct (Z.ltb_spec n k); [reflexivity|lia]|lia]. }
    assert (U : radius_entry ds vols p fuel (d, (n, k)) = match nth_error vols (searchsorted ds d) with None => Err IndexError | Some vol =>
      bind (kl_search n k d vol true numer_lb numer_ub numer_tol p fuel) (fun numer => match compute_eff_conn_rad_bound n k d vol (1 - p) with None => Err ValueError | Some theory => Ok (Some (mkEntry d n k numer theory)) end) end).
    { unfold radius_entry. destruct (Z.ltb_spec n k); [lia|reflexivity]. }
    destruct (nth_error vols (searchsorted ds d)) as [vol|] eqn:V.
    2:{ apply (Bad IndexError U); [auto|assumption|]. apply nth_error_None in V. lia. }
    assert (V1 : (searchsorted ds d < length vols)%nat) by (apply nth_error_Some; congruence). assert (V0 : 0 < vol) by (eapply Hv, nth_error_In, V).
    destruct (K d n k vol) as (r & Kr). rewrite Kr in U. cbn [bind] in U.
    destruct (theory_cases n k d vol p Hp T2 T3 T1 V0) as [(X & rad & Y & W)|(X & Y)]; rewrite Y in U.
    - apply (Done _ U). auto.
    - apply (Bad _ U); [auto|assumption|tauto]. }
  destruct (M _ T) as (M1 & M2). unfold exp_name_to_radius_df. split.
  - rewrite M1. split.
    + intros H d n k D1 D2 D3 L. apply (H (d, (n, k))); [|exact L]. apply in_prod; [assumption|]. now apply in_prod.
    + intros H (d & n & k) Ht L. apply in_prod_iff in Ht. destruct Ht as (H1 & H2). apply in_prod_iff in H2. destruct H2. apply H; auto.
  - destruct M2 as [M2|[M2|(es & M2)]]; rewrite M2; repeat split; discriminate.
Qed.
Print Assumptions radius_table_made.

(** With success probability 0.99, as in cell 24, a hundred samples and ten neighbours the cell ends with a ValueError and
    no table: Corollary 1 gives no radius there although the search does. *)
Lemma ln_3_ge : 1 <= ln 3.
Proof. rewrite <- (ln_exp 1). destruct (exp_le_3) as [H|H]; [left; apply ln_increasing; [apply exp_pos|assumption]|rewrite H; lra]. Qed.
Lemma ln_100 : 4 <= ln 100 <= 7.
Proof.
  split.
  - apply Rle_trans with (ln (3 ^ 4)); [|left; apply ln_increasing; lra]. rewrite ln_pow by lra. pose proof ln_3_ge. simpl INR. lra.
  - apply Rle_trans with (ln (2 ^ 7)); [left; apply ln_increasing; lra|]. rewrite ln_pow by lra. pose proof (ln_le_sub1 2 ltac:(lra)). simpl INR. lra.
Qed.
Lemma ln_hundredth : ln (1 - 99 / 100) = - ln 100.
Proof. replace (1 - 99 / 100) with (/ 100) by lra. apply ln_Rinv. lra. Qed.
Definition notebook_ds : list nat := [2; 3; 6; 7; 10; 14; 20]%nat.
Definition notebook_vols : list R := map (fun _ => 2) notebook_ds.
Theorem radius_table_refuted : exists ds vols dims ns ks, length vols = length ds /\ incl dims ds /\ (forall n k, In n ns -> In k ks -> (2 <= n)%Z /\ (1 <= k < n)%Z) /\ (forall v, In v vols -> 0 < v) /\
  forall fuel, (22 <= fuel)%nat -> exp_name_to_radius_df ds vols (99 / 100) fuel dims ns ks = Err ValueError.
Proof.
  exists notebook_ds, notebook_vols, [2%nat], [100%Z], [10%Z]. split; [reflexivity|]. split; [intros x [<-|[]]; now left|].
  split; [intros n k [<-|[]] [<-|[]]; lia|]. split; [intros v Hv; apply in_map_iff in Hv; destruct Hv as (? & <- & _); lra|]. intros fuel Hf.
  unfold exp_name_to_radius_df. cbn [list_prod map app radius_entries radius_entry]. change (100 <? 10)%Z with false. cbv iota. change (nth_error notebook_vols (searchsorted notebook_ds 2)) with (Some 2). cbv iota.
  destruct (kl_search_runs 100 10 2 2 true numer_lb numer_ub numer_tol (99 / 100) fuel 21 ltac:(reflexivity) ltac:(reflexivity) ltac:(unfold Qle; vm_compute; discriminate) ltac:(lia)) as (r & ->). cbn [bind].
  destruct (theory_cases 100 10 2 2 (99 / 100) ltac:(lra) ltac:(lia) ltac:(lia) ltac:(lia) ltac:(lra)) as [(X & _)|(_ & ->)]; [exfalso|reflexivity].
  unfold enough_neighbours in X. rewrite ln_hundredth in X. pose proof ln_100. lra.
Qed.
Print Assumptions radius_table_refuted.
(** fifty neighbours of a hundred samples in two dimensions are listed, two hundred are not *)
Example radius_table_ex : exists e, exp_name_to_radius_df notebook_ds notebook_vols (99 / 100) 22 [2%nat] [100%Z] [50; 200]%Z = Ok [e] /\ triple e = (2%nat, (100, 50)%Z).
Proof.
  destruct (radius_table_made notebook_ds notebook_vols (99 / 100) [2%nat] [100%Z] [50; 200]%Z ltac:(lra) ltac:(intros d [<-|[]]; lia) ltac:(intros d [<-|[]]; lia) ltac:(intros d [<-|[<-|[]]]; lia)
    ltac:(intros v Hv; apply in_map_iff in Hv; destruct Hv as (? & <- & _); lra) 22%nat ltac:(lia)) as ((_ & M) & _).
  destruct M as (es & M).
  - intros d n k [<-|[]] [<-|[]] [<-|[<-|[]]] H; [|lia]. split; [vm_compute; lia|]. unfold enough_neighbours. rewrite ln_hundredth. pose proof ln_100. lra.
  - destruct (radius_table notebook_ds notebook_vols (99 / 100) 22 [2%nat] [100%Z] [50; 200]%Z es ltac:(lra) ltac:(intros d [<-|[]]; lia) ltac:(intros d [<-|[]]; lia) ltac:(intros d [<-|[<-|[]]]; lia)
      ltac:(intros v Hv; apply in_map_iff in Hv; destruct Hv as (? & <- & _); lra) M) as (T & _).
    change (map triple es = [(2%nat, (100, 50)%Z)]) in T. destruct es as [|e [|e2 es]]; try discriminate. assert (T1 : triple e = (2%nat, (100, 50)%Z)) by exact (f_equal (hd (triple e)) T). exists e. auto.
Qed.
(** The volume of another dimension is used for a dimension that is not in the list. *)
Theorem volume_refuted : exists ds (v : nat -> R) d, StronglySorted lt ds /\ (exists lo hi, In lo ds /\ In hi ds /\ (lo < d < hi)%nat) /\
  exists w, nth_error (map v ds) (searchsorted ds d) = Some w /\ w <> v d.
Proof.
  exists notebook_ds, (fun d => 2 * (4 / 10) ^ (d - 1)), 4%nat. split; [repeat constructor|]. split; [exists 3%nat, 6%nat; repeat split; simpl; auto; lia|].
  eexists. split; [reflexivity|]. simpl. lra.
Qed.
Print Assumptions volume_refuted.
Theorem volume_own : forall ds (v : nat -> R) d, StronglySorted lt ds ->
  In d ds \/ ((exists hi, In hi ds /\ (d <= hi)%nat) /\ forall a b, v a = v b) -> nth_error (map v ds) (searchsorted ds d) = Some (v d).
Proof.
  intros ds v d S H. destruct (volume_found ds d S) as (A & B & C). destruct H as [H|((hi & H1 & H2) & H3)].
  - apply In_nth_error in H. destruct H as (i & H). rewrite (A i H). now apply map_nth_error.
  - destruct (nth_error ds (searchsorted ds d)) as [x|] eqn:E; [rewrite (map_nth_error _ _ _ E); f_equal; apply H3|]. exfalso. destruct C as (C & _). specialize (C eq_refl hi H1). lia.
Qed.
Print Assumptions volume_own.

(** * C172: the ratios of cell 27 *)
Lemma fill_spec ub fuel ds : forall ns m, fill ub fuel ns ds = Ok m ->
  Forall2 (fun nd x => net_and_conn ub fuel (fst nd) (snd nd) = Ok x) (list_prod ns ds) (concat m).
Proof.
  assert (R : forall n l r, fill_row ub fuel n l = Ok r -> Forall2 (fun nd x => net_and_conn ub fuel (fst nd) (snd nd) = Ok x) (map (fun d => (n, d)) l) r).
  { intro n. induction l as [|d l IH]; cbn [fill_row]; intros r E; [injection E as <-; constructor|].
    destruct (net_and_conn ub fuel n d) as [x|] eqn:X; [|discriminate]. cbn [bind] in E. destruct (fill_row ub fuel n l) as [r'|]; [|discriminate]. cbn [bind] in E. injection E as <-.
    constructor; [exact X|now apply IH]. }
  induction ns as [|n ns IH]; cbn [fill]; intros m E; [injection E as <-; constructor|].
  destruct (fill_row ub fuel n ds) as [r|] eqn:X; [|discriminate]. cbn [bind] in E. destruct (fill ub fuel ns ds) as [m'|]; [|discriminate]. cbn [bind] in E. injection E as <-.
  cbn [list_prod concat]. apply Forall2_app; [now apply R|now apply IH].
Qed.
Lemma net_and_conn_ok ub fuel n d x : net_and_conn ub fuel n d = Ok x ->
  fst x = compute_net_radius_from_prob d n (1 / 10) 1 /\ kl_search n 256 d 1 true ratio_lb ub ratio_tol (9 / 10) fuel = Ok (snd x).
Proof.
  unfold net_and_conn, failure_prob. replace (1 - 1 / 10) with (9 / 10) by lra. unfold k_256. destruct (kl_search n 256 d 1 true ratio_lb ub ratio_tol (9 / 10) fuel) as [c|] eqn:E; [|discriminate].
  cbn [bind]. intros [= <-]. split; reflexivity.
Qed.
(** the two radii of a count and a dimension in the unit cube: a positive radius [net] where the bound on the chance of
    missing a ball is twice 0.1, and a radius [conn] certified for 256 neighbours with probability 0.9, none longer by a
    millionth below [ub] being so *)
Definition net_radius (n : Z) (d : nat) (g net : R) : Prop := 0 < net /\ net_failure_bound (unit_ball_volume d * net ^ d) (d + 1) (Z.to_nat n) = g.
Definition conn_radius (n : Z) (d : nat) (ub : R) (conn : R) : Prop :=
  (conn = / 10 ^ 10 \/ certifies n 256 d 1 true (9 / 10) conn) /\ / 10 ^ 10 <= conn < ub /\ forall x, conn + / 10 ^ 6 <= x < ub -> ~ certifies n 256 d 1 true (9 / 10) x.
Lemma net_radius_made n d : (1 <= n)%Z -> (1 <= d)%nat -> net_radius n d (2 * (1 / 10)) (compute_net_radius_from_prob d n (1 / 10) 1).
Proof.
  intros Hn Hd. split; [apply exp_pos|]. pose proof (net_radius_from_prob_gives_twice d (Z.to_nat n) (1 / 10) 1 Hd ltac:(lia) ltac:(lra) ltac:(lra)) as T. cbv zeta in T. rewrite Z2Nat.id in T by lia.
  rewrite <- T. f_equal. field.
Qed.
Lemma Q2R_lb : Q2R ratio_lb = / 10 ^ 10.
Proof. unfold Q2R, ratio_lb. simpl. lra. Qed.
Lemma Q2R_tol : Q2R ratio_tol = / 10 ^ 6.
Proof. unfold Q2R, ratio_tol. simpl. lra. Qed.
Lemma conn_radius_made n d ub fuel c : (256 <= n)%Z -> (1 <= d)%nat -> kl_search n 256 d 1 true ratio_lb ub ratio_tol (9 / 10) fuel = Ok c -> conn_radius n d (Q2R ub) (Q2R c).
Proof.
  intros Hn Hd E. destruct (kl_radius_largest n 256 d 1 true ratio_lb ub ratio_tol (9 / 10) fuel c ltac:(lia) ltac:(lia) Hd ltac:(lra) ltac:(lra) ltac:(reflexivity) ltac:(unfold ratio_lb, Qle; simpl; lia) E) as ((A1 & A2) & B & C).
  apply Qle_Rle in A1. apply Qlt_Rlt in A2. rewrite Q2R_lb in A1. rewrite Q2R_tol in C. split; [|split; [lra|exact C]]. destruct B as [->|B]; [left; apply Q2R_lb|now right].
Qed.
(** The line of a count and a dimension carries their ratio, and there is one line for each in the order of the counts
    and then of the dimensions. *)
Theorem ratio_table : forall ub fuel ns ds t, (forall n, In n ns -> (256 <= n)%Z) -> (forall d, In d ds -> (1 <= d)%nat) -> ratio_df ub fuel ns ds = Ok t ->
  map fst t = list_prod ns ds /\
  forall n d x, In ((n, d), x) t -> exists net conn, x = conn / net /\ net_radius n d (2 * (1 / 10)) net /\ conn_radius n d (Q2R ub) conn.
Proof.
  intros ub fuel ns ds t Hn Hd E. unfold ratio_df in E. destruct (fill ub fuel ns ds) as [m|] eqn:F; [|discriminate]. cbn [bind] in E. injection E as <-. apply fill_spec in F.
  assert (T : forall t, In t (list_prod ns ds) -> (256 <= fst t)%Z /\ (1 <= snd t)%nat).
  { intros (n & d) H. apply in_prod_iff in H. simpl. destruct H. auto. }
  clear Hn Hd. induction F as [|(n & d) x l l' H F IH]; [split; [reflexivity|intros n d x []]|].
  cbn [map combine]. destruct IH as (I1 & I2); [intros; apply T; now right|]. split; [cbn [map fst]; now rewrite I1|]. intros n' d' y [G|G]; [|now apply I2]. injection G as <- <- <-.
  destruct (T _ (or_introl eq_refl)) as (T1 & T2). cbn [fst snd] in *. apply net_and_conn_ok in H. destruct H as (H1 & H2). exists (fst x), (Q2R (snd x)). split; [reflexivity|].
  split; [rewrite H1; apply net_radius_made; [lia|assumption]|now apply (conn_radius_made n d ub fuel)].
Qed.
Print Assumptions ratio_table.
Theorem ratio_table_made : forall ub fuel ns ds, (1 <= ub <= 8)%Q -> (24 <= fuel)%nat -> exists t, ratio_df ub fuel ns ds = Ok t.
Proof.
  intros ub fuel ns ds Hu Hf. assert (K : forall n d, exists x, net_and_conn ub fuel n d = Ok x).
  { intros n d. unfold net_and_conn. destruct (kl_search_runs n k_256 d 1 true ratio_lb ub ratio_tol (1 - failure_prob) fuel 23 ltac:(reflexivity)) as (r & ->); [| |lia|eexists; reflexivity].
    - unfold ratio_lb. Lqa.lra.
    - change (inject_Z (2 ^ Z.of_nat 23))%Q with (8388608 # 1)%Q. unfold ratio_lb, ratio_tol. Lqa.lra. }
  assert (R : forall n, exists r, fill_row ub fuel n ds = Ok r).
  { intro n. induction ds as [|d l (r & IH)]; cbn [fill_row]; [now exists []|]. destruct (K n d) as (x & ->). cbn [bind]. rewrite IH. eexists; reflexivity. }
  unfold ratio_df. assert (F : exists m, fill ub fuel ns ds = Ok m).
  { induction ns as [|n l (m & IH)]; cbn [fill]; [now exists []|]. destruct (R n) as (r & ->). cbn [bind]. rewrite IH. eexists; reflexivity. }
  destruct F as (m & ->). eexists; reflexivity.
Qed.
Print Assumptions ratio_table_made.

(** ** The threshold *)
Lemma share_one n d x : (2 <= n)%Z -> (256 <= n)%Z -> (1 <= d)%nat -> 0 <= x -> certifies n 256 d 1 true (9 / 10) x -> unit_ball_volume d * x ^ d < 256 / IZR n.
Proof.
  intros Hn Hn2 Hd Hx C. destruct (Rlt_le_dec (Rmin (compute_vol_unit_sphere d / 1 * x ^ d) 1) (256 / IZR n)) as [H|H].
  - revert H. unfold Rmin. destruct (Rle_dec _ 1) as [L|L].
    + rewrite unit_ball_correct. intro H. replace (unit_ball_volume d / 1) with (unit_ball_volume d) in H by field. exact H.
    + intro H. exfalso. assert (256 <= IZR n) by (apply IZR_le; lia). assert (256 / IZR n <= 1); [|lra]. apply Rmult_le_reg_r with (IZR n); [lra|]. unfold Rdiv. rewrite Rmult_assoc, Rinv_l; lra.
  - exfalso. unfold certifies in C. rewrite (kl_saturated n 256 d 1 true Hn ltac:(lia) Hd x Hx H) in C. simpl in C.
    assert (2 <= IZR n) by (apply IZR_le; lia). rewrite exp_ln in C by lra. lra.
Qed.
(** the exponent of the Sauer-Shelah count *)
Definition ss_bits (n : Z) (d : nat) : R := log2R (IZR (compute_ss_comb_sum n (d + 1))).
Lemma ss_count n d : (1 <= n)%Z -> (2 * n <= compute_ss_comb_sum n (d + 1))%Z.
Proof.
  intro Hn. replace n with (Z.of_nat (Z.to_nat n)) at 2 by lia. rewrite ss_psum. assert (M : forall a b, (psum a 1 <= psum a (b + 1))%Z).
  { intros a. induction b as [|b IH]; [simpl; lia|]. replace (S b + 1)%nat with (S (b + 1)) by lia. rewrite (psum_S a (b + 1)). pose proof (comb_nonneg a (S (b + 1))). lia. }
  specialize (M (2 * Z.to_nat n)%nat d). rewrite psum_S, psum_0, comb_1 in M. lia.
Qed.
Lemma log2R_pow k : log2R (2 ^ k) = INR k.
Proof. unfold log2R. rewrite ln_pow by lra. pose proof ln2_pos. field. lra. Qed.
Lemma net_value n d net : (1 <= n)%Z -> (1 <= d)%nat -> net_radius n d (2 * (1 / 10)) net -> unit_ball_volume d * net ^ d = 2 / IZR n * (ss_bits n d + log2R 10).
Proof.
  intros Hn Hd (P & E). unfold net_failure_bound in E. rewrite <- psum_spec, <- ss_psum, Z2Nat.id in E by lia. unfold ss_bits.
  assert (S : 0 < IZR (compute_ss_comb_sum n (d + 1))) by (apply IZR_lt; pose proof (ss_count n d Hn); lia). set (s := IZR (compute_ss_comb_sum n (d + 1))) in *.
  rewrite INR_IZR_INZ, Z2Nat.id in E by lia. assert (N : 1 <= IZR n) by (apply IZR_le; lia). set (v := unit_ball_volume d * net ^ d) in *.
  assert (L : ln (Rpower 2 (- v * IZR n / 2)) = ln (/ 10 / s)). { f_equal. apply Rmult_eq_reg_l with s; [|lra]. replace (s * (/ 10 / s)) with (/ 10) by (field; lra). lra. }
  unfold Rpower in L. rewrite ln_exp in L. unfold Rdiv in L at 2. rewrite ln_mult, !ln_Rinv in L by (try lra; apply Rinv_0_lt_compat; lra).
  pose proof ln2_pos. unfold log2R. replace v with (- (- v * IZR n / 2 * ln 2) * 2 / IZR n / ln 2) by (field; lra). rewrite L. field. lra.
Qed.
(** The quotient of a certified radius by the net radius, raised to the dimension, stays below 128 over the number of
    bits of the Sauer-Shelah count. *)
Theorem ratio_bound : forall n d net x, (256 <= n)%Z -> (1 <= d)%nat -> net_radius n d (2 * (1 / 10)) net -> 0 <= x -> certifies n 256 d 1 true (9 / 10) x ->
  (x / net) ^ d * (ss_bits n d + log2R 10) < 128.
Proof.
  intros n d net x Hn Hd Hr Hx C. pose proof (net_value n d net ltac:(lia) Hd Hr) as V. pose proof (share_one n d x ltac:(lia) Hn Hd Hx C) as S. destruct Hr as (P & _).
  assert (N : 256 <= IZR n) by (apply IZR_le; lia). assert (U : 0 < unit_ball_volume d) by (rewrite <- unit_ball_correct; apply Bound_Proofs2.unit_ball_pos).
  assert (Nd : 0 < net ^ d) by now apply pow_lt. set (b := ss_bits n d + log2R 10) in *. unfold Rdiv at 1. rewrite Rpow_mult_distr, pow_inv.
  apply Rmult_lt_reg_r with (net ^ d * unit_ball_volume d * (2 / IZR n)); [apply Rmult_lt_0_compat; [nra|apply Rdiv_lt_0_compat; lra]|].
  replace (x ^ d * / net ^ d * b * (net ^ d * unit_ball_volume d * (2 / IZR n))) with ((unit_ball_volume d * x ^ d) * (2 / IZR n * b)) by (field; lra).
  rewrite <- V. replace (128 * (net ^ d * unit_ball_volume d * (2 / IZR n))) with (256 / IZR n * (unit_ball_volume d * net ^ d)) by (field; lra). apply Rmult_lt_compat_r; [nra|exact S].
Qed.
Print Assumptions ratio_bound.
Lemma bits_lower n d j : (2 ^ Z.of_nat j <= 2 * n)%Z -> (1 <= n)%Z -> INR j <= ss_bits n d.
Proof.
  intros H Hn. unfold ss_bits. rewrite <- log2R_pow. apply log2R_le; [apply pow_lt; lra|]. rewrite (pow_IZR 2 j). apply IZR_le. pose proof (ss_count n d Hn). lia.
Qed.
Lemma ball_le_6 : forall d, unit_ball_volume d <= 6.
Proof.
  assert (P : 3 <= PI <= 33 / 10) by (pose proof PI_3_4; pose proof PI_upper; lra).
  assert (B : forall d, 0 < unit_ball_volume d) by (intro; rewrite <- unit_ball_correct; apply Bound_Proofs2.unit_ball_pos).
  assert (K : forall j d, (d < 2 * j + 7)%nat -> unit_ball_volume d <= 6).
  { induction j as [|j IH]; intros d Hd.
    - assert (D : (d = 0 \/ d = 1 \/ d = 2 \/ d = 3 \/ d = 4 \/ d = 5 \/ d = 6)%nat) by lia. assert (P2 : PI * PI <= 1089 / 100) by nra. assert (P3 : PI * PI * PI <= 35937 / 1000) by nra.
      destruct D as [->|[->|[->|[->|[->|[->| ->]]]]]]; cbn [unit_ball_volume]; simpl INR; try lra.
    - destruct (le_lt_dec d 6) as [L|L]; [apply IH; lia|]. destruct d as [|[|d]]; [lia|lia|]. cbn [unit_ball_volume]. change (INR (S (S d))) with (INR (S (S d))).
      specialize (IH d ltac:(lia)). assert (D : 7 <= INR (S (S d))) by (replace 7 with (INR 7) by (simpl; lra); apply le_INR; lia).
      assert (F : 2 * PI / INR (S (S d)) <= 1). { apply Rmult_le_reg_r with (INR (S (S d))); [lra|]. unfold Rdiv. rewrite Rmult_assoc, Rinv_l; lra. }
      specialize (B d). change (2 * PI / INR (S (S d)) * unit_ball_volume d <= 6). nra. }
  intro d. apply (K d). lia.
Qed.
(** No ratio of the figure reaches the dashed line at 4: from 256 samples on, up to 10^20 of them, in two or more
    dimensions. *)
Theorem ratio_below_threshold : forall n d ub net conn, (256 <= n <= 10 ^ 20)%Z -> (2 <= d)%nat -> net_radius n d (2 * (1 / 10)) net -> conn_radius n d ub conn -> conn / net < 4.
Proof.
  intros n d ub net conn Hn Hd Hr ([->|C] & L & _).
  - pose proof (net_value n d net ltac:(lia) ltac:(lia) Hr) as V. destruct Hr as (P & _). assert (N : 256 <= IZR n <= 10 ^ 20) by (split; [apply IZR_le; lia|rewrite (pow_IZR 10 20); change (10 ^ Z.of_nat 20)%Z with (10 ^ 20)%Z; apply IZR_le; lia]).
    pose proof (bits_lower n d 9 ltac:(change (2 ^ Z.of_nat 9)%Z with 512%Z; lia) ltac:(lia)) as B. simpl INR in B. assert (T : 0 < log2R 10). { unfold log2R. pose proof ln2_pos. apply Rdiv_lt_0_compat; [|lra]. rewrite <- ln_1. apply ln_increasing; lra. }
    pose proof (ball_le_6 d) as U. assert (Np : 0 < net ^ d) by now apply pow_lt.
    assert (M : 2 * 9 / IZR n < 6 * net ^ d). { apply Rlt_le_trans with (2 / IZR n * (ss_bits n d + log2R 10)); [|rewrite <- V; nra]. unfold Rdiv. assert (0 < / IZR n) by (apply Rinv_0_lt_compat; lra). nra. }
    assert (M2 : 2 * 9 / 10 ^ 20 <= 2 * 9 / IZR n). { unfold Rdiv. apply Rmult_le_compat_l; [lra|]. apply Rinv_le_contravar; lra. }
    apply Rmult_lt_reg_r with net; [assumption|]. unfold Rdiv. rewrite Rmult_assoc, Rinv_l, Rmult_1_r by lra. destruct (Rlt_le_dec (/ 10 ^ 10) (4 * net)) as [|H]; [assumption|exfalso].
    assert (Q : net ^ d <= net ^ 2). { replace d with (2 + (d - 2))%nat by lia. rewrite pow_add. assert (net ^ (d - 2) <= 1); [|nra]. rewrite <- (pow1 (d - 2)). apply pow_incr. lra. }
    assert (net ^ 2 <= (/ 10 ^ 10 / 4) ^ 2) by (apply pow_incr; lra). lra.
  - assert (X : 0 <= conn) by (assert (0 < / 10 ^ 10) by (apply Rinv_0_lt_compat, pow_lt; lra); lra).
    pose proof (ratio_bound n d net conn ltac:(lia) ltac:(lia) Hr X C) as R. destruct Hr as (P & _). pose proof (bits_lower n d 9 ltac:(change (2 ^ Z.of_nat 9)%Z with 512%Z; lia) ltac:(lia)) as B. simpl INR in B.
    assert (T : 0 < log2R 10). { unfold log2R. pose proof ln2_pos. apply Rdiv_lt_0_compat; [|lra]. rewrite <- ln_1. apply ln_increasing; lra. }
    destruct (Rlt_le_dec (conn / net) 4) as [|H]; [assumption|exfalso]. assert (Q : 4 ^ 2 <= (conn / net) ^ d).
    { apply Rle_trans with (4 ^ d); [apply Rle_pow; [lra|assumption]|apply pow_incr; lra]. }
    assert (4 ^ 2 * 9 <= (conn / net) ^ d * (ss_bits n d + log2R 10)) by (apply Rmult_le_compat; lra). lra.
Qed.
Print Assumptions ratio_below_threshold.
(** The quotient of the certified radius by the net radius falls below every positive number: the connection radius
    decays faster. *)
Theorem ratio_vanishes : forall d eps, (1 <= d)%nat -> 0 < eps -> exists N, forall n net x, (N <= n)%Z -> net_radius n d (2 * (1 / 10)) net -> 0 <= x -> certifies n 256 d 1 true (9 / 10) x -> x / net < eps.
Proof.
  intros d eps Hd He. assert (Ed : 0 < eps ^ d) by now apply pow_lt. destruct (nat_above (128 / eps ^ d + 1) ltac:(assert (0 < 128 / eps ^ d) by (apply Rdiv_lt_0_compat; lra); lra)) as (j & Hj & _). assert (Hj' : 128 / eps ^ d < INR j) by lra. clear Hj. rename Hj' into Hj.
  exists (Z.max 256 (2 ^ Z.of_nat j)). intros n net x Hn Hr Hx C. pose proof (ratio_bound n d net x ltac:(lia) Hd Hr Hx C) as R. destruct Hr as (P & _).
  pose proof (bits_lower n d j ltac:(lia) ltac:(lia)) as B. assert (T : 0 < log2R 10). { unfold log2R. pose proof ln2_pos. apply Rdiv_lt_0_compat; [|lra]. rewrite <- ln_1. apply ln_increasing; lra. }
  destruct (Rlt_le_dec (x / net) eps) as [|H]; [assumption|exfalso]. assert (Q : eps ^ d <= (x / net) ^ d) by (apply pow_incr; lra).
  assert (128 < eps ^ d * INR j). { apply Rmult_lt_compat_l with (r := eps ^ d) in Hj; [|assumption]. replace (eps ^ d * (128 / eps ^ d)) with 128 in Hj by (field; lra). lra. }
  assert (0 <= INR j) by apply pos_INR. assert (eps ^ d * INR j <= (x / net) ^ d * (ss_bits n d + log2R 10)) by (apply Rmult_le_compat; lra). lra.
Qed.
Print Assumptions ratio_vanishes.
(** The radius taken for the smallest net radius at failure probability 0.1 is too short, hence every ratio too large:
    a radius where the bound is at most 0.1 is longer. *)
Theorem net_radius_short : forall n d net r, (1 <= n)%Z -> (1 <= d)%nat -> net_radius n d (2 * (1 / 10)) net -> 0 < r ->
  net_failure_bound (unit_ball_volume d * r ^ d) (d + 1) (Z.to_nat n) <= 1 / 10 -> net < r /\ forall conn, 0 < conn -> conn / r < conn / net.
Proof.
  intros n d net r Hn Hd (P & E) Hr B. assert (L : net < r).
  { destruct (Rlt_le_dec net r) as [|H]; [assumption|exfalso]. assert (Q : r ^ d <= net ^ d) by (apply pow_incr; lra). unfold net_failure_bound in *. rewrite <- psum_spec in *.
    assert (S : 0 < IZR (psum (2 * Z.to_nat n) (d + 1))) by apply psum_pos_R. assert (U : 0 < unit_ball_volume d) by (rewrite <- unit_ball_correct; apply Bound_Proofs2.unit_ball_pos). assert (N : 0 <= INR (Z.to_nat n)) by apply pos_INR.
    assert (R : Rpower 2 (- (unit_ball_volume d * net ^ d) * INR (Z.to_nat n) / 2) <= Rpower 2 (- (unit_ball_volume d * r ^ d) * INR (Z.to_nat n) / 2)).
    { apply Rle_Rpower; [lra|]. assert (unit_ball_volume d * r ^ d <= unit_ball_volume d * net ^ d) by (apply Rmult_le_compat_l; lra). nra. }
    assert (2 * IZR (psum (2 * Z.to_nat n) (d + 1)) * Rpower 2 (- (unit_ball_volume d * net ^ d) * INR (Z.to_nat n) / 2) <= 2 * IZR (psum (2 * Z.to_nat n) (d + 1)) * Rpower 2 (- (unit_ball_volume d * r ^ d) * INR (Z.to_nat n) / 2)) by (apply Rmult_le_compat_l; lra). lra. }
  split; [assumption|]. intros conn Hc. unfold Rdiv. apply Rmult_lt_compat_l; [assumption|]. apply Rinv_lt_contravar; [|assumption]. now apply Rmult_lt_0_compat.
Qed.
Print Assumptions net_radius_short.
(** Hence in no table of two or more dimensions and at most 10^20 samples does a line reach the threshold... *)
Theorem ratio_figure_below : forall ub fuel ns ds t, (forall n, In n ns -> (256 <= n <= 10 ^ 20)%Z) -> (forall d, In d ds -> (2 <= d)%nat) -> ratio_df ub fuel ns ds = Ok t ->
  forall k x, In (k, x) t -> x < 4.
Proof.
  intros ub fuel ns ds t Hn Hd T (n & d) x Hx. destruct (ratio_table ub fuel ns ds t ltac:(intros n0 H; specialize (Hn n0 H); lia) ltac:(intros d0 H; specialize (Hd d0 H); lia) T) as (K & V).
  destruct (V n d x Hx) as (net & conn & -> & V1 & V2).
  assert (I : In (n, d) (list_prod ns ds)) by (rewrite <- K; apply in_map_iff; exists ((n, d), conn / net); auto).
  apply in_prod_iff in I. destruct I as (I1 & I2). apply (ratio_below_threshold n d (Q2R ub) net conn); auto.
Qed.
Print Assumptions ratio_figure_below.
(** ... and the claim of the figure, that the hypothesis of the theorem (a ratio of at least 4) is met from some count on,
    is false of it: the five dimensions and thousand counts it shows are all below. *)
Definition figure_counts : list Z := map (fun i => (275 + 1000 * Z.of_nat i)%Z) (seq 0 1000).
Theorem figure_below_threshold : exists ub fuel ds t, (4472135 # 1000000 <= ub <= 4472136 # 1000000)%Q /\ ds = firstn 5 notebook_ds /\ ratio_df ub fuel figure_counts ds = Ok t /\ length t = 5000%nat /\ forall k x, In (k, x) t -> ~ 4 <= x.
Proof.
  destruct (ratio_table_made (4472136 # 1000000)%Q 24 figure_counts (firstn 5 notebook_ds) ltac:(split; unfold Qle; simpl; lia) ltac:(lia)) as (t & T).
  exists (4472136 # 1000000)%Q, 24%nat, (firstn 5 notebook_ds), t. split; [split; unfold Qle; simpl; lia|]. split; [reflexivity|]. split; [exact T|].
  assert (C : forall n, In n figure_counts -> (256 <= n <= 10 ^ 20)%Z). { intros n H. apply in_map_iff in H. destruct H as (i & <- & H). apply in_seq in H. lia. }
  assert (D : forall d, In d (firstn 5 notebook_ds) -> (2 <= d)%nat). { intros d H. cbv in H. lia. }
  split.
  - destruct (ratio_table _ _ _ _ _ ltac:(intros n0 H; specialize (C n0 H); lia) ltac:(intros d0 H; specialize (D d0 H); lia) T) as (K & _). rewrite <- (map_length fst), K, prod_length. unfold figure_counts. rewrite map_length, seq_length. reflexivity.
  - intros k x Hx H. pose proof (ratio_figure_below _ _ _ _ t C D T k x Hx). lra.
Qed.
Print Assumptions figure_below_threshold.
(** a sixteenth is certified on the unit interval for 256 neighbours of 512 samples *)
Example certified_ex : certifies 512 256 1 1 true (9 / 10) (1 / 16).
Proof.
  apply certifies_ln; [lra|]. unfold compute_tail_knn_radius_log_prob_chernoff_kl. rewrite unit_ball_correct. cbn [unit_ball_volume].
  replace (2 / 1 * (1 / 16) ^ 1) with (1 / 8) by field. rewrite Rmin_left by lra. replace (256 / 512 - 1 / 8) with (3 / 8) by field. rewrite Rmax_left by lra. replace (1 / 8 + 3 / 8) with (1 / 2) by field.
  unfold entropy2. rewrite !rel_entr_pos by lra. cbn [ext_gtb]. unfold Rgtb. destruct (Rlt_dec _ _) as [H|H]; [exfalso|reflexivity].
  replace (1 / 2 / (1 / 8)) with (2 ^ 2) in H by field. replace ((1 - 1 / 2) / (1 - 1 / 8)) with (4 / 7) in H by field. replace (1 - 9 / 10) with (/ 10) in H by field.
  replace 512 with (2 ^ 9) in H at 1 by lra. rewrite !ln_pow in H by lra. rewrite ln_Rinv in H by lra. simpl INR in H.
  assert (A : - ln 2 < ln (4 / 7)) by (rewrite <- ln_Rinv by lra; apply ln_increasing; lra). assert (B : ln 10 < 4 * ln 2) by (replace (4 * ln 2) with (ln (2 ^ 4)) by (rewrite ln_pow by lra; simpl INR; ring); apply ln_increasing; lra).
  pose proof ln2_pos. lra.
Qed.
