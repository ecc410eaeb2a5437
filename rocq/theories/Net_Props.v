(** Properties C91-C93: roadmaps over a net of samples (bound.py's radii used by prm.py).

    The sample count of bound.py is meant to make the samples a net of radius
    compute_epsilon_net_radius; its connection radius is meant to make a roadmap over such a
    net solve every query that has a solution of the given clearance, at a cost at most
    (1 + tol) times as long.  These theorems are about the second step, for every net. *)
From Coq Require Import Arith List Reals QArith Qreals ZArith Lra Lia Psatz.
From Verif Require Import NkGraph_Model NkGraph_Spec NkGraph_Proofs Prm_Model Prm_Spec Sp_Oracle PrmAnn_Inst PrmEx
  PrmFc_Props PrmNn_Props PrmRp_Props PrmRp_Proofs Bound_Model Bound_Proofs Bound_Proofs2 Bound_Props Geom_Spec Geom_Proofs Net_Spec Net_Proofs.
Import ListNotations.
Close Scope Q_scope.
Open Scope R_scope.

(** ** The radii *)
Section Radii.
  Variables delta tol : R.
  Hypothesis Hd : 0 < delta.
  Hypothesis Ht : 0 < tol.
  Let h := sqrt (1 + tol ^ 2).
  Let rho := compute_epsilon_net_radius delta (Some tol).
  (** how far apart along the curve two neighbouring net points may be *)
  Let step := 2 * delta / h.

  Lemma h_pos : 0 < h /\ h * h = 1 + tol ^ 2.
  Proof.
    assert (0 < 1 + tol ^ 2) by (pose proof (pow2_ge_0 tol); lra).
    split; [now apply sqrt_lt_R0|apply sqrt_sqrt; lra].
  Qed.
  Lemma radii_step : 0 < rho /\ 0 < step /\ rho ^ 2 + (step / 2) ^ 2 = delta ^ 2 /\ 2 * rho / step = tol /\
    compute_connection_radius delta tol = 2 * rho + step.
  Proof.
    destruct h_pos as [Hh Hhh].
    assert (Er : rho = tol / h * delta) by reflexivity.
    split; [rewrite Er; apply Rmult_lt_0_compat; auto; now apply Rdiv_lt_0_compat|].
    split; [unfold step; apply Rdiv_lt_0_compat; lra|].
    split; [|split].
    - rewrite Er. unfold step. replace ((tol / h * delta) ^ 2 + (2 * delta / h / 2) ^ 2) with ((1 + tol ^ 2) / (h * h) * delta ^ 2) by (field; lra).
      rewrite Hhh. field. pose proof (pow2_ge_0 tol). lra.
    - rewrite Er. unfold step. field. lra.
    - rewrite Er. unfold step, compute_connection_radius. fold h. field. lra.
  Qed.
End Radii.

(** The distance between neighbouring net points along the curve. *)
Definition net_step (delta tol : R) : R := 2 * delta / sqrt (1 + tol ^ 2).

(** What a cost may be, for a solution curve of length L, with distances off by eta. *)
Definition stretch_bound (delta tol eta L cost : R) : Prop :=
  (net_step delta tol < L -> cost <= (1 + tol) * L + (L / net_step delta tol + 1) * eta) /\
  (L <= net_step delta tol -> cost <= L + 2 * compute_epsilon_net_radius delta (Some tol) + 2 * eta).

Lemma steps_count x : 1 < x -> exists K, (2 <= K)%nat /\ x <= INR K <= x + 1.
Proof.
  intro Hx. destruct (archimed x) as [A1 A2].
  assert (Z2 : (2 <= up x)%Z) by (assert (1 < up x)%Z; [apply lt_IZR; lra|lia]).
  exists (Z.to_nat (up x)). rewrite INR_IZR_INZ, Z2Nat.id by lia. split; [lia|lra].
Qed.

(** A query point set-up: everything is about one space, curve, sample list and query. *)
Definition net_query {P : Type} (dim : nat) (pos : P -> list R) (free : list R -> Prop)
    (check : P -> P -> bool) (dst : P -> P -> Q) (eta delta rho L : R) (c : R -> list R)
    (ss : list P) (start goal : P) : Prop :=
  coordinates dim pos /\ accepts_free_motions pos free check /\ distances_within pos dst eta /\
  0 <= L /\ curve dim L c /\ has_clearance dim free delta L c /\ net_along pos rho L c ss /\
  pos start = c 0 /\ pos goal = c L.

Section Generic.
  Context {P : Type}.
  Variables (dim : nat) (pos : P -> list R) (free : list R -> Prop) (check : P -> P -> bool) (dst : P -> P -> Q).
  Variables (eta delta L : R) (c : R -> list R) (ss : list P) (start goal : P).
  Variable E : nat -> nat -> Q -> Prop.
  Variables (r : R) (re : Q).
  Hypothesis HE : forall i j p q, nth_error ss i = Some p -> nth_error ss j = Some q -> i <> j ->
    Q2R (dst p q) <= r -> check p q = true -> check q p = true -> exists w, E i j w /\ (w == dst p q)%Q.

  Lemma stretch_solution tol : 0 < delta -> 0 < tol ->
    net_query dim pos free check dst eta delta (compute_epsilon_net_radius delta (Some tol)) L c ss start goal ->
    compute_connection_radius delta tol + eta <= r -> compute_connection_radius delta tol + eta <= Q2R re ->
    exists ids cost, solution dst check ss re E start goal ids cost /\ stretch_bound delta tol eta L (Q2R cost).
  Proof.
    intros Hd Ht (Hp & Hchk & Hdst & HL & Hc & Hf & Hn & Hs & Hg) Hr Hre.
    destruct (radii_step delta tol Hd Ht) as (R1 & R2 & R3 & R4 & R5).
    rewrite R5 in Hr, Hre. fold (net_step delta tol) in R2, R3, R4, Hr, Hre.
    set (rho := compute_epsilon_net_radius delta (Some tol)) in *. set (D := net_step delta tol) in *.
    assert (Go : forall K, (2 <= K)%nat -> L / INR K <= D -> exists ids cost, solution dst check ss re E start goal ids cost /\
              Q2R cost <= L + 2 * rho * (INR K - 1) + INR K * eta).
    { intros K HK Hw. assert (0 < INR K) by (apply lt_0_INR; lia).
      assert (0 <= L / INR K) by (apply Rmult_le_pos; [lra|left; now apply Rinv_0_lt_compat]).
      apply (net_chain dim pos free check dst eta Hp Hchk Hdst delta L c ss rho ltac:(lra) HL Hc Hf Hn E r HE start goal re Hs Hg K (L / INR K)); auto; try lra.
      apply Rle_trans with (rho ^ 2 + (D / 2) ^ 2); [|lra]. apply Rplus_le_compat_l. apply pow_incr. lra. }
    assert (He : 0 <= eta) by (apply (eta_nonneg pos dst eta Hdst); eauto).
    destruct (Rlt_dec D L) as [Y|N].
    - destruct (steps_count (L / D)) as (K & K2 & K3 & K4).
      { apply (Rmult_lt_reg_r D); auto. unfold Rdiv. rewrite Rmult_assoc, Rinv_l by lra. lra. }
      assert (Kp : 0 < INR K) by (apply lt_0_INR; lia).
      destruct (Go K K2) as (ids & cost & S & C).
      { apply (Rmult_le_reg_r (INR K)); auto. unfold Rdiv. rewrite Rmult_assoc, Rinv_l by lra.
        apply (Rmult_le_compat_l D) in K3; [|lra]. replace (D * (L / D)) with L in K3 by (field; lra). lra. }
      exists ids, cost. split; auto. unfold stretch_bound. fold rho D. split; [intros _|intro; exfalso; lra].
      apply Rle_trans with (L + 2 * rho * (INR K - 1) + INR K * eta); auto.
      assert (A : 2 * rho * (INR K - 1) <= tol * L).
      { rewrite <- R4. replace (2 * rho / D * L) with (2 * rho * (L / D)) by (field; lra). apply Rmult_le_compat_l; lra. }
      assert (B : INR K * eta <= (L / D + 1) * eta) by (apply Rmult_le_compat_r; lra).
      lra.
    - destruct (Go 2%nat ltac:(lia)) as (ids & cost & S & C); [simpl; lra|].
      exists ids, cost. split; auto. unfold stretch_bound. fold rho D. split; [intro; exfalso; lra|intros _]. simpl in C. lra.
  Qed.

  Lemma some_solution tol : 0 <= delta -> 0 <= alpha_of_tol tol <= 1 ->
    net_query dim pos free check dst eta delta (compute_epsilon_net_radius delta tol) L c ss start goal ->
    2 * compute_epsilon_net_radius delta tol + eta <= r -> compute_epsilon_net_radius delta tol + eta <= Q2R re ->
    exists ids cost, solution dst check ss re E start goal ids cost.
  Proof.
    intros Hd Ha (Hp & Hchk & Hdst & HL & Hc & Hf & Hn & Hs & Hg) Hr Hre.
    assert (0 <= compute_epsilon_net_radius delta tol <= delta) by (unfold compute_epsilon_net_radius; nra).
    apply (net_connects dim pos free check dst eta Hp Hchk Hdst delta L c ss (compute_epsilon_net_radius delta tol)
      ltac:(lra) HL Hc Hf Hn E r HE start goal re Hs Hg); lra.
  Qed.
End Generic.

(** A right answer is no worse than a given solution. *)
Lemma right_answer_beats {P} (dst : P -> P -> Q) check ss r E s t d path ids cost :
  right_answer dst check ss r E s t d path -> solution dst check ss r E s t ids cost ->
  exists d', d = Some d' /\ Q2R d' <= Q2R cost.
Proof.
  intros R S. destruct d as [d|]; simpl in R.
  - exists d. split; auto. apply Qle_Rle. destruct R as [_ R]. eauto.
  - destruct R as [_ R]. exfalso. eapply R; eauto.
Qed.

Lemma stretch_mono delta tol eta L x y : x <= y -> stretch_bound delta tol eta L y -> stretch_bound delta tol eta L x.
Proof. intros H [A B]. split; intro C; [specialize (A C)|specialize (B C)]; lra. Qed.

(** ** C91: full-connection roadmap *)
Section FullConn.
  Context {P : Type}.
  Variable dst : P -> P -> Q.
  Variable check : P -> P -> bool.
  Variable smp : nat -> P.
  Variable sp : sp_oracle.
  Hypothesis dst_nonneg : forall p q, (0 <= dst p q)%Q.
  Hypothesis dst_sym : forall p q, (dst p q == dst q p)%Q.
  Hypothesis SP : sp_correct sp.

  Lemma fc_links ss r g : exact_roadmap dst check ss r g ->
    forall i j p q, nth_error ss i = Some p -> nth_error ss j = Some q -> i <> j ->
    Q2R (dst p q) <= Q2R r -> check p q = true -> check q p = true -> exists w, edge g i j w /\ (w == dst p q)%Q.
  Proof.
    intros (_ & _ & X & Y) i j p q Ei Ej _ D C _. apply Rle_Qle in D.
    destruct (proj2 (X i j)) as [w Hw]; [left; exists p, q; auto|].
    exists w. split; auto. destruct (Y i j w Hw) as (p' & q' & Ep & Eq & Ew). congruence.
  Qed.

  Lemma fc_stretch : forall dim pos free eta delta tol L c start goal r0 p0 ops ss,
    0 < delta -> 0 < tol ->
    let st := fc_run dst check smp sp ops (fc_new r0 p0) in
    fc_samples st = Some ss ->
    net_query dim pos free check dst eta delta (compute_epsilon_net_radius delta (Some tol)) L c ss start goal ->
    compute_connection_radius delta tol + eta <= Q2R (fc_conn_r st) ->
    exists d path, fst (fc_query dst check sp st start goal) = Ok (Some d, path) /\ stretch_bound delta tol eta L (Q2R d).
  Proof.
    intros dim pos free eta delta tol L c start goal r0 p0 ops ss Hd Ht st Es N Hr.
    destruct (full_conn_query_optimal dst check smp sp dst_nonneg dst_sym SP r0 p0 ops ss start goal Es) as (g & d & path & Eg & Eq & RA).
    destruct (full_conn_roadmap_exact dst check smp sp dst_nonneg dst_sym SP r0 p0 ops ss Es) as (g' & Eg' & X).
    assert (g' = g) by congruence. subst g'. fold st in Eq, RA, Eg.
    assert (Er : radius_asked r0 ops = fc_conn_r st) by (unfold st; now rewrite radius_asked_ok).
    rewrite Er in X.
    destruct (stretch_solution dim pos free check dst eta delta L c ss start goal (edge g) (Q2R (fc_conn_r st)) (fc_conn_r st)
      (fc_links ss _ g X) tol Hd Ht N Hr Hr) as (ids & cost & S & C).
    destruct (right_answer_beats _ _ _ _ _ _ _ _ _ _ _ RA S) as (d' & -> & Le).
    exists d', path. split; auto. eapply stretch_mono; eauto.
  Qed.

  (** With the radius that compute_numerical_bound returns (enlarged by the distances'
      error), over any net of radius compute_epsilon_net_radius: the query is answered, at a
      cost within the tolerance. *)
  Theorem net_full_conn_stretch : forall dim pos free eta delta tol L c start goal prob vol ndim fuel out conn_r r0 p0 ops ss,
    0 < delta -> 0 < tol ->
    compute_numerical_bound delta prob vol ndim (Some tol) fuel = Some (out, conn_r) ->
    let st := fc_run dst check smp sp ops (fc_new r0 p0) in
    fc_samples st = Some ss ->
    net_query dim pos free check dst eta delta (compute_epsilon_net_radius delta (Some tol)) L c ss start goal ->
    conn_r + eta <= Q2R (fc_conn_r st) ->
    exists d path, fst (fc_query dst check sp st start goal) = Ok (Some d, path) /\ stretch_bound delta tol eta L (Q2R d).
  Proof.
    intros. match goal with H : compute_numerical_bound _ _ _ _ _ _ = _ |- _ => apply connection_radius_formulas_agree in H; subst conn_r end.
    eapply fc_stretch; eauto.
  Qed.

  (** Without a tolerance (or with any), the query is answered. *)
  Theorem net_full_conn_feasible : forall dim pos free eta delta tol L c start goal prob vol ndim fuel out conn_r r0 p0 ops ss,
    0 <= delta -> (forall t, tol = Some t -> 0 <= t) ->
    compute_numerical_bound delta prob vol ndim tol fuel = Some (out, conn_r) ->
    let st := fc_run dst check smp sp ops (fc_new r0 p0) in
    fc_samples st = Some ss ->
    net_query dim pos free check dst eta delta (compute_epsilon_net_radius delta tol) L c ss start goal ->
    conn_r + eta <= Q2R (fc_conn_r st) ->
    exists d path, fst (fc_query dst check sp st start goal) = Ok (Some d, path).
  Proof.
    intros dim pos free eta delta tol L c start goal prob vol ndim fuel out conn_r r0 p0 ops ss Hd Ht B st Es N Hr.
    assert (Ha : 0 <= alpha_of_tol tol <= 1).
    { destruct tol as [t|]; simpl; [|lra]. specialize (Ht t eq_refl).
      split; [now apply alpha_nonneg|apply alpha_le_1]. }
    assert (Hc : 2 * compute_epsilon_net_radius delta tol <= conn_r).
    { unfold compute_numerical_bound in B. destruct (Rleb prob 0 || Rgeb prob 1)%bool; [discriminate|].
      injection B as _ <-. unfold compute_epsilon_net_radius. 
      match goal with |- context [sqrt ?x] => pose proof (Rmult_le_pos _ _ (sqrt_pos x) Hd) end. lra. }
    destruct (full_conn_query_optimal dst check smp sp dst_nonneg dst_sym SP r0 p0 ops ss start goal Es) as (g & d & path & Eg & Eq & RA).
    destruct (full_conn_roadmap_exact dst check smp sp dst_nonneg dst_sym SP r0 p0 ops ss Es) as (g' & Eg' & X).
    assert (g' = g) by congruence. subst g'. fold st in Eq, RA, Eg.
    assert (Er : radius_asked r0 ops = fc_conn_r st) by (unfold st; now rewrite radius_asked_ok).
    rewrite Er in X.
    assert (Hn : 0 <= compute_epsilon_net_radius delta tol) by (unfold compute_epsilon_net_radius; nra).
    destruct (some_solution dim pos free check dst eta delta L c ss start goal (edge g) (Q2R (fc_conn_r st)) (fc_conn_r st)
      (fc_links ss _ g X) tol Hd Ha N) as (ids & cost & S); [lra|lra|].
    destruct (right_answer_beats _ _ _ _ _ _ _ _ _ _ _ RA S) as (d' & -> & Le). eauto.
  Qed.
End FullConn.
Print Assumptions net_full_conn_stretch.
Print Assumptions net_full_conn_feasible.

(** ** C92: nearest-neighbour and radius roadmaps *)
Section Neighbours.
  Context {P : Type}.
  Variable dst : P -> P -> Q.
  Variable check : P -> P -> bool.
  Variable smp : nat -> P.
  Variable ann : list P -> nat -> rows.
  Variable sp : sp_oracle.
  Hypothesis dst_nonneg : forall p q, (0 <= dst p q)%Q.
  Hypothesis dst_sym : forall p q, (dst p q == dst q p)%Q.
  Hypothesis SP : sp_correct sp.
  Hypothesis ANX : ann_exact dst ann.

  (** After a successful grow and any radius changes and queries: if the certified radius and
      the radius in use exceed the one of bound.py, the query is answered within the
      tolerance. *)
  Theorem net_nn_stretch : forall dim pos free eta delta tol L c start goal k trunc p0 ops n x st1 ops2 ss cert,
    0 < delta -> 0 < tol ->
    nn_grow check smp ann (nn_run dst check smp ann sp ops (nn_new k trunc p0)) n = (Ok x, st1) ->
    Forall radius_or_query ops2 ->
    let st := nn_run dst check smp ann sp ops2 st1 in
    nn_samples st = Some ss -> nn_cert st = Some cert ->
    net_query dim pos free check dst eta delta (compute_epsilon_net_radius delta (Some tol)) L c ss start goal ->
    compute_connection_radius delta tol + eta < Q2R cert ->
    (forall r, nn_conn_r st = Some r -> compute_connection_radius delta tol + eta < Q2R r) ->
    exists d path, fst (nn_query dst check sp st start goal) = Ok (Some d, path) /\ stretch_bound delta tol eta L (Q2R d).
  Proof.
    intros dim pos free eta delta tol L c start goal k trunc p0 ops n x st1 ops2 ss cert Hd Ht Hg F st Es Ec N Hc Hr.
    destruct (nn_certified_radius_honest dst check smp ann sp dst_nonneg dst_sym SP ANX k trunc p0 ops n x st1 ops2 Hg F)
      as (ss' & g & cert' & Es' & Eg & Ec' & H). fold st in Es', Eg, Ec', H.
    assert (ss' = ss) by congruence. assert (cert' = cert) by congruence. subst ss' cert'.
    assert (Est : st = nn_run dst check smp ann sp (ops ++ NGrow n :: ops2) (nn_new k trunc p0)).
    { unfold st, nn_run. rewrite fold_left_app. simpl. unfold nn_run in Hg. now rewrite Hg. }
    assert (Hre : exists re, (match nn_conn_r st with Some r => Some r | None => nn_cert st end) = Some re /\
                    compute_connection_radius delta tol + eta <= Q2R re).
    { destruct (nn_conn_r st) as [r|]; [exists r|exists cert]; split; auto; [left; auto|left; auto]. }
    destruct Hre as (re & Ere & Hre).
    destruct (nn_query_optimal dst check smp ann sp dst_nonneg dst_sym SP (exact_shape dst ann ANX) k trunc p0
                (ops ++ NGrow n :: ops2) ss re start goal) as (g' & d & path & Eg' & Eq & RA & _).
    { rewrite <- Est. auto. } { rewrite <- Est. auto. }
    rewrite <- Est in Eg', Eq. assert (g' = g) by congruence. subst g'.
    destruct (stretch_solution dim pos free check dst eta delta L c ss start goal (edge g)
      (compute_connection_radius delta tol + eta) re) with (tol := tol) as (ids & cost & S & C); auto; [|lra|].
    { intros i j p q Ei Ej Hij D C1 _. apply (H i j p q); auto.
      - apply Rlt_Qlt. lra.
      - intros r Er. apply Rlt_Qlt. specialize (Hr r Er). lra. }
    destruct (right_answer_beats _ _ _ _ _ _ _ _ _ _ _ RA S) as (d' & -> & Le).
    exists d', path. split; auto. eapply stretch_mono; eauto.
  Qed.

  (** The radius roadmap, once built (with the neighbour lists not cut off by max_k). *)
  Theorem net_radius_stretch : forall dim pos free eta delta tol L c start goal fuel r max_k p0 n out st ss,
    0 < delta -> 0 < tol -> (max_k < fuel)%nat ->
    rp_grow check smp ann fuel (rp_new r max_k p0) n = Some (out, st) ->
    (rp_k st < max_k \/ n <= rp_k st)%nat ->
    rp_samples st = Some ss ->
    net_query dim pos free check dst eta delta (compute_epsilon_net_radius delta (Some tol)) L c ss start goal ->
    compute_connection_radius delta tol + eta < Q2R r ->
    exists d path, fst (rp_query dst check sp st start goal) = Ok (Some d, path) /\ stretch_bound delta tol eta L (Q2R d).
  Proof.
    intros dim pos free eta delta tol L c start goal fuel r max_k p0 n out st ss Hd Ht F Hg K Es N Hr.
    destruct (radius_first_build_complete dst check smp ann (exact_shape dst ann ANX) ANX fuel (rp_new r max_k p0) n out st)
      as (ss' & g & Es' & _ & Eg & H); auto; [simpl; lia|].
    assert (ss' = ss) by congruence. subst ss'. simpl in H.
    assert (Run : rp_run dst check smp ann sp fuel [RGrow n] (rp_new r max_k p0) = Some st).
    { simpl. rewrite Hg. reflexivity. }
    destruct (radius_query_optimal dst check smp ann sp dst_nonneg dst_sym SP (exact_shape dst ann ANX) fuel r max_k p0 [RGrow n] st ss start goal Run F Es)
      as (g' & d & path & Eg' & Eq & RA & _). assert (g' = g) by congruence. subst g'.
    destruct (radius_grow_always_finishes dst check smp ann sp dst_nonneg dst_sym SP (exact_shape dst ann ANX) fuel r max_k p0 [RGrow n] F)
      as (st' & Run' & _ & V & _). assert (st' = st) by congruence. subst st'.
    destruct (V ss Es) as (g' & Eg2 & _ & W). assert (g' = g) by congruence. subst g'.
    assert (Ecr : rp_conn_r st = r) by
      (clear - Hg; unfold rp_grow in Hg; simpl in Hg;
       destruct (build_index _ _ _ _ _ _ _) as [[nn k]|]; [|discriminate];
       destruct (nn_to_graph _ _ _ _ _); injection Hg as _ <-; reflexivity).
    rewrite Ecr in RA.
    destruct (stretch_solution dim pos free check dst eta delta L c ss start goal (edge g)
      (compute_connection_radius delta tol + eta) r) with (tol := tol) as (ids & cost & S & C); auto; [|lra|lra|].
    { intros i j p q Ei Ej Hij D C1 _. destruct (H i j p q) as [w Hw]; auto; [apply Rlt_Qlt; lra|].
      exists w. split; auto. destruct (W i j w Hw) as (p' & q' & Ep & Eq' & Ew & _). congruence. }
    destruct (right_answer_beats _ _ _ _ _ _ _ _ _ _ _ RA S) as (d' & -> & Le).
    exists d', path. split; auto. eapply stretch_mono; eauto.
  Qed.
End Neighbours.
Print Assumptions net_nn_stretch.
Print Assumptions net_radius_stretch.

(** ** C91, C92: an instance: integers on a line, distances in units, everything free. *)
Definition zpos (z : Z) : list R := [IZR z].
Lemma zpos_dist a b : dist (zpos a) (zpos b) = Rabs (IZR a - IZR b).
Proof.
  unfold zpos, dist. simpl. replace ((IZR a - IZR b) * (IZR a - IZR b) + 0) with (Rsqr (IZR a - IZR b)) by (unfold Rsqr; ring).
  apply sqrt_Rsqr_abs.
Qed.

Lemma zline_query (delta rho : R) (ss : list Z) (g : Z) : (0 <= g)%Z ->
  (forall s, 0 <= s <= IZR g -> exists i z, nth_error ss i = Some z /\ Rabs (IZR z - s) <= rho) ->
  net_query 1 zpos (fun _ => True) free zdist 0 delta rho (IZR g) (fun s => [s]) ss 0%Z g.
Proof.
  intros Hg Hn.
  assert (D1 : forall a b, dist [a] [b] = Rabs (a - b)).
  { intros a b. unfold dist. simpl. replace ((a - b) * (a - b) + 0) with (Rsqr (a - b)) by (unfold Rsqr; ring). apply sqrt_Rsqr_abs. }
  split; [intro p; reflexivity|]. split; [intros p q _; reflexivity|]. split.
  { intros p q. unfold zdist, zpos. rewrite D1, <- minus_IZR, <- abs_IZR.
    replace (Q2R (inject_Z (Z.abs (p - q)))) with (IZR (Z.abs (p - q))) by (unfold Q2R; simpl; field).
    rewrite Rminus_diag_eq, Rabs_R0 by auto. lra. }
  split; [apply IZR_le in Hg; auto|]. split.
  { split; [intros; reflexivity|]. intros s t _ _. rewrite D1. lra. }
  split; [intros s x _ _ _; exact I|]. split; [|split; reflexivity].
  intros s Hs. destruct (Hn s Hs) as (i & z & Ei & Hz). exists i, z. split; auto. unfold zpos. now rewrite D1.
Qed.

Lemma ten_radii : 7 < compute_epsilon_net_radius 10 (Some 1) /\ compute_connection_radius 10 1 < 57 / 2 /\ 14 < net_step 10 1 < 15.
Proof.
  unfold net_step, compute_connection_radius, compute_epsilon_net_radius, alpha_of_tol.
  replace (1 + 1 ^ 2) with 2 by ring.
  assert (H2 : sqrt 2 * sqrt 2 = 2) by (apply sqrt_sqrt; lra).
  assert (P2 : 0 < sqrt 2) by (apply sqrt_lt_R0; lra).
  assert (B : 14 / 10 < sqrt 2 < 142 / 100).
  { split; apply Rnot_le_lt; intro; nra. }
  assert (I2 : / sqrt 2 = sqrt 2 / 2) by (apply (Rmult_eq_reg_l (sqrt 2)); [rewrite Rinv_r; lra|lra]).
  unfold Rdiv. rewrite I2. split; [|split]; lra.
Qed.

(** Four samples at 5, 15, 25, 35; clearance 10, tolerance 1; the query 0 -> 40. *)
Definition net4 : list Z := [5; 15; 25; 35]%Z.
Lemma net4_near rho s : 5 <= rho -> 0 <= s <= IZR 40 -> exists i z, nth_error net4 i = Some z /\ Rabs (IZR z - s) <= rho.
Proof.
  intros Hr Hs. destruct (Rle_dec s 10); [|destruct (Rle_dec s 20); [|destruct (Rle_dec s 30)]].
  - exists 0%nat, 5%Z. split; [reflexivity|]. apply Rabs_le. lra.
  - exists 1%nat, 15%Z. split; [reflexivity|]. apply Rabs_le. lra.
  - exists 2%nat, 25%Z. split; [reflexivity|]. apply Rabs_le. lra.
  - exists 3%nat, 35%Z. split; [reflexivity|]. apply Rabs_le. lra.
Qed.

Definition net4_state := fc_run zdist free (stream net4) sp_enum [FGrow 4] (fc_new 29 0).
Example net_full_conn_stretch_case :
  fc_samples net4_state = Some net4 /\
  net_query 1 zpos (fun _ => True) free zdist 0 10 (compute_epsilon_net_radius 10 (Some 1)) (IZR 40) (fun s => [s]) net4 0%Z 40%Z /\
  compute_connection_radius 10 1 + 0 <= Q2R (fc_conn_r net4_state) /\ net_step 10 1 < IZR 40 /\
  match fst (fc_query zdist free sp_enum net4_state 0%Z 40%Z) with
  | Ok (Some d, path) => (d == 40)%Q /\ path <> []
  | _ => False
  end.
Proof.
  destruct ten_radii as (A & B & C).
  split; [vm_compute; reflexivity|]. split; [|split; [|split; [lra|]]].
  - apply zline_query; [lia|]. intros s Hs. apply net4_near; auto. lra.
  - change (fc_conn_r net4_state) with 29%Q. unfold Q2R. simpl. lra.
  - vm_compute. split; [reflexivity|discriminate].
Qed.

(** The same samples and two far ones through the neighbour-list roadmaps. *)
Definition net6 : list Z := [5; 15; 25; 35; 100; -60]%Z.
Lemma net6_query : net_query 1 zpos (fun _ => True) free zdist 0 10 (compute_epsilon_net_radius 10 (Some 1)) (IZR 40) (fun s => [s]) net6 0%Z 40%Z.
Proof.
  destruct ten_radii as (A & B & C). apply zline_query; [lia|]. intros s Hs.
  destruct (net4_near (compute_epsilon_net_radius 10 (Some 1)) s ltac:(lra) Hs) as (i & z & Ei & Hz).
  exists i, z. split; auto. do 4 (destruct i; [exact Ei|]). destruct i; discriminate.
Qed.

Example net_nn_stretch_case : exists x st cert,
  nn_grow free (stream net6) zann (nn_run zdist free (stream net6) zann sp_enum [] (nn_new 4 false 0)) 6 = (Ok x, st) /\
  nn_samples st = Some net6 /\ nn_cert st = Some cert /\ compute_connection_radius 10 1 + 0 < Q2R cert /\
  nn_conn_r st = None /\
  match fst (nn_query zdist free sp_enum st 0%Z 40%Z) with Ok (Some d, path) => (d == 40)%Q | _ => False end.
Proof.
  destruct ten_radii as (A & B & C).
  do 3 eexists. split; [vm_compute; reflexivity|].
  split; [reflexivity|]. split; [reflexivity|]. split; [unfold Q2R; simpl; lra|]. split; [reflexivity|].
  vm_compute. reflexivity.
Qed.

Example net_radius_stretch_case : exists out st,
  rp_grow free (stream net6) zann 65 (rp_new 29 64 0) 6 = Some (out, st) /\ (6 <= rp_k st)%nat /\
  rp_samples st = Some net6 /\ compute_connection_radius 10 1 + 0 < Q2R 29 /\
  match fst (rp_query zdist free sp_enum st 0%Z 40%Z) with Ok (Some d, path) => (d == 40)%Q | _ => False end.
Proof.
  destruct ten_radii as (A & B & C).
  do 2 eexists. split; [vm_compute; reflexivity|].
  split; [vm_compute; lia|]. split; [reflexivity|]. split; [unfold Q2R; simpl; lra|].
  vm_compute. reflexivity.
Qed.

(** C93.  C91 is false of short queries: the answer always goes through a sample, so for a start
    and goal closer than a net step it can be longer than (1 + tol) times the distance. *)
Theorem net_short_query_stretch_refuted : exists (ss : list Z) r delta tol goal d path,
  0 < delta /\ 0 < tol /\ 0 < IZR goal /\
  fc_samples (fc_run zdist free (stream ss) sp_enum [FGrow (length ss)] (fc_new r 0)) = Some ss /\
  compute_connection_radius delta tol <= Q2R r /\
  net_query 1 zpos (fun _ => True) free zdist 0 delta (compute_epsilon_net_radius delta (Some tol)) (IZR goal) (fun s => [s]) ss 0%Z goal /\
  fst (fc_query zdist free sp_enum (fc_run zdist free (stream ss) sp_enum [FGrow (length ss)] (fc_new r 0)) 0%Z goal) = Ok (Some d, path) /\
  Q2R d > 4 * ((1 + tol) * IZR goal).
Proof.
  destruct ten_radii as (A & B & C).
  exists [5]%Z, 29%Q, 10, 1, 1%Z. do 2 eexists.
  split; [lra|]. split; [lra|]. split; [lra|]. split; [vm_compute; reflexivity|].
  split; [unfold Q2R; simpl; lra|]. split.
  - apply zline_query; [lia|]. intros s Hs. exists 0%nat, 5%Z. split; [reflexivity|]. apply Rabs_le. lra.
  - split; [vm_compute; reflexivity|]. unfold Q2R. simpl. lra.
Qed.
Print Assumptions net_short_query_stretch_refuted.

