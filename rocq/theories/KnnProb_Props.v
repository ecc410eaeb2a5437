(** Property C133: the k-nearest-neighbour roadmap of prm.py over random samples, with bound.py's
    sample count and a tail bound for its neighbour count. *)
From Coq Require Import Reals List Arith Lra Lia Bool ZArith QArith Qreals Sorted.
From Verif Require Import Prob Geom_Spec Geom_Proofs Search_Model Bound_Model Bound_Spec Bound_Proofs Bound_Proofs2 Bound_Props Vc_Props EpsNet_Props
  NkGraph_Model NkGraph_Spec Prm_Model Prm_Spec Sp_Oracle PrmEx PrmAnn_Inst PrmNn_Proofs PrmNn_Props Net_Spec Net_Proofs Net_Props NetProb_Props Tail_Props.
Import ListNotations.
Close Scope Q_scope.
Open Scope R_scope.

(** *** Counting others by their places *)
Definition at_place {A} (f : A -> bool) (l : list A) (j : nat) : bool := match nth_error l j with Some q => f q | None => false end.
Lemma count_places {A} (f : A -> bool) l : count f l = length (filter (at_place f l) (seq 0 (length l))).
Proof.
  unfold count. induction l as [|x l IH]; auto. cbn [length seq filter]. rewrite <- seq_shift.
  assert (E : forall js, length (filter (at_place f (x :: l)) (map S js)) = length (filter (at_place f l) js)).
  { induction js as [|j js IHj]; auto. cbn [map filter]. change (at_place f (x :: l) (S j)) with (at_place f l j). destruct (at_place f l j); cbn [length]; auto. }
  change (at_place f (x :: l) 0) with (f x). destruct (f x); cbn [length]; rewrite E, IH; auto.
Qed.
Lemma places_le {A} (f : A -> bool) l js : NoDup js -> (forall j, In j js -> exists q, nth_error l j = Some q /\ f q = true) -> (length js <= count f l)%nat.
Proof.
  intros N H. rewrite count_places. apply NoDup_incl_length; auto. intros j Ij. destruct (H j Ij) as (q & E & F).
  apply filter_In. split; [apply in_seq; split; [lia|]; simpl; apply nth_error_Some; congruence|]. unfold at_place. now rewrite E.
Qed.
Lemma others_places {A} (f : A -> bool) l u js : NoDup js -> (u < length l)%nat ->
  (forall j, In j js -> j <> u /\ exists q, nth_error l j = Some q /\ f q = true) -> (length js <= count f (others u l))%nat.
Proof.
  intros N Hu H. set (sh := fun j => if (j <? u)%nat then j else (j - 1)%nat). rewrite <- (map_length sh js). apply places_le.
  - clear Hu. induction N as [|j js Nj N IH]; [constructor|]. simpl. constructor.
    + intro I. apply in_map_iff in I as (i & E & Ii). destruct (H j (or_introl eq_refl)) as [Hj _]. destruct (H i (or_intror Ii)) as [Hi _].
      assert (i = j); [|congruence]. unfold sh in E. destruct (Nat.ltb_spec i u), (Nat.ltb_spec j u); lia.
    + apply IH. intros i Ii. apply H. now right.
  - intros j' I. apply in_map_iff in I as (j & <- & Ij). destruct (H j Ij) as (Hj & q & E & F). exists q. split; auto.
    unfold others, sh. destruct (Nat.ltb_spec j u) as [L|L].
    + rewrite nth_error_app1 by (rewrite firstn_length; lia). rewrite <- E. rewrite <- (firstn_skipn u l) at 2. rewrite nth_error_app1; auto. rewrite firstn_length. lia.
    + assert (Lj : (j < length l)%nat) by (apply nth_error_Some; congruence).
      rewrite nth_error_app2 by (rewrite firstn_length; lia). rewrite firstn_length. rewrite <- E. rewrite <- (firstn_skipn (S u) l) at 3.
      rewrite nth_error_app2 by (rewrite firstn_length; lia). rewrite firstn_length. f_equal. lia.
Qed.
(** *** The certified radius *)
Lemma last_dist_some row : row <> [] -> exists d, last_dist row = Some d /\ exists v, In (v, d) row /\ exists l, row = l ++ [(v, d)].
Proof.
  intro N. destruct row as [|e l] eqn:E; [congruence|]. cbn [last_dist]. eexists. split; [reflexivity|].
  rewrite <- E. assert (L : last l e = last (e :: l) e) by (destruct l; reflexivity).
  rewrite L. exists (fst (last (e :: l) e)). rewrite <- surjective_pairing. rewrite E in *.
  pose proof (@app_removelast_last _ (e :: l) e N) as A. split; [rewrite A at 2; apply in_or_app; right; now left|]. exists (removelast (e :: l)). exact A.
Qed.
Lemma min_last_some : forall nn, nn <> [] -> (forall row, In row nn -> row <> []) -> exists cert, min_last nn = Some cert /\ exists row, In row nn /\ last_dist row = Some cert.
Proof.
  induction nn as [|row nn IH]; intros N H; [congruence|]. destruct (last_dist_some row (H row (or_introl eq_refl))) as (d & Ed & _).
  destruct nn as [|row' nn]; [exists d; split; auto; exists row; split; auto; now left|].
  destruct IH as (c & Ec & r & Ir & Er); [discriminate|intros; apply H; now right|].
  change (min_last (row :: row' :: nn)) with (match last_dist row, min_last (row' :: nn) with Some a, Some b => Some (if Qle_bool a b then a else b) | _, _ => None end).
  rewrite Ed, Ec. destruct (Qle_bool d c); eexists; (split; [reflexivity|]); [exists row|exists r]; split; auto; [now left|now right].
Qed.
Lemma sorted_last (l : list (nat * Q)) v d : Sorted (fun a b => (snd a <= snd b)%Q) (l ++ [(v, d)]) -> forall x, In x (l ++ [(v, d)]) -> (snd x <= d)%Q.
Proof.
  intro S. apply Sorted_StronglySorted in S; [|intros a b c; apply Qle_trans].
  induction l as [|a l IH]; intros x I.
  - destruct I as [<-|[]]. apply Qle_refl.
  - cbn [app] in *. inversion S as [|? ? S' F]; subst. destruct I as [<-|I]; [|now apply IH]. rewrite Forall_forall in F. apply (F (v, d)). apply in_or_app. right. now left.
Qed.

Section Knn.
  Context {P : Type}.
  Variable dst : P -> P -> Q.
  Variable check : P -> P -> bool.
  Variable ann : list P -> nat -> rows.
  Variable sp : sp_oracle.
  Hypothesis dst_nonneg : forall p q, (0 <= dst p q)%Q.
  Hypothesis dst_sym : forall p q, (dst p q == dst q p)%Q.
  Hypothesis SP : sp_correct sp.
  Hypothesis ANX : ann_exact dst ann.
  (** a new roadmap with [k] neighbours, grown to the drawn samples *)
  Definition knn_grow (k : nat) (trunc : bool) (p0 : P) (t : list P) : res (option Q) * nn_state :=
    nn_grow check (feed p0 t) ann (nn_new k trunc 0) (length t).

  Lemma knn_grow_ok k trunc p0 t : (1 <= k < length t)%nat -> exists x cert, fst (knn_grow k trunc p0 t) = Ok x /\
    let st := snd (knn_grow k trunc p0 t) in nn_samples st = Some t /\ nn_cert st = Some cert /\ (forall r, nn_conn_r st = Some r -> r = cert) /\
    min_last (ann t k) = Some cert.
  Proof.
    intro Hk. set (ANN := exact_shape dst ann ANX). unfold knn_grow.
    assert (Em : exists cert, min_last (ann t k) = Some cert).
    { destruct (ANN t k) as (Ln & Lr & _). destruct (min_last_some (ann t k)) as (cert & E & _); [| |eauto].
      - intro E. rewrite E in Ln. simpl in Ln. lia.
      - intros row I E. specialize (Lr row I). rewrite E in Lr. simpl in Lr. lia. }
    destruct Em as [cert Em]. unfold nn_grow. cbn [nn_new nn_samples nn_next nn_max_k nn_k nn_conn_r nn_trunc nn_cert nn_graph nn_master nn_cache].
    assert (D : draw (feed p0 t) 1 (length t) = t) by (unfold draw; apply feed_all). rewrite D.
    match goal with |- context [nn_rebuild check ann ?s t ?nx (length t)] => set (st0 := s); set (next := nx) end.
    assert (Ek : Nat.min (length t - 1) (nn_k st0) = k) by (simpl; lia).
    assert (Ok1 : exists x st1, nn_rebuild check ann st0 t next (length t) = (Ok x, st1)).
    { unfold nn_rebuild. rewrite Ek. destruct (shape_to_graph dst check t _ (ann t k) 0 None (ANN t k)) as (g & Eg & _). rewrite Eg, Em.
      destruct (nn_trunc st0); [|eauto]. unfold nn_set_radius. simpl. eauto. }
    destruct Ok1 as (x & st1 & E). exists x, cert. rewrite E. cbn [fst snd]. split; auto.
    apply (nn_rebuild_ok dst check (feed p0 t) ann ANN) in E. destruct E as (cert' & c & A1 & A2 & _ & _ & A4 & _ & _ & _ & F1 & F2 & _).
    rewrite Ek in A4. assert (cert' = cert) by congruence. subst cert'. split; auto. split; auto. split; auto.
    intros r Er. destruct (nn_trunc st0) eqn:Et; [destruct (F2 eq_refl) as (_ & C & _); congruence|destruct (F1 eq_refl) as (_ & C & _); congruence].
  Qed.

  (** If no sample has [k] others within [rad], the certified radius exceeds it (up to the distances' error). *)
  Lemma uncrowded_cert pos eta rad k t cert : (1 <= k < length t)%nat -> distances_within pos dst eta -> ~ crowded pos rad k t ->
    min_last (ann t k) = Some cert -> rad - eta < Q2R cert.
  Proof.
    intros Hk Di N Em. apply Rnot_le_lt. intro Le. apply N. clear N.
    destruct (ANX t k) as ((Ln & Lr & _ & Dd) & X).
    assert (Row : exists row, In row (ann t k) /\ last_dist row = Some cert).
    { destruct (min_last_some (ann t k)) as (c & E & G); [intro E; rewrite E in Em; discriminate| |assert (c = cert) by congruence; now subst c].
      intros row I E. specialize (Lr row I). rewrite E in Lr. simpl in Lr. lia. }
    destruct Row as (row & I & El). apply In_nth_error in I as [u Eu].
    assert (Lu : (u < length t)%nat) by (rewrite <- Ln; apply nth_error_Some; congruence).
    destruct (nth_error t u) as [p|] eqn:Ep; [|apply nth_error_None in Ep; lia].
    destruct (X u row Eu) as (Nd & Nu & So & _).
    assert (Lrow : length row = k) by (rewrite (Lr row) by (eapply nth_error_In; eauto); lia).
    assert (Nr : row <> []) by (intro E; rewrite E in Lrow; simpl in Lrow; lia).
    destruct (last_dist_some row Nr) as (d & Ed & v & _ & l & Erow). assert (d = cert) by congruence. subst d.
    exists u, p. split; auto. rewrite <- Lrow, <- (map_length fst row). apply others_places; auto.
    intros j Ij. apply in_map_iff in Ij as ((j' & dj) & E & Ij). simpl in E. subst j'. split; [intro; subst j; apply Nu, in_map_iff; exists (u, dj); auto|].
    apply In_nth_error in Ij as [i Ei]. destruct (Dd u j i dj) as (p' & q & Ep' & Eq & Edj); [exists row; auto|].
    assert (p' = p) by congruence. subst p'. exists q. split; auto.
    assert (Lj : (dj <= cert)%Q).
    { rewrite Erow in So, Ei. apply (sorted_last l v cert So (j, dj)). eapply nth_error_In; eauto. }
    rewrite Edj in Lj. apply Qle_Rle in Lj. specialize (Di p q). unfold in_ball. destruct (Rle_dec _ _) as [Y|Y]; auto. exfalso. apply Y.
    rewrite dist_sym. apply Rabs_def2 in Di || (pose proof (Rle_abs (- (Q2R (dst p q) - dist (pos p) (pos q)))) as A; rewrite Rabs_Ropp in A; lra).
  Qed.

  (** Every clear query is answered within the tolerance, except with the probability that the samples
      are not a net plus the probability that some sample has [k] others within the radius. *)
  Theorem knn_success_probability : forall dim pos free X eta delta tol prob vol fuel z conn_r rad k trunc p0 m,
    0 < delta -> 0 < tol -> 0 < vol ->
    compute_numerical_bound delta prob vol dim (Some tol) fuel = Some (Ret z, conn_r) -> (z <= Z.of_nat m)%Z -> (1 <= k < m)%nat ->
    coordinates dim pos -> accepts_free_motions pos free check -> distances_within pos dst eta ->
    fair_balls dim pos X vol (compute_epsilon_net_radius delta (Some tol)) (clear_point dim free delta) ->
    sparse_balls dim pos X vol rad -> 0 < rad -> conn_r + 2 * eta <= rad ->
    event_at_most X m (fun t => exists start goal L, clear_query dim pos free delta L start goal /\
      ~ exists d path, fst (nn_query dst check sp (snd (knn_grow k trunc p0 t)) start goal) = Ok (Some d, path) /\ stretch_bound delta tol eta L (Q2R d))
      (1 - prob + exp_ext (compute_tail_knn_radius_log_prob_chernoff_kl (Z.of_nat m) (Z.of_nat k) rad dim vol true)).
  Proof.
    intros dim pos free X eta delta tol prob vol fuel z conn_r rad k trunc p0 m Hd Ht Hv B Hm Hk Co Ac Di Fb Sp Hr Hc bad Hb.
    set (cr := fun t => existsb (fun i => crowded_at_b pos rad k i t) (seq 0 (length t))).
    assert (Cr : forall t, cr t = true <-> crowded pos rad k t).
    { intro t. unfold cr. rewrite existsb_exists. split.
      - intros (i & _ & H). exists i. now apply crowded_at_bool.
      - intros (i & H). exists i. split; [|now apply crowded_at_bool]. destruct H as (p & E & _). apply in_seq. split; [lia|]. simpl. apply nth_error_Some. congruence. }
    apply (probability_mono X m (fun t => (bad t && negb (cr t)) || (bad t && cr t)) bad (1 - prob + exp_ext (compute_tail_knn_radius_log_prob_chernoff_kl (Z.of_nat m) (Z.of_nat k) rad dim vol true)));
      [intros t _ Bt; rewrite Bt; destruct (cr t); reflexivity|apply Rle_refl|].
    apply probability_or.
    - apply (numerical_bound_net P dim pos X (clear_point dim free delta) delta prob vol (Some tol) fuel z conn_r m B Hm Fb).
      intros t D Bt. apply andb_true_iff in Bt as [Bt Nc]. assert (NC : ~ crowded pos rad k t) by (rewrite <- Cr; destruct (cr t); [discriminate|congruence]).
      destruct (Hb t D Bt) as (start & goal & L & (c & L0 & Cu & Cl & S0 & SL) & N).
      apply (not_net_along dim pos free delta _ L c); auto. intro NA. apply N. destruct D as [Lt _].
      destruct (knn_grow_ok k trunc p0 t) as (x & cert & Eo & Es & Ec & Er & Em); [lia|].
      assert (Gr : nn_grow check (feed p0 t) ann (nn_run dst check (feed p0 t) ann sp [] (nn_new k trunc 0)) (length t) = (Ok x, snd (knn_grow k trunc p0 t))).
      { change (knn_grow k trunc p0 t = (Ok x, snd (knn_grow k trunc p0 t))). rewrite <- Eo. apply surjective_pairing. }
      assert (Hcert : compute_connection_radius delta tol + eta < Q2R cert).
      { apply connection_radius_formulas_agree in B. rewrite <- B. pose proof (uncrowded_cert pos eta rad k t cert ltac:(lia) Di NC Em). lra. }
      apply (net_nn_stretch dst check (feed p0 t) ann sp dst_nonneg dst_sym SP ANX dim pos free eta delta tol L c start goal k trunc 0 [] (length t) x _ [] t cert Hd Ht Gr (Forall_nil _) Es Ec); auto.
      + do 8 (split; auto).
      + intros r E. apply Er in E. now subst r.
    - apply (chernoff_kl_bound_sound P dim pos X vol rad m k); auto; [lia|]. intros t D Bt. apply andb_true_iff in Bt as [_ C]. now apply Cr.
  Qed.
End Knn.
Print Assumptions knn_success_probability.

(** *** Example: the integers 0..200 on a line, clearance ten, tolerance one, seven hundred draws, 350
    neighbours, radius 29.9 *)
Lemma line200_fair : fair_balls 1 zcoord (zrange 201) (2034 / 10) (compute_epsilon_net_radius 10 (Some 1)) (clear_point 1 (stretch 200) 10).
Proof.
  assert (E : 7 < compute_epsilon_net_radius 10 (Some 1) < 70717 / 10000).
  { split; [apply ten_radius|]. unfold compute_epsilon_net_radius, alpha_of_tol. replace (1 + 1 ^ 2) with 2 by ring.
    assert (H2 : sqrt 2 * sqrt 2 = 2) by (apply sqrt_sqrt; lra). assert (P2 : 0 < sqrt 2) by (apply sqrt_lt_R0; lra).
    assert (I2 : / sqrt 2 = sqrt 2 / 2) by (apply (Rmult_eq_reg_l (sqrt 2)); [rewrite Rinv_r; lra|lra]).
    assert (B2 : sqrt 2 < 141425 / 100000) by (apply Rnot_le_lt; intro; nra). unfold Rdiv at 1. rewrite I2. lra. }
  set (e := compute_epsilon_net_radius 10 (Some 1)) in *. split; [reflexivity|].
  intros c Hc. apply clear_between in Hc as (x & -> & Hx). split; [reflexivity|]. unfold share_at_least. simpl unit_ball_volume.
  assert (N : INR 201 = 201) by (rewrite INR_IZR_INZ; reflexivity).
  assert (C : (14 <= count (fun z => in_ball [x] e (zcoord z)) (zrange 201))%nat) by (apply zrange_share; rewrite ?N; simpl INR; lra).
  apply le_INR in C. apply Rle_trans with (INR 14); auto. unfold zrange. rewrite map_length, seq_length, N.
  replace (INR 14) with 14 by (simpl; lra). simpl pow. lra.
Qed.
Lemma line200_sparse : sparse_balls 1 zcoord (zrange 201) (2034 / 10) (299 / 10).
Proof.
  intros x _. unfold zrange at 2. rewrite map_length, seq_length. assert (N : INR 201 = 201) by (rewrite INR_IZR_INZ; reflexivity). rewrite N. simpl unit_ball_volume.
  assert (C : (count (fun q => in_ball (zcoord x) (299 / 10) (zcoord q)) (zrange 201) <= 59)%nat).
  { unfold count. replace 59%nat with (length (map (fun i => (x - 29 + Z.of_nat i)%Z) (seq 0 59))) by (now rewrite map_length, seq_length).
    apply NoDup_incl_length.
    - apply NoDup_filter. unfold zrange. apply FinFun.Injective_map_NoDup; [intros i j; lia|apply seq_NoDup].
    - intros q I. apply filter_In in I as [_ I]. rewrite zball, <- abs_IZR in I. assert (L : (Z.abs (q - x) < 30)%Z) by (apply lt_IZR; lra).
      apply in_map_iff. exists (Z.to_nat (q - x + 29)). split; [lia|]. apply in_seq. lia. }
  apply le_INR in C. replace (INR 59) with 59 in C by (rewrite INR_IZR_INZ; reflexivity). simpl pow. lra.
Qed.
Lemma line200_returns : exists z conn_r, compute_numerical_bound 10 (1 / 2) (2034 / 10) 1 (Some 1) 1000 = Some (Ret z, conn_r) /\ (z <= 700)%Z.
Proof.
  assert (Rho : 14 / (2034 / 10) <= ball_measure 10 (Some 1) 1 (2034 / 10)).
  { unfold ball_measure. pose proof ten_radius as E. unfold compute_epsilon_net_radius, alpha_of_tol in E. replace (1 + 1 ^ 2) with (1 + 1 * 1) in E by ring. simpl. lra. }
  assert (B : net_failure_bound (ball_measure 10 (Some 1) 1 (2034 / 10)) (1 + 1) 700 <= 1 - 1 / 2).
  { unfold net_failure_bound. rewrite <- psum_spec. replace (psum (2 * 700) (1 + 1)) with 980701%Z by (vm_compute; reflexivity).
    apply Rle_trans with (2 * 980701 * Rpower 2 (- INR 24)).
    - apply Rmult_le_compat_l; [lra|]. apply Rle_Rpower; [lra|]. replace (INR 700) with 700 by (rewrite INR_IZR_INZ; reflexivity). replace (INR 24) with 24 by (simpl; lra). lra.
    - rewrite Rpower_Ropp, Rpower_pow by lra. simpl pow. lra. }
  destruct (numerical_bound_outcomes 10 (1 / 2) (2034 / 10) 1 (Some 1) 1000 ltac:(lra) (le_n _)) as [[_ H] _].
  destruct H as [z Hz]; [exists 700%nat; split; [lia|apply B]|].
  destruct (compute_numerical_bound 10 (1 / 2) (2034 / 10) 1 (Some 1) 1000) as [[s conn_r]|] eqn:E; [|discriminate].
  simpl in Hz. injection Hz as ->. exists z, conn_r. split; auto.
  destruct (numerical_bound_least _ _ _ _ _ _ _ _ E) as (n & -> & Hn & _ & _ & Hl). destruct (le_lt_dec n 700); [lia|]. specialize (Hl 700%nat ltac:(lia)). lra.
Qed.
Lemma line200_tail : exp_ext (compute_tail_knn_radius_log_prob_chernoff_kl (Z.of_nat 700) (Z.of_nat 350) (299 / 10) 1 (2034 / 10) true) <= 1 / 4.
Proof.
  unfold compute_tail_knn_radius_log_prob_chernoff_kl. rewrite model_share. simpl unit_ball_volume.
  replace (Z.of_nat 700) with 700%Z by reflexivity. replace (Z.of_nat 350) with 350%Z by reflexivity.
  replace (2 * (299 / 10) ^ 1 / (2034 / 10)) with (598 / 2034) by field. rewrite Rmin_left by lra.
  replace (350 / 700) with (1 / 2) by field. rewrite Rmax_left by lra. replace (598 / 2034 + (1 / 2 - 598 / 2034)) with (1 / 2) by ring.
  unfold entropy2, rel_entr. destruct (Rlt_dec 0 (1 / 2)); [|lra]. destruct (Rlt_dec 0 (598 / 2034)); [|lra]. destruct (Rlt_dec 0 (1 - 1 / 2)); [|lra].
  destruct (Rlt_dec 0 (1 - 598 / 2034)); [|lra]. cbn [exp_ext].
  set (a := 1 / 2 / (598 / 2034)). set (b := (1 - 1 / 2) / (1 - 598 / 2034)).
  assert (A0 : 0 < a) by (unfold a; lra). assert (B0 : 0 < b) by (unfold b; lra).
  assert (AB : ln a + ln b >= 1 / 10).
  { rewrite <- ln_mult by auto. assert (L : - ln (a * b) <= / (a * b) - 1).
    { rewrite <- ln_Rinv by nra. assert (I : 0 < / (a * b)) by (apply Rinv_0_lt_compat; nra). pose proof (exp_ineq1_le (ln (/ (a * b)))) as X. rewrite exp_ln in X by auto. lra. }
    assert (/ (a * b) <= 9 / 10) by (replace (/ (a * b)) with (598 / 2034 * (1 - 598 / 2034) * 4) by (unfold a, b; field; lra); lra). lra. }
  assert (E16 : exp (- (16)) < 1 / 65536).
  { replace (- (16)) with (- (8) + - (8)) by ring. rewrite exp_plus. pose proof exp_m8. pose proof (exp_pos (- (8))). nra. }
  apply Rle_trans with (exp (ln 700 + - (16))); [left; apply exp_increasing; lra|]. rewrite exp_plus, exp_ln by lra. lra.
Qed.
Example line200_success : clear_query 1 zcoord (stretch 200) 10 20 10%Z 30%Z /\
  event_at_most (zrange 201) 700 (fun t => exists start goal L, clear_query 1 zcoord (stretch 200) 10 L start goal /\
    ~ exists d path, fst (nn_query zdist (check_to 200) sp_enum (snd (knn_grow (check_to 200) zann 350 false 0%Z t)) start goal) = Ok (Some d, path) /\
      stretch_bound 10 1 0 L (Q2R d)) (3 / 4).
Proof.
  split; [apply line_query; lia|]. destruct line200_returns as (z & conn_r & E & Hz). destruct (line_space 200) as (Co & Ac & Di).
  eapply event_mono; [eapply (knn_success_probability zdist (check_to 200) zann sp_enum zdist_nonneg zdist_sym sp_enum_correct (brute_ann_exact zdist) 1 zcoord (stretch 200) (zrange 201) 0 10 1 (1 / 2) (2034 / 10) 1000 z conn_r
    (299 / 10) 350 false 0%Z 700 ltac:(lra) ltac:(lra) ltac:(lra) E ltac:(lia) ltac:(lia) Co Ac Di line200_fair line200_sparse ltac:(lra)) | auto | pose proof line200_tail; lra].
  apply connection_radius_formulas_agree in E. subst conn_r. destruct ten_radii as (_ & C & _). lra.
Qed.
