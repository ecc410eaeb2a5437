(** Proofs about NarrowTab_Model.v *)
From Coq Require Import ZArith Reals List Bool Arith Lra Lia.
From Verif Require Import Search_Model Bound_Model Bound_Spec Bound_Proofs Bound_Proofs2 Notebook_Spec Notebook_Proofs NotebookBatch_Props Geom_Model Geom_Props NarrowTab_Model NarrowTab_Spec.
Import ListNotations.
Open Scope R_scope.

Lemma Rleb_iff a b : Rleb a b = true <-> a <= b.
Proof. unfold Rleb. destruct (Rle_dec a b); split; intros; try assumption; try reflexivity; try discriminate; contradiction. Qed.
Lemma isclose_iff a b : isclose a b = true <-> near a b.
Proof. apply Rleb_iff. Qed.
Lemma prm_eqb_iff a b : prm_eqb a b = true <-> a = b.
Proof. destruct a, b; cbn; split; intros; try reflexivity; discriminate. Qed.
Lemma key_eqb_iff a b : key_eqb a b = true <-> a = b.
Proof.
  unfold key_eqb. rewrite !andb_true_iff, prm_eqb_iff, !Nat.eqb_eq. destruct a as [t x d n], b as [t' x' d' n']; cbn. destruct (Req_EM_T x x') as [E|E].
  - split; [intros (((A & _) & B) & C); congruence|intros [=]; tauto].
  - split; [intros (((_ & F) & _) & _); discriminate F|intros [=]; contradiction].
Qed.
Lemma near_refl a : near a a.
Proof. unfold near. rewrite Rminus_diag_eq, Rabs_R0 by reflexivity. pose proof (Rabs_pos a). lra. Qed.

(** ** Rates *)
Lemma counts_filter {A} (P : A -> Prop) (f : A -> bool) l : (forall x, f x = true <-> P x) -> counts P l (length (filter f l)).
Proof.
  intros H. induction l as [|x l IH]; cbn [filter]; [constructor|]. destruct (f x) eqn:E; cbn [length].
  - constructor; [now apply H|assumption].
  - constructor; [intros C; apply H in C; congruence|assumption].
Qed.
Lemma counts_fun {A} (P : A -> Prop) l n : counts P l n -> forall m, counts P l m -> n = m.
Proof. induction 1; intros m Hm; inversion Hm; subst; auto; try contradiction. Qed.
Lemma counts_le {A} (P Q : A -> Prop) l n : (forall x, P x -> Q x) -> counts P l n -> forall m, counts Q l m -> (n <= m)%nat.
Proof.
  intros S. induction 1 as [|x l n Px H IH|x l n Px H IH]; intros m Hm.
  - lia.
  - inversion Hm as [|y l' n' Qx Hq|y l' n' Qx Hq]; subst; [apply le_n_S; auto|destruct (Qx (S _ Px))].
  - inversion Hm as [|y l' n' Qx Hq|y l' n' Qx Hq]; subst; [specialize (IH _ Hq); lia|auto].
Qed.
Lemma counts_in {A} (P : A -> Prop) l n : counts P l n -> ((0 < n)%nat <-> exists x, In x l /\ P x).
Proof.
  induction 1 as [|x l n Px H IH|x l n Px H IH].
  - split; [lia|intros (x & [] & _)].
  - split; [intros _; exists x; split; [now left|assumption]|lia].
  - rewrite IH. split; [intros (y & I & Q); exists y; split; [now right|assumption]|]. intros (y & [->|I] & Q); [contradiction|eauto].
Qed.
Lemma rate_fun out t delta d n x p q : rate out t delta d n x p -> rate out t delta d n x q -> p = q.
Proof.
  intros (a & b & B & A & _ & ->) (a' & b' & B' & A' & _ & ->). rewrite (counts_fun _ _ _ B _ B'), (counts_fun _ _ _ A _ A'). reflexivity.
Qed.
Lemma rate_range out t delta d n x p : rate out t delta d n x p -> 0 <= p <= 1.
Proof.
  intros (a & b & B & A & Pb & ->). assert (a <= b)%nat by (eapply counts_le; [|exact A|exact B]; intros r (Q & _); exact Q).
  apply le_INR in H. apply lt_INR in Pb. change (INR 0) with 0 in Pb. pose proof (pos_INR a).
  split; [apply Rmult_le_pos; [assumption|left; now apply Rinv_0_lt_compat]|]. apply Rmult_le_reg_r with (INR b); [assumption|]. unfold Rdiv. rewrite Rmult_assoc, Rinv_l; lra.
Qed.
Lemma rate_mono out t delta d n x y p q : x <= y -> rate out t delta d n x p -> rate out t delta d n y q -> p <= q.
Proof.
  intros L (a & b & B & A & Pb & ->) (a' & b' & B' & A' & _ & ->). rewrite (counts_fun _ _ _ B' _ B).
  assert (a <= a')%nat. { eapply counts_le; [|exact A|exact A']. intros r (Q & u & E & U). split; [assumption|]. exists u. split; [assumption|lra]. }
  apply le_INR in H. apply lt_INR in Pb. change (INR 0) with 0 in Pb. apply Rmult_le_compat_r; [left; now apply Rinv_0_lt_compat|assumption].
Qed.

Lemma row_iff k r : (prm_eqb (r_type r) (k_type k) && (r_dim r =? k_dim k)%nat && isclose (r_clear r) (k_clear k) && (r_n r =? k_n k)%nat)%bool = true <->
  ran (k_type k) (k_clear k) (k_dim k) (k_n k) r.
Proof. rewrite !andb_true_iff, prm_eqb_iff, !Nat.eqb_eq, isclose_iff. unfold ran. tauto. Qed.
Lemma above_iff x r : above x r = true <-> solved x r.
Proof.
  unfold above, solved. destruct (r_ub r) as [u|]; [rewrite Rleb_iff|]; split; intros H; try discriminate H; eauto.
  - destruct H as (v & [=] & L). subst. assumption.
  - destruct H as (v & [=] & L).
Qed.
Lemma filter_and {A} (f g : A -> bool) l : filter g (filter f l) = filter (fun x => (f x && g x)%bool) l.
Proof. induction l as [|x l IH]; cbn [filter]; [reflexivity|]. destruct (f x); cbn [filter andb]; rewrite ?IH; reflexivity. Qed.
Lemma rate_rows out k x : mc_trial_rows out k <> [] ->
  rate out (k_type k) (k_clear k) (k_dim k) (k_n k) x (INR (length (filter (above x) (mc_trial_rows out k))) / INR (length (mc_trial_rows out k))).
Proof.
  intros N. exists (length (filter (above x) (mc_trial_rows out k))), (length (mc_trial_rows out k)). split; [|split; [|split; [|reflexivity]]].
  - apply counts_filter. intros r. apply row_iff.
  - unfold mc_trial_rows. rewrite filter_and. apply counts_filter. intros r. rewrite andb_true_iff, row_iff, above_iff. tauto.
  - destruct (mc_trial_rows out k); [contradiction|cbn; lia].
Qed.
Lemma estimates_some c out k es : estimates c out k = Some es -> mc_trial_rows out k <> [] /\
  es = map (fun x => INR (length (filter (above x) (mc_trial_rows out k))) / INR (length (mc_trial_rows out k))) (conns c (k_type k)).
Proof. unfold estimates. destruct (mc_trial_rows out k) as [|r l] eqn:E; [discriminate|]. intros [=]. split; [discriminate|]. subst. reflexivity. Qed.
Lemma estimates_nth c out k es i x : estimates c out k = Some es -> nth_error (conns c (k_type k)) i = Some x ->
  exists p, nth_error es i = Some p /\ rate out (k_type k) (k_clear k) (k_dim k) (k_n k) x p.
Proof.
  intros E N. apply estimates_some in E as (R0 & ->). eexists. split; [apply map_nth_error; exact N|]. now apply rate_rows.
Qed.
Lemma estimates_nth' c out k es i p : estimates c out k = Some es -> nth_error es i = Some p ->
  exists x, nth_error (conns c (k_type k)) i = Some x /\ rate out (k_type k) (k_clear k) (k_dim k) (k_n k) x p.
Proof.
  intros E N. destruct (nth_error (conns c (k_type k)) i) as [x|] eqn:X.
  - destruct (estimates_nth _ _ _ _ _ _ E X) as (q & Q & R0). exists x. split; [reflexivity|]. congruence.
  - apply nth_error_None in X. apply estimates_some in E as (_ & ->).
    assert (nth_error (map (fun x => INR (length (filter (above x) (mc_trial_rows out k))) / INR (length (mc_trial_rows out k))) (conns c (k_type k))) i = None) as F by (apply nth_error_None; now rewrite map_length).
    congruence.
Qed.
Lemma estimates_none c out k : estimates c out k = None <-> forall r, In r out -> ~ ran (k_type k) (k_clear k) (k_dim k) (k_n k) r.
Proof.
  unfold estimates, mc_trial_rows. split.
  - intros H r I Q. apply row_iff in Q. assert (F : In r (filter (fun r => (prm_eqb (r_type r) (k_type k) && (r_dim r =? k_dim k)%nat && isclose (r_clear r) (k_clear k) && (r_n r =? k_n k)%nat)%bool) out)) by (apply filter_In; auto).
    destruct (filter _ out); [destruct F|discriminate H].
  - intros H. destruct (filter _ out) as [|r l] eqn:E; [reflexivity|]. exfalso. assert (F : In r (r :: l)) by now left. rewrite <- E in F. apply filter_In in F as (I & Q). apply row_iff in Q. eapply H; eassumption.
Qed.

(** ** Rows of the frame *)
Lemma nth_combine {A B} (l : list A) (l' : list B) i a b : nth_error (combine l l') i = Some (a, b) <-> nth_error l i = Some a /\ nth_error l' i = Some b.
Proof.
  revert l l'. induction i as [|i IH]; intros [|x l] [|y l']; cbn; try (split; [discriminate|intros (H & H'); discriminate]).
  - split; [intros [=]; subst; auto|intros ([=] & [=]); subst; reflexivity].
  - apply IH.
Qed.
Lemma entries_in k th ps xs zs e : In e (entries k th ps xs zs) -> exists i p x z, nth_error ps i = Some p /\ nth_error xs i = Some x /\ nth_error zs i = Some z /\
  e = mkEntry p x th (k_n k) z (k_type k) (k_clear k) (k_dim k).
Proof.
  unfold entries. rewrite in_map_iff. intros (((p & x) & z) & <- & I). apply In_nth_error in I as (i & I). apply nth_combine in I as (I & Z). apply nth_combine in I as (P & X). exists i, p, x, z. auto.
Qed.
Lemma entries_has k th ps xs zs i p x z : nth_error ps i = Some p -> nth_error xs i = Some x -> nth_error zs i = Some z ->
  In (mkEntry p x th (k_n k) z (k_type k) (k_clear k) (k_dim k)) (entries k th ps xs zs).
Proof.
  intros P X Z. unfold entries. apply in_map_iff. exists ((p, x), z). split; [reflexivity|]. apply nth_error_In with i. apply nth_combine. split; [|assumption]. now apply nth_combine.
Qed.
Lemma search_all_nth fuel : forall fs sps zs, search_all fs sps fuel = Ok zs -> forall i z, nth_error zs i = Some z ->
  exists f sp, nth_error fs i = Some f /\ nth_error sps i = Some sp /\ search f (sp - machine_eps) fuel = Ok z.
Proof.
  induction fs as [|f fs IH]; intros [|sp sps] zs H i z Z; cbn [search_all] in H; try (injection H as <-; destruct i; discriminate Z).
  destruct (search f _ fuel) as [z0|] eqn:S; [|discriminate H]. cbn [bind] in H. destruct (search_all fs sps fuel) as [l|] eqn:E; [|discriminate H]. cbn [bind] in H. injection H as <-.
  destruct i as [|i]; cbn in Z |- *; [injection Z as <-; eauto|]. eapply IH; eassumption.
Qed.
Lemma search_all_length fuel : forall fs sps zs, search_all fs sps fuel = Ok zs -> length zs = Nat.min (length fs) (length sps).
Proof.
  induction fs as [|f fs IH]; intros [|sp sps] zs H; cbn [search_all] in H; try (injection H as <-; reflexivity).
  destruct (search f _ fuel) as [z0|] eqn:S; [|discriminate H]. cbn [bind] in H. destruct (search_all fs sps fuel) as [l|] eqn:E; [|discriminate H]. cbn [bind] in H. injection H as <-.
  cbn [length Nat.min]. f_equal. eauto.
Qed.
Lemma search_least rho vc sp fuel z : -1 < sp < 1 -> search (fun ns => compute_sauer_shelah_bound_log2 ns rho vc) sp fuel = Ok z -> least_count rho vc (1 - sp) z.
Proof.
  intros S H. unfold search, doubling_sample_search_over_log2_prob_bound in H. destruct (doubling_search _ _ _ _ fuel) as [z0| | |] eqn:E; try discriminate H. injection H as <-.
  apply g_search_least in E; [exact E|lra].
Qed.
Lemma rho_of_spec d delta r : (1 <= d)%nat -> 0 <= delta -> rho_of d delta r = net_measure d delta r.
Proof.
  intros Hd Hc. unfold rho_of, net_measure, passage_volume. destruct (narrow_probabilities d delta Hd Hc) as (-> & _). rewrite unit_ball_correct.
  unfold Rdiv. ring.
Qed.
Lemma last_map {A B} (f : A -> B) l a b : l <> [] -> last (map f l) b = f (last l a).
Proof. induction l as [|x [|y l] IH]; intros N; [contradiction|reflexivity|]. cbn [map last] in *. apply IH. discriminate. Qed.
Lemma bound_power n rho vc : Rpower 2 (compute_sauer_shelah_bound_log2 (Z.of_nat n) rho vc) = net_failure_bound rho vc n.
Proof.
  rewrite bound_log2_spec. unfold Rpower, log2R. pose proof (nfb_pos rho vc n). unfold Rdiv. rewrite Rmult_assoc, Rinv_l, Rmult_1_r; [now apply exp_ln|]. assert (0 < ln 2) by (rewrite <- ln_1; apply ln_increasing; lra). lra.
Qed.
(** the ball that every prediction of a radius setting is made for *)
Definition used_net (c : config) (delta : R) : R := Rmin (last (deltas c) 0 / 2) (delta / 2).

Lemma key_frame_in c out fuel k f e : key_frame c out fuel k = Ok f -> In e f -> e_type e = k_type k /\ e_clear e = k_clear k /\ e_dim e = k_dim k /\ e_n e = k_n k /\
  exists es i p, estimates c out k = Some es /\ nth_error es i = Some p /\ nth_error (conns c (k_type k)) i = Some (e_conn e) /\
  (e_theory e = false -> e_p e = p /\ e_pred e = Z.of_nat (k_n k)) /\
  (e_theory e = true -> (k_dim k <= 7)%nat /\ ((1 <= k_dim k)%nat -> 0 <= k_clear k ->
     match k_type k with
     | RadiusPrm => least_count (net_measure (k_dim k) (k_clear k) (used_net c (k_clear k))) (k_dim k + 1) (1 - p + 1 / 10 ^ 6) (e_pred e) /\
         e_p e = net_failure_bound (net_measure (k_dim k) (k_clear k) (Rmin (e_conn e / 4) (k_clear k / 2))) (k_dim k + 1) (k_n k)
     | KnnPrm => least_count (net_measure (k_dim k) (k_clear k) (k_clear k / 2)) (k_dim k + 1) (1 / 100) (e_pred e) /\
         e_p e = net_failure_bound (net_measure (k_dim k) (k_clear k) (k_clear k / 2)) (k_dim k + 1) (k_n k)
     end)).
Proof.
  intros K I. unfold key_frame in K. destruct (conns c (k_type k)) as [|x0 xs0] eqn:X; [discriminate K|]. rewrite <- X in *.
  destruct (estimates c out k) as [es|] eqn:E; [|injection K as <-; destruct I].
  assert (EST : In e (entries k false es (conns c (k_type k)) (repeat (Z.of_nat (k_n k)) (length (conns c (k_type k))))) ->
    e_type e = k_type k /\ e_clear e = k_clear k /\ e_dim e = k_dim k /\ e_n e = k_n k /\ e_theory e = false /\ exists i p, nth_error es i = Some p /\ nth_error (conns c (k_type k)) i = Some (e_conn e) /\ e_p e = p /\ e_pred e = Z.of_nat (k_n k)).
  { intros J. apply entries_in in J as (i & p & x & z & P & X' & Z & ->). cbn. do 5 (split; [reflexivity|]). exists i, p. split; [assumption|]. split; [assumption|]. split; [reflexivity|].
    apply nth_error_In in Z. eapply repeat_spec; exact Z. }
  assert (FIN : In e (entries k false es (conns c (k_type k)) (repeat (Z.of_nat (k_n k)) (length (conns c (k_type k))))) -> forall Q : Prop,
    e_type e = k_type k /\ e_clear e = k_clear k /\ e_dim e = k_dim k /\ e_n e = k_n k /\
    exists es' i p, Some es = Some es' /\ nth_error es' i = Some p /\ nth_error (conns c (k_type k)) i = Some (e_conn e) /\
    (e_theory e = false -> e_p e = p /\ e_pred e = Z.of_nat (k_n k)) /\ (e_theory e = true -> Q)).
  { intros J Q. apply EST in J as (? & ? & ? & ? & T & i & p & ? & ? & ? & ?). do 4 (split; [assumption|]). exists es, i, p. repeat split; auto. congruence. }
  destruct (k_dim k <=? 7)%nat eqn:D; [apply Nat.leb_le in D|injection K as <-; destruct (FIN I False) as (? & ? & ? & ? & es' & i & p & ? & ? & ? & ? & F); do 4 (split; [assumption|]); exists es', i, p; do 4 (split; [assumption|]); intros T; destruct (F T)].
  destruct (k_type k) eqn:T.
  - destruct (search_all _ _ fuel) as [zs|] eqn:S; [|discriminate K]. cbn [bind] in K. injection K as <-. apply in_app_iff in I as [I|I].
    { destruct (FIN I False) as (? & ? & ? & ? & es' & i & p & ? & ? & ? & ? & F). do 4 (split; [assumption|]). exists es', i, p. do 4 (split; [assumption|]). intros T'; destruct (F T'). }
    apply entries_in in I as (i & sp & x & z & P & X' & Z & ->). cbn [e_type e_clear e_dim e_n e_theory e_conn e_p e_pred].
    destruct (search_all_nth _ _ _ _ S _ _ Z) as (g & p & G & Ep & SZ).
    do 4 (split; [congruence|]). exists es, i, p. split; [reflexivity|]. split; [assumption|]. split; [assumption|]. split; [discriminate|]. intros _. split; [assumption|]. intros Hd Hc.
    pose proof Ep as Ep'. eapply estimates_nth' in Ep' as (x' & _ & R0); [|exact E]. apply rate_range in R0.
    split.
    + unfold ss_log2_bound_funcs in G. rewrite nth_error_map in G. destruct (nth_error (map _ _) i) as [rho|] eqn:RH in G; [|discriminate G]. cbn in G. injection G as <-.
      apply search_least in SZ; [|unfold machine_eps; lra]. replace (1 - (p - machine_eps)) with (1 - p + 1 / 10 ^ 6) in SZ by (unfold machine_eps; ring).
      assert (N : deltas c <> []). { intros N. unfold conns, rads in X. rewrite N in X. discriminate X. }
      rewrite map_map, (last_map _ (rads c) 0) in SZ by (unfold rads; destruct (deltas c); [contradiction|discriminate]).
      rewrite rho_of_spec in SZ by assumption. unfold rads in SZ. rewrite (last_map _ (deltas c) 0) in SZ by assumption. unfold used_net.
      replace (last (deltas c) 0 / 2) with (last (deltas c) 0 * 2 / 4) by field. exact SZ.
    + rewrite !nth_error_map in P. unfold conns in X'. rewrite X' in P. cbn in P. injection P as <-. rewrite bound_power, rho_of_spec by assumption. reflexivity.
  - destruct (search _ _ fuel) as [z0|] eqn:S; [|discriminate K]. cbn [bind] in K. injection K as <-. apply in_app_iff in I as [I|I].
    { destruct (FIN I False) as (? & ? & ? & ? & es' & i & p & ? & ? & ? & ? & F). do 4 (split; [assumption|]). exists es', i, p. do 4 (split; [assumption|]). intros T'; destruct (F T'). }
    apply entries_in in I as (i & sp & x & z & P & X' & Z & ->). cbn [e_type e_clear e_dim e_n e_theory e_conn e_p e_pred].
    assert (X'' : nth_error (conns c (k_type k)) i = Some x) by (rewrite T; exact X'). destruct (estimates_nth _ _ _ _ _ _ E X'') as (p & Ep & _).
    do 4 (split; [congruence|]). exists es, i, p. split; [reflexivity|]. split; [assumption|]. split; [assumption|]. split; [discriminate|]. intros _. split; [assumption|]. intros Hd Hc.
    apply nth_error_In, repeat_spec in Z. apply nth_error_In, repeat_spec in P. subst z sp. apply search_least in S; [|lra]. replace (1 - 99 / 100) with (1 / 100) in S by field.
    rewrite bound_power. rewrite rho_of_spec in * by assumption. auto.
Qed.

(** ** The whole frame *)
Lemma keys_in seen l k : In k (keys_from seen l) -> In k l.
Proof. revert seen. induction l as [|k' l IH]; intros seen; cbn [keys_from]; [auto|]. destruct (existsb _ seen); cbn [In]; intros H; [right; eauto|]. destruct H; [now left|right; eauto]. Qed.
Lemma keys_has l k : In k l -> forall seen, In k (keys_from seen l) \/ In k seen.
Proof.
  induction l as [|k' l IH]; intros I seen; [destruct I|]. cbn [keys_from]. destruct (existsb (key_eqb k') seen) eqn:E.
  - destruct I as [->|I]; [|auto]. right. apply existsb_exists in E as (k2 & I2 & E). apply key_eqb_iff in E. now subst.
  - destruct I as [->|I]; [left; now left|]. destruct (IH I (k' :: seen)) as [H|[->|H]]; [left; now right|left; now left|auto].
Qed.
Lemma trials_in c t k : In k (trials c t) <-> k_type k = t /\ In (k_clear k) (deltas c) /\
  In (k_dim k) (match t with RadiusPrm => radius_dims c | KnnPrm => knn_dims c end) /\ In (k_n k) (match t with RadiusPrm => radius_ns c | KnnPrm => knn_ns c end).
Proof.
  unfold trials. split.
  - rewrite in_flat_map. intros (x & X & H). apply in_flat_map in H as (d & D & H). apply in_map_iff in H as (n & <- & N). cbn. auto.
  - destruct k as [t' x d n]. cbn. intros (-> & X & D & N). apply in_flat_map. exists x. split; [assumption|]. apply in_flat_map. exists d. split; [assumption|]. apply in_map_iff. exists n. auto.
Qed.
Lemma all_trials_in c k : In k (all_trials c) <-> In (k_clear k) (deltas c) /\
  In (k_dim k) (match k_type k with RadiusPrm => radius_dims c | KnnPrm => knn_dims c end) /\ In (k_n k) (match k_type k with RadiusPrm => radius_ns c | KnnPrm => knn_ns c end).
Proof.
  unfold all_trials. rewrite in_app_iff, !trials_in. destruct (k_type k); split; try tauto.
  - intros [H|([=] & _)]; tauto.
  - intros [([=] & _)|H]; tauto.
Qed.
Lemma frames_in c out fuel : forall ks fs, frames c out fuel ks = Ok fs -> forall e, In e (concat fs) <-> exists k f, In k ks /\ key_frame c out fuel k = Ok f /\ In e f.
Proof.
  induction ks as [|k ks IH]; intros fs H e; cbn [frames] in H.
  - injection H as <-. split; [intros []|intros (k & f & [] & _)].
  - destruct (key_frame c out fuel k) as [f|] eqn:K; [|discriminate H]. cbn [bind] in H. destruct (frames c out fuel ks) as [fs'|] eqn:F; [|discriminate H]. injection H as <-.
    cbn [concat]. rewrite in_app_iff, (IH _ eq_refl). split.
    + intros [I|(k' & f' & I & K' & J)]; [exists k, f; split; [now left|auto]|exists k', f'; split; [now right|auto]].
    + intros (k' & f' & [->|I] & K' & J); [left; congruence|right; eauto].
Qed.
Lemma frames_each c out fuel : forall ks fs, frames c out fuel ks = Ok fs -> forall k, In k ks -> exists f, key_frame c out fuel k = Ok f.
Proof.
  induction ks as [|k ks IH]; intros fs H k' I; [destruct I|]. cbn [frames] in H. destruct (key_frame c out fuel k) as [f|] eqn:K; [|discriminate H]. cbn [bind] in H.
  destruct (frames c out fuel ks) as [fs'|] eqn:F; [|discriminate H]. destruct I as [<-|I]; [eauto|]. eapply IH; [reflexivity|assumption].
Qed.
Lemma plot_df_in c out fuel df : plot_df c out fuel = Ok df -> forall e, In e df <-> exists k f, In k (all_trials c) /\ key_frame c out fuel k = Ok f /\ In e f.
Proof.
  unfold plot_df. intros H e. destruct (frames _ _ _ _) as [fs|] eqn:F; [|discriminate H]. cbn [bind] in H. destruct (forallb _ fs); [discriminate H|]. injection H as <-.
  rewrite (frames_in _ _ _ _ _ F). split; intros (k & f & I & R0); exists k, f; (split; [|assumption]).
  - eapply keys_in; exact I.
  - destruct (keys_has _ _ I []) as [J|[]]. exact J.
Qed.
Lemma plot_df_each c out fuel df k : plot_df c out fuel = Ok df -> In k (all_trials c) -> exists f, key_frame c out fuel k = Ok f.
Proof.
  unfold plot_df. intros H I. destruct (frames _ _ _ _) as [fs|] eqn:F; [|discriminate H]. eapply frames_each; [exact F|]. destruct (keys_has _ _ I []) as [J|[]]. exact J.
Qed.
