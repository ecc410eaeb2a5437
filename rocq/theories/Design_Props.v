(** C183: the curves and tables of notebooks/designing_tractable_experiments.ipynb, cells 3 to 21. *)
From Coq Require Import ZArith Reals List Lia Lra.
From Verif Require Import Search_Model Bound_Spec Bound_Proofs Bound_Proofs2 Bound_Model Bound_Props Notebook_Spec Notebook_Model Notebook_Proofs NotebookBatch_Props Geom_Model Geom_Props Design_Model.
Import ListNotations.
Open Scope R_scope.

(** ** Rising and falling lists *)
Definition rising (l : list R) : Prop := forall i j x y, (i < j)%nat -> nth_error l i = Some x -> nth_error l j = Some y -> x < y.
Definition falling (l : list R) : Prop := forall i j x y, (i < j)%nat -> nth_error l i = Some x -> nth_error l j = Some y -> y < x.

Lemma nth_map {A B} (f : A -> B) l i y : nth_error (map f l) i = Some y -> exists x, nth_error l i = Some x /\ y = f x.
Proof. rewrite nth_error_map. destruct (nth_error l i) as [x|]; [|discriminate]. intros H. injection H as <-. eauto. Qed.
Lemma nth_seq n : forall s i x, nth_error (seq s n) i = Some x -> x = (s + i)%nat /\ (i < n)%nat.
Proof.
  induction n as [|n IH]; intros s [|i] x H; cbn in H; try discriminate; [injection H as <-; lia|]. destruct (IH (S s) i x H). lia.
Qed.
Lemma linspace_nth a b n i x : nth_error (linspace a b n) i = Some x -> x = a + INR i * ((b - a) / INR (n - 1)) /\ (i < n)%nat.
Proof. intros H. destruct (nth_map _ _ _ _ H) as (k & Hk & ->). destruct (nth_seq _ _ _ _ Hk) as (-> & L). split; [reflexivity|exact L]. Qed.
Lemma linspace_order a b n i j x y : a < b -> (i < j)%nat -> nth_error (linspace a b n) i = Some x -> nth_error (linspace a b n) j = Some y -> a <= x /\ x < y /\ y <= b.
Proof.
  intros L I H H'. destruct (linspace_nth _ _ _ _ _ H) as (-> & _). destruct (linspace_nth _ _ _ _ _ H') as (-> & J).
  assert (N : 0 < INR (n - 1)) by (apply lt_0_INR; lia). assert (D : 0 < (b - a) / INR (n - 1)) by (unfold Rdiv; apply Rmult_lt_0_compat; [lra|apply Rinv_0_lt_compat; exact N]).
  apply lt_INR in I. pose proof (pos_INR i). assert (JN : INR j <= INR (n - 1)) by (apply le_INR; lia).
  assert (E : INR (n - 1) * ((b - a) / INR (n - 1)) = b - a) by (field; lra).
  split; [assert (0 <= INR i * ((b - a) / INR (n - 1))) by (apply Rmult_le_pos; lra); lra|]. split.
  - apply Rplus_lt_compat_l, Rmult_lt_compat_r; lra.
  - assert (INR j * ((b - a) / INR (n - 1)) <= INR (n - 1) * ((b - a) / INR (n - 1))) by (apply Rmult_le_compat_r; lra). lra.
Qed.
Lemma linspace_rising a b n : a < b -> rising (linspace a b n).
Proof. intros L i j x y I H H'. destruct (linspace_order _ _ _ _ _ _ _ L I H H') as (_ & ? & _). assumption. Qed.
Lemma linspace_reflect a b n i x : nth_error (linspace a b n) i = Some x -> nth_error (linspace (- a) (- b) n) i = Some (- x).
Proof.
  intros H. destruct (linspace_nth _ _ _ _ _ H) as (-> & L). unfold linspace. rewrite nth_error_map.
  destruct (nth_error (seq 0 n) i) as [k|] eqn:E; [|apply nth_error_None in E; rewrite seq_length in E; lia]. destruct (nth_seq _ _ _ _ E) as (-> & _). cbn [option_map Nat.add].
  f_equal. unfold Rdiv. ring.
Qed.
Lemma linspace_falling a b n : b < a -> falling (linspace a b n).
Proof.
  intros L i j x y I H H'. apply linspace_reflect in H, H'. pose proof (linspace_rising (- a) (- b) n ltac:(lra) i j _ _ I H H'). lra.
Qed.
Lemma linspace_in a b n x : (2 <= n)%nat -> In x (linspace a b n) -> Rmin a b <= x <= Rmax a b.
Proof.
  intros N H. apply In_nth_error in H. destruct H as (i & H). destruct (linspace_nth _ _ _ _ _ H) as (-> & L).
  assert (P : 0 < INR (n - 1)) by (apply lt_0_INR; lia). assert (I : INR i <= INR (n - 1)) by (apply le_INR; lia). pose proof (pos_INR i).
  set (u := INR i / INR (n - 1)). assert (U : 0 <= u <= 1).
  { unfold u, Rdiv. split; [apply Rmult_le_pos; [lra|left; apply Rinv_0_lt_compat; lra]|]. apply Rmult_le_reg_r with (INR (n - 1)); [lra|]. rewrite Rmult_assoc, Rinv_l by lra. lra. }
  replace (a + INR i * ((b - a) / INR (n - 1))) with (a + u * (b - a)) by (unfold u; field; lra).
  destruct (Rle_or_lt a b); [rewrite Rmin_left, Rmax_right by lra|rewrite Rmin_right, Rmax_left by lra]; nra.
Qed.

(** ** The curves against the tolerance *)
Lemma alpha_strict s t : 0 <= s < t -> s / sqrt (1 + s * s) < t / sqrt (1 + t * t).
Proof.
  intros (S0 & L). assert (A : 0 < sqrt (1 + s * s)) by (apply sqrt_lt_R0; nra). assert (B : 0 < sqrt (1 + t * t)) by (apply sqrt_lt_R0; nra).
  apply Rmult_lt_reg_r with (sqrt (1 + s * s) * sqrt (1 + t * t)); [apply Rmult_lt_0_compat; assumption|].
  replace (s / sqrt (1 + s * s) * (sqrt (1 + s * s) * sqrt (1 + t * t))) with (s * sqrt (1 + t * t)) by (field; lra).
  replace (t / sqrt (1 + t * t) * (sqrt (1 + s * s) * sqrt (1 + t * t))) with (t * sqrt (1 + s * s)) by (field; lra).
  apply Rsqr_incrst_0; [|apply Rmult_le_pos; lra|apply Rmult_le_pos; lra].
  rewrite !Rsqr_mult, !Rsqr_sqrt by nra. unfold Rsqr. nra.
Qed.
Lemma radius_strict c s t : 0 < c -> 0 <= s < t -> t <= 1 -> compute_connection_radius c s < compute_connection_radius c t.
Proof.
  intros C (S0 & L) T. unfold compute_connection_radius. replace (1 + s ^ 2) with (1 + s * s) by ring. replace (1 + t ^ 2) with (1 + t * t) by ring.
  assert (A : 0 < sqrt (1 + s * s)) by (apply sqrt_lt_R0; nra). assert (B : 0 < sqrt (1 + t * t)) by (apply sqrt_lt_R0; nra).
  apply Rmult_lt_reg_r with (sqrt (1 + s * s) * sqrt (1 + t * t)); [apply Rmult_lt_0_compat; assumption|].
  replace (2 * c * (s + 1) / sqrt (1 + s * s) * (sqrt (1 + s * s) * sqrt (1 + t * t))) with (2 * c * ((s + 1) * sqrt (1 + t * t))) by (field; lra).
  replace (2 * c * (t + 1) / sqrt (1 + t * t) * (sqrt (1 + s * s) * sqrt (1 + t * t))) with (2 * c * ((t + 1) * sqrt (1 + s * s))) by (field; lra).
  apply Rmult_lt_compat_l; [lra|]. apply Rsqr_incrst_0; [|apply Rmult_le_pos; lra|apply Rmult_le_pos; lra].
  rewrite !Rsqr_mult, !Rsqr_sqrt by nra. unfold Rsqr.
  assert (K : (t + 1) * (t + 1) * (1 + s * s) - (s + 1) * (s + 1) * (1 + t * t) = 2 * ((t - s) * (1 - s * t))) by ring.
  assert (0 < (t - s) * (1 - s * t)); [|lra]. apply Rmult_lt_0_compat; nra.
Qed.
Definition box_volume (d : nat) (c len : R) : R := (len + 2 * c) * (2 * c) ^ (d - 1).
Lemma box_pos d c len : 0 < c -> 0 <= len -> 0 < box_volume d c len.
Proof. intros C L. unfold box_volume. apply Rmult_lt_0_compat; [lra|apply pow_lt; lra]. Qed.
Lemma ball_pos d : 0 < unit_ball_volume d.
Proof. rewrite <- unit_ball_correct. apply unit_ball_pos. Qed.
Lemma pow_strict x y d : (1 <= d)%nat -> 0 <= x < y -> x ^ d < y ^ d.
Proof.
  intros D (X & L). induction d as [|d IH]; [lia|]. destruct d as [|d]; [cbn; lra|]. specialize (IH ltac:(lia)). cbn [pow] in *.
  assert (0 <= x * x ^ d) by (apply Rmult_le_pos; [lra|apply pow_le; lra]). apply Rmult_le_0_lt_compat; lra.
Qed.

(** C183.  Connection radius, net radius and ball measure fall along falling tolerances in (0, 1]. *)
Theorem curves_fall : forall c len tols, 0 < c -> 0 <= len -> falling tols -> (forall t, In t tols -> 0 < t <= 1) ->
  falling (conn_rads c tols) /\ falling (net_rads c tols) /\
  forall ds i d row, nth_error ds i = Some d -> (1 <= d)%nat -> nth_error (rhos ds c len tols) i = Some row -> falling row.
Proof.
  intros c len ts C L F T.
  assert (O : forall i j s t, (i < j)%nat -> nth_error ts i = Some s -> nth_error ts j = Some t -> 0 < t /\ t < s /\ s <= 1).
  { intros i j s t I Hs Ht. pose proof (F _ _ _ _ I Hs Ht). apply nth_error_In in Hs, Ht. pose proof (T _ Hs). pose proof (T _ Ht). lra. }
  split; [|split].
  - intros i j x y I Hx Hy. destruct (nth_map _ _ _ _ Hx) as (s & Hs & ->). destruct (nth_map _ _ _ _ Hy) as (t & Ht & ->). destruct (O _ _ _ _ I Hs Ht) as (? & ? & ?). apply radius_strict; lra.
  - intros i j x y I Hx Hy. destruct (nth_map _ _ _ _ Hx) as (s & Hs & ->). destruct (nth_map _ _ _ _ Hy) as (t & Ht & ->). destruct (O _ _ _ _ I Hs Ht) as (? & ? & ?).
    unfold compute_epsilon_net_radius, alpha_of_tol. apply Rmult_lt_compat_r; [assumption|]. replace (1 + s ^ 2) with (1 + s * s) by ring. replace (1 + t ^ 2) with (1 + t * t) by ring. apply alpha_strict. lra.
  - intros dl i0 d row Hd D Hrow. destruct (nth_map _ _ _ _ Hrow) as (d' & Hd' & ->). rewrite Hd in Hd'. injection Hd' as <-.
    intros i j x y I Hx Hy. destruct (nth_map _ _ _ _ Hx) as (s & Hs & ->). destruct (nth_map _ _ _ _ Hy) as (t & Ht & ->). destruct (O _ _ _ _ I Hs Ht) as (? & ? & ?).
    rewrite !rho_correct, line_volume_exact by lra. unfold ball_measure. fold (box_volume d c len). pose proof (box_pos d c len C L).
    unfold Rdiv. apply Rmult_lt_compat_r; [apply Rinv_0_lt_compat; assumption|]. apply Rmult_lt_compat_l; [apply ball_pos|]. apply pow_strict; [assumption|].
    split; [apply Rmult_le_pos; [|lra]; apply Rmult_le_pos; [lra|left; apply Rinv_0_lt_compat, sqrt_lt_R0; nra]|]. apply Rmult_lt_compat_r; [assumption|]. apply alpha_strict. lra.
Qed.
Print Assumptions curves_fall.

(** C183.  The ball measures of the narrow passages rise with the clearance, although their volume does too. *)
Theorem narrow_rise : forall cs, rising cs -> (forall c, In c cs -> 0 < c) ->
  forall ds i d row, nth_error ds i = Some d -> (1 <= d)%nat -> nth_error (narrow_rhos ds cs) i = Some row -> rising row.
Proof.
  intros cs Rs P dl i0 d row Hd D Hrow. destruct (nth_map _ _ _ _ Hrow) as (d' & Hd' & ->). rewrite Hd in Hd'. injection Hd' as <-.
  intros i j x y I Hx Hy. destruct (nth_map _ _ _ _ Hx) as (s & Hs & ->). destruct (nth_map _ _ _ _ Hy) as (t & Ht & ->). pose proof (Rs _ _ _ _ I Hs Ht) as L. apply nth_error_In in Hs, Ht. apply P in Hs, Ht.
  rewrite !rho_correct. unfold ball_measure. rewrite !Rmult_1_l.
  destruct (narrow_probabilities d s D ltac:(lra)) as (-> & _). destruct (narrow_probabilities d t D ltac:(lra)) as (-> & _).
  destruct d as [|d]; [lia|]. replace (S d - 1)%nat with d by lia. rewrite !Rpow_mult_distr. cbn [pow].
  assert (A : 0 < s ^ d) by (apply pow_lt; lra). assert (B : 0 < t ^ d) by (apply pow_lt; lra). assert (W : 0 < 2 ^ d) by (apply pow_lt; lra).
  assert (AB : s ^ d <= t ^ d) by (apply pow_incr; lra).
  set (p := s ^ d) in *. set (q := t ^ d) in *. set (w := 2 ^ d) in *. pose proof (ball_pos (S d)) as V. set (v := unit_ball_volume (S d)) in *. clearbody p q w v.
  assert (WP : 0 < w * p) by (apply Rmult_lt_0_compat; assumption). assert (WQ : 0 < w * q) by (apply Rmult_lt_0_compat; assumption).
  apply Rmult_lt_reg_r with ((2 + w * p) * (2 + w * q)); [apply Rmult_lt_0_compat; lra|].
  replace (v * (s * p) / (2 + w * p) * ((2 + w * p) * (2 + w * q))) with (v * (2 * (s * p) + s * (w * (p * q)))) by (field; lra).
  replace (v * (t * q) / (2 + w * q) * ((2 + w * p) * (2 + w * q))) with (v * (2 * (t * q) + t * (w * (p * q)))) by (field; lra).
  apply Rmult_lt_compat_l; [assumption|]. assert (0 < w * (p * q)) by (apply Rmult_lt_0_compat; [|apply Rmult_lt_0_compat]; assumption).
  assert (s * p < t * q) by (apply Rlt_le_trans with (t * p); [apply Rmult_lt_compat_r; lra|apply Rmult_le_compat_l; lra]).
  assert (s * (w * (p * q)) < t * (w * (p * q))) by (apply Rmult_lt_compat_r; lra). lra.
Qed.
Print Assumptions narrow_rise.

(** ** The tables *)
Section Grid.
  Context (dl : list nat) (sps vals : list R) (f : nat -> R -> R) (thresh : R) (fuel : nat).
  Hypothesis dims : forall d, In d dl -> (1 <= d <= 20)%nat.
  Hypothesis probs : forall sp, In sp sps -> -1 < sp <= 99 / 100.
  Hypothesis Ht : 1 / 10 ^ 12 <= thresh.
  Hypothesis Hf : (1000 <= fuel)%nat.
  Lemma grid_table : exists T, batch_net_search dl sps (List.length vals) (map (fun d => map (f d) vals) dl) thresh fuel = Done T /\
    List.length T = List.length dl /\
    forall i d, nth_error dl i = Some d -> exists rows, nth_error T i = Some rows /\ List.length rows = List.length sps /\
      forall k sp, nth_error sps k = Some sp -> exists row, nth_error rows k = Some row /\ List.length row = List.length vals /\
        forall j t v, nth_error vals j = Some t -> nth_error row j = Some v -> holds (d + 1) (1 - sp) thresh (Some (f d t)) v.
  Proof.
    destruct (batch_runs dl sps (List.length vals) (map (fun d => map (f d) vals) dl) thresh fuel) as (T & E); try assumption.
    - intros d Hd. apply dims in Hd. lia.
    - rewrite map_length. apply le_n.
    - intros row Hr. apply in_map_iff in Hr. destruct Hr as (d & <- & _). rewrite map_length. apply le_n.
    - exists T. split; [exact E|]. assert (P1 : forall sp, In sp sps -> -1 < sp < 1) by (intros sp H; apply probs in H; lra). destruct (batch_table _ _ _ _ _ _ _ P1 E) as (L & A). split; [exact L|].
      intros i d Hd. destruct (A i d Hd) as (rows & R1 & R2 & R3). exists rows. split; [exact R1|]. split; [exact R2|].
      intros k sp Hk. destruct (R3 k sp Hk) as (rl & row & V & R4 & R5 & _ & R6). exists row. split; [exact R4|]. split; [exact R5|].
      intros j t v Hj Hv. specialize (R6 j v Hv). rewrite nth_error_map, Hd in V. cbn in V. injection V as <-. rewrite nth_error_map, Hj in R6. exact R6.
  Qed.
End Grid.

(** what a row says about the values of its columns: rho of each column, nan below the threshold, else the least count *)
Definition row_says (d : nat) (sp thresh : R) (rho : R -> R) (vals : list R) (row : list (option Z)) : Prop :=
  List.length row = List.length vals /\ forall j t v, nth_error vals j = Some t -> nth_error row j = Some v -> holds (d + 1) (1 - sp) thresh (Some (rho t)) v.
(** numbers do not fall along the row and no number follows a nan, resp. the reverse *)
Definition harder (row : list (option Z)) : Prop := forall j j' v', (j < j')%nat -> nth_error row j' = Some (Some v') -> exists v, nth_error row j = Some (Some v) /\ (v <= v')%Z.
Definition easier (row : list (option Z)) : Prop := forall j j' v, (j < j')%nat -> (j' < List.length row)%nat -> nth_error row j = Some (Some v) -> exists v', nth_error row j' = Some (Some v') /\ (v' <= v)%Z.

Lemma row_compare d sp sp' thresh rho vals row row' j j' t t' v' : row_says d sp thresh rho vals row -> row_says d sp' thresh rho vals row' -> sp <= sp' ->
  nth_error vals j = Some t -> nth_error vals j' = Some t' -> rho t' <= rho t -> nth_error row' j' = Some (Some v') -> exists v, nth_error row j = Some (Some v) /\ (v <= v')%Z.
Proof.
  intros (L & A) (L' & A') S J J' O V'.
  destruct (nth_error row j) as [v|] eqn:V; [|apply nth_error_None in V; assert (j < List.length vals)%nat by (apply nth_error_Some; congruence); lia].
  pose proof (A _ _ _ J V) as H. pose proof (A' _ _ _ J' V') as H'. cbn in H, H'. destruct H' as [(_ & H')|(T' & z' & E' & C')]; [discriminate|]. injection E' as <-.
  destruct H as [(T & _)|(T & z & -> & C)]; [lra|]. exists z. split; [reflexivity|]. eapply least_mono; [exact O| |exact C|exact C']. lra.
Qed.

(** C183.  Cell 16: the table is made; its cells are the least counts for the ball measures in the box; fewer samples for larger tolerances and
    smaller probabilities. *)
Theorem line_table_exact : forall dl sps c len ts thresh fuel,
  (forall d, In d dl -> (1 <= d <= 20)%nat) -> (forall sp, In sp sps -> -1 < sp <= 99 / 100) -> 1 / 10 ^ 12 <= thresh -> (1000 <= fuel)%nat ->
  0 < c -> 0 <= len -> falling ts -> (forall t, In t ts -> 0 < t <= 1) ->
  exists T, line_table dl sps c len ts thresh fuel = Done T /\ List.length T = List.length dl /\
    forall i d, nth_error dl i = Some d -> exists rows, nth_error T i = Some rows /\ List.length rows = List.length sps /\
      (forall k sp, nth_error sps k = Some sp -> exists row, nth_error rows k = Some row /\ row_says d sp thresh (fun t => ball_measure c (Some t) d (box_volume d c len)) ts row /\ harder row) /\
      forall k k' sp sp' row row' j v', nth_error sps k = Some sp -> nth_error sps k' = Some sp' -> sp <= sp' -> nth_error rows k = Some row -> nth_error rows k' = Some row' ->
        nth_error row' j = Some (Some v') -> exists v, nth_error row j = Some (Some v) /\ (v <= v')%Z.
Proof.
  intros dl sps c len ts thresh fuel Hd Hs Ht Hf C L F T.
  destruct (grid_table dl sps ts (fun d t => compute_rho c (Some t) d (line_volume d c len)) thresh fuel Hd Hs Ht Hf) as (Tb & E & LT & A).
  exists Tb. split; [exact E|]. split; [exact LT|]. intros i d Di. destruct (A i d Di) as (rows & R1 & R2 & R3). exists rows. split; [exact R1|]. split; [exact R2|].
  assert (RS : forall k sp, nth_error sps k = Some sp -> exists row, nth_error rows k = Some row /\ row_says d sp thresh (fun t => ball_measure c (Some t) d (box_volume d c len)) ts row).
  { intros k sp Hk. destruct (R3 k sp Hk) as (row & R4 & R5 & R6). exists row. split; [exact R4|]. split; [exact R5|]. intros j t v J V.
    specialize (R6 j t v J V). rewrite rho_correct, line_volume_exact in R6 by lra. exact R6. }
  split.
  - intros k sp Hk. destruct (RS k sp Hk) as (row & R4 & S). exists row. split; [exact R4|]. split; [exact S|].
    intros j j' v' J V'. assert (J' : (j' < List.length ts)%nat) by (rewrite <- (proj1 S); apply nth_error_Some; congruence).
    destruct (nth_error ts j) as [t|] eqn:Tj; [|apply nth_error_None in Tj; lia]. destruct (nth_error ts j') as [t'|] eqn:Tj'; [|apply nth_error_None in Tj'; lia].
    eapply row_compare; [exact S|exact S|lra|exact Tj|exact Tj'| |exact V'].
    pose proof (F _ _ _ _ J Tj Tj'). apply nth_error_In in Tj, Tj'. apply T in Tj, Tj'. cbv beta. rewrite <- !rho_correct. apply rho_mono; cbn; try lra. pose proof (box_pos d c len C L). lra.
  - intros k k' sp sp' row row' j v' Hk Hk' O R4 R4' V'. destruct (RS k sp Hk) as (r1 & Q & S). rewrite R4 in Q. injection Q as <-. destruct (RS k' sp' Hk') as (r1 & Q & S'). rewrite R4' in Q. injection Q as <-.
    assert (J' : (j < List.length ts)%nat) by (rewrite <- (proj1 S'); apply nth_error_Some; congruence).
    destruct (nth_error ts j) as [t|] eqn:Tj; [|apply nth_error_None in Tj; lia].
    eapply row_compare; [exact S|exact S'|exact O|exact Tj|exact Tj|apply Rle_refl|exact V'].
Qed.
Print Assumptions line_table_exact.

(** C183.  Cell 21: likewise for the narrow passages; fewer samples for wider passages. *)
Theorem narrow_table_exact : forall dl sps cs thresh fuel,
  (forall d, In d dl -> (1 <= d <= 20)%nat) -> (forall sp, In sp sps -> -1 < sp <= 99 / 100) -> 1 / 10 ^ 12 <= thresh -> (1000 <= fuel)%nat ->
  rising cs -> (forall c, In c cs -> 0 < c) ->
  exists T, narrow_table dl sps cs thresh fuel = Done T /\ List.length T = List.length dl /\
    forall i d, nth_error dl i = Some d -> exists rows, nth_error T i = Some rows /\ List.length rows = List.length sps /\
      forall k sp, nth_error sps k = Some sp -> exists row, nth_error rows k = Some row /\ (forall c, In c cs -> narrow_volume d c = 2 + (2 * c) ^ (d - 1)) /\
        row_says d sp thresh (fun c => unit_ball_volume d * c ^ d / narrow_volume d c) cs row /\ easier row.
Proof.
  intros dl sps cs thresh fuel Hd Hs Ht Hf Rs P.
  destruct (grid_table dl sps cs (fun d c => compute_rho c None d (narrow_volume d c)) thresh fuel Hd Hs Ht Hf) as (Tb & E & LT & A).
  exists Tb. split; [exact E|]. split; [exact LT|]. intros i d Di. destruct (A i d Di) as (rows & R1 & R2 & R3). exists rows. split; [exact R1|]. split; [exact R2|].
  pose proof (Hd d (nth_error_In _ _ Di)) as D.
  intros k sp Hk. destruct (R3 k sp Hk) as (row & R4 & R5 & R6). exists row. split; [exact R4|].
  split; [intros c Hc; apply P in Hc; apply narrow_probabilities; [lia|lra]|].
  assert (S : row_says d sp thresh (fun c => unit_ball_volume d * c ^ d / narrow_volume d c) cs row).
  { split; [exact R5|]. intros j c v J V. specialize (R6 j c v J V). rewrite rho_correct in R6. unfold ball_measure in R6. rewrite Rmult_1_l in R6. exact R6. }
  split; [exact S|]. intros j j' v J J' V. rewrite R5 in J'.
  destruct (nth_error cs j) as [t|] eqn:Tj; [|apply nth_error_None in Tj; lia]. destruct (nth_error cs j') as [t'|] eqn:Tj'; [|apply nth_error_None in Tj'; lia].
  eapply row_compare; [exact S|exact S|lra|exact Tj'|exact Tj| |exact V].
  pose proof (narrow_rise cs Rs P [d] 0 d _ eq_refl ltac:(lia) eq_refl j j') as N. cbv beta.
  specialize (N (compute_rho t None d (narrow_volume d t)) (compute_rho t' None d (narrow_volume d t')) J). rewrite !nth_error_map, Tj, Tj' in N. specialize (N eq_refl eq_refl).
  rewrite !rho_correct in N. unfold ball_measure in N. rewrite !Rmult_1_l in N. lra.
Qed.
Print Assumptions narrow_table_exact.

(** ** The notebook's own values *)
Lemma tols_range t : In t tols -> 0 < t <= 1.
Proof. intros H. apply linspace_in in H; [|lia]. rewrite Rmin_right, Rmax_left in H by lra. lra. Qed.
Lemma clearances_range c : In c clearances -> 1 / 10 <= c <= 1 / 2.
Proof. intros H. apply linspace_in in H; [|lia]. rewrite Rmin_left, Rmax_right in H by lra. lra. Qed.
Lemma ds_range d : In d ds -> (2 <= d <= 20)%nat.
Proof. unfold ds. cbn. intros H. repeat (destruct H as [<-|H]; [lia|]). contradiction. Qed.
Example curves_ex : falling (conn_rads clearance tols) /\ falling (net_rads clearance tols) /\ forall r, In r (conn_rads clearance tols) -> 1 <= r <= sqrt 2.
Proof.
  destruct (curves_fall clearance length_ tols) as (A & B & _); [unfold clearance; lra|unfold length_; lra|apply linspace_falling; lra|exact tols_range|]. split; [exact A|]. split; [exact B|].
  intros r H. apply in_map_iff in H. destruct H as (t & <- & Ht). apply tols_range in Ht. pose proof (connection_radius_range clearance t ltac:(unfold clearance; lra) ltac:(lra)) as Q. unfold clearance in *. lra.
Qed.
Example tables_ex : (exists T, line_table ds success_probs clearance length_ tols rho_thresh 1000 = Done T) /\ (exists T, narrow_table ds [1 / 10; 9 / 10] clearances rho_thresh 1000 = Done T).
Proof.
  split.
  - destruct (line_table_exact ds success_probs clearance length_ tols rho_thresh 1000) as (T & E & _); [intros d H; apply ds_range in H; lia| |unfold rho_thresh; lra|apply le_n|unfold clearance; lra|unfold length_; lra|apply linspace_falling; lra|exact tols_range|eauto].
    unfold success_probs. intros sp H. cbn in H. decompose [or] H; try contradiction; subst; lra.
  - destruct (narrow_table_exact ds [1 / 10; 9 / 10] clearances rho_thresh 1000) as (T & E & _); [intros d H; apply ds_range in H; lia| |unfold rho_thresh; lra|apply le_n|apply linspace_rising; lra|intros c H; apply clearances_range in H; lra|eauto].
    intros sp H. cbn in H. decompose [or] H; try contradiction; subst; lra.
Qed.

(** C183.  The boxes have the volume 3 in every dimension, ... *)
Theorem box_volume_same : forall d, line_volume d clearance length_ = 3.
Proof. intros d. unfold clearance, length_. rewrite line_volume_exact by lra. replace (2 * (1 / 2)) with 1 by lra. rewrite pow1. lra. Qed.
Print Assumptions box_volume_same.
(** ... not that of the box [-0.5, 1.5] x [-0.5, 0.5]^(d-1) which the text of cell 4 describes (the product of the side lengths). *)
Theorem described_box_refuted : exists d, In d ds /\ line_volume d clearance length_ <> (3 / 2 - - (1 / 2)) * (1 / 2 - - (1 / 2)) ^ (d - 1).
Proof. exists 2%nat. split; [now left|]. rewrite box_volume_same. replace (1 / 2 - - (1 / 2)) with 1 by lra. rewrite pow1. lra. Qed.
Print Assumptions described_box_refuted.

(** C183.  The text of cell 17 has nets of a quarter of the clearance; the balls of cell 19 have the radius of the clearance, and 4^d times the measure. *)
Theorem narrow_net_radius : forall i d row j c r, nth_error ds i = Some d -> nth_error (narrow_rhos ds clearances) i = Some row -> nth_error clearances j = Some c -> nth_error row j = Some r ->
  r = 4 ^ d * (unit_ball_volume d * (c / 4) ^ d / narrow_volume d c) /\ r <> unit_ball_volume d * (c / 4) ^ d / narrow_volume d c.
Proof.
  intros i d row j c r Hi Hrow Hj Hr. destruct (nth_map _ _ _ _ Hrow) as (d' & Hd' & ->). rewrite Hi in Hd'. assert (d' = d) as -> by congruence. clear Hd'.
  destruct (nth_map _ _ _ _ Hr) as (c' & Hc' & ->). rewrite Hj in Hc'. assert (c' = c) as -> by congruence. clear Hc' Hr Hrow.
  apply nth_error_In in Hi, Hj. apply ds_range in Hi. apply clearances_range in Hj. rewrite rho_correct. unfold ball_measure. rewrite Rmult_1_l.
  assert (N : 0 < narrow_volume d c) by (destruct (narrow_probabilities d c ltac:(lia) ltac:(lra)) as (-> & _); pose proof (pow_lt (2 * c) (d - 1) ltac:(lra)); lra).
  assert (E : unit_ball_volume d * c ^ d / narrow_volume d c = 4 ^ d * (unit_ball_volume d * (c / 4) ^ d / narrow_volume d c)).
  { replace (c ^ d) with (4 ^ d * (c / 4) ^ d) by (rewrite <- Rpow_mult_distr; f_equal; field). field. lra. }
  split; [exact E|]. rewrite E. pose proof (ball_pos d) as V. assert (Q : 0 < (c / 4) ^ d) by (apply pow_lt; lra).
  assert (X : 0 < unit_ball_volume d * (c / 4) ^ d / narrow_volume d c) by (unfold Rdiv; apply Rmult_lt_0_compat; [apply Rmult_lt_0_compat; assumption|apply Rinv_0_lt_compat; assumption]).
  assert (1 < 4 ^ d) by (rewrite <- (pow1 d); apply pow_strict; [lia|lra]). intros K. assert (1 * (unit_ball_volume d * (c / 4) ^ d / narrow_volume d c) < 4 ^ d * (unit_ball_volume d * (c / 4) ^ d / narrow_volume d c)) by (apply Rmult_lt_compat_r; assumption). lra.
Qed.
Print Assumptions narrow_net_radius.
Theorem described_net_refuted : exists i d row j c r, nth_error ds i = Some d /\ nth_error (narrow_rhos ds clearances) i = Some row /\ nth_error clearances j = Some c /\ nth_error row j = Some r /\
  r <> unit_ball_volume d * (c / 4) ^ d / narrow_volume d c.
Proof.
  exists 0%nat, 2%nat. do 1 eexists. exists 0%nat. do 2 eexists. split; [reflexivity|]. split; [reflexivity|]. split; [reflexivity|]. split; [reflexivity|].
  refine (proj2 (narrow_net_radius 0 2 _ 0 _ _ _ _ _ _)); reflexivity.
Qed.
Print Assumptions described_net_refuted.
