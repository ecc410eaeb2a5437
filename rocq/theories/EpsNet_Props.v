(** Property C128: compute_sauer_shelah_bound_log2 (bound.py 44-61) bounds the probability that the
    samples are not a net, for every set system of the given VC dimension and every population. *)
From Coq Require Import Reals List Arith Lra Lia Bool ZArith FinFun.
From Verif Require Import Prob Geom_Spec Search_Model Bound_Model Bound_Spec Bound_Proofs Bound_Proofs2 Bound_Props Vc_Props.
Import ListNotations.
Local Open Scope R_scope.

(** *** Specification *)
(** The set holds a share [e] of the population. *)
Definition share_at_least {P} (e : R) (r : P -> bool) (X : list P) : Prop := e * INR (length X) <= INR (count r X).
(** Some large set of the system holds none of the draws. *)
Definition misses_large {P} (system : (P -> bool) -> Prop) (e : R) (X t : list P) : Prop :=
  exists r, system r /\ share_at_least e r X /\ forall x, In x t -> r x = false.

(** Every decidable part of the event has probability at most [b].  (There are finitely many sequences,
    so an event that could be decided for each of them has probability at most [b] itself.) *)
Definition event_at_most {P} (X : list P) (m : nat) (E : list P -> Prop) (b : R) : Prop :=
  forall bad, (forall t, drawn X m t -> bad t = true -> E t) -> probability_at_most X m bad b.
(** The population gives every ball of radius [rad] around a centre the share of it that a uniform
    draw from a region of volume [vol] would. *)
Definition fair_balls {P} (dim : nat) (pos : P -> list R) (X : list P) (vol rad : R) (centres : list R -> Prop) : Prop :=
  (forall x, In x X -> length (pos x) = dim) /\
  forall c, centres c -> length c = dim /\ share_at_least (unit_ball_volume dim * rad ^ dim / vol) (fun x => in_ball c rad (pos x)) X.
(** Some ball of radius [rad] around a centre holds no sample. *)
Definition ball_missed {P} (pos : P -> list R) (rad : R) (centres : list R -> Prop) (t : list P) : Prop :=
  exists c, centres c /\ forall x, In x t -> rad < dist (pos x) c.

(** *** Pairs of sequences *)
Fixpoint dsum {A} (X : list A) (m : nat) (g : list A -> list A -> R) : R :=
  match m with
  | O => g [] []
  | S m' => rsum X (fun x => rsum X (fun y => dsum X m' (fun t t' => g (x :: t) (y :: t'))))
  end.
Lemma tsum_tsum {A} (X : list A) m : forall g, tsum X m (fun t => tsum X m (g t)) = dsum X m g.
Proof.
  induction m as [|m IH]; intro g; cbn [tsum dsum]; auto. apply rsum_ext. intros x _.
  rewrite tsum_rsum. apply rsum_ext. intros y _. apply IH.
Qed.
Lemma tsum_comm {A B} (X : list A) (Y : list B) m n : forall f, tsum X m (fun t => tsum Y n (f t)) = tsum Y n (fun s => tsum X m (fun t => f t s)).
Proof.
  induction n as [|n IH]; intro f; cbn [tsum]; auto. rewrite tsum_rsum. apply rsum_ext. intros y _. apply IH.
Qed.
Lemma dsum_le {A} (X : list A) m g h : (forall t t', drawn X m t -> drawn X m t' -> g t t' <= h t t') -> dsum X m g <= dsum X m h.
Proof. intro H. rewrite <- !tsum_tsum. apply tsum_le. intros t D. apply tsum_le. intros t' D'. now apply H. Qed.
Lemma dsum_const {A} (X : list A) m c : dsum X m (fun _ _ => c) = INR (length X) ^ m * (INR (length X) ^ m * c).
Proof. rewrite <- tsum_tsum. rewrite (tsum_ext _ _ _ (fun _ => INR (length X) ^ m * c)) by (intros; apply tsum_const). apply tsum_const. Qed.
(** exchanging the two sequences at the marked places *)
Fixpoint sw {A} (s : list bool) (t t' : list A) : list A :=
  match s, t, t' with
  | b :: s', x :: u, y :: u' => (if b then y else x) :: sw s' u u'
  | _, _, _ => []
  end.
Lemma dsum_sw {A} (X : list A) m : forall s g, length s = m -> dsum X m (fun t t' => g (sw s t t') (sw s t' t)) = dsum X m g.
Proof.
  induction m as [|m IH]; intros s g L; [destruct s; [reflexivity|discriminate]|]. destruct s as [|b s]; [discriminate|]. injection L as L.
  cbn [dsum sw].
  assert (E : forall x y, dsum X m (fun t t' => g ((if b then y else x) :: sw s t t') ((if b then x else y) :: sw s t' t))
    = dsum X m (fun t t' => g ((if b then y else x) :: t) ((if b then x else y) :: t'))).
  { intros x y. exact (IH s (fun u u' => g ((if b then y else x) :: u) ((if b then x else y) :: u')) L). }
  rewrite (rsum_ext X _ (fun x => rsum X (fun y => dsum X m (fun t t' => g ((if b then y else x) :: t) ((if b then x else y) :: t')))))
    by (intros x _; apply rsum_ext; intros y _; apply E).
  destruct b; [|reflexivity]. apply (rsum_swap X X (fun x y => dsum X m (fun t t' => g (y :: t) (x :: t')))).
Qed.
Notation masks m f := (tsum [false; true] m f).
Lemma masks_average {A} (X : list A) m g : 2 ^ m * dsum X m g = dsum X m (fun t t' => masks m (fun s => g (sw s t t') (sw s t' t))).
Proof.
  transitivity (masks m (fun s => dsum X m g)); [rewrite tsum_const; simpl length; f_equal; f_equal; simpl; lra|].
  transitivity (masks m (fun s => dsum X m (fun t t' => g (sw s t t') (sw s t' t)))).
  { apply tsum_ext. intros s [L _]. symmetry. now apply dsum_sw. }
  rewrite <- tsum_tsum. rewrite (tsum_ext _ _ _ (fun s => tsum X m (fun t => tsum X m (fun t' => g (sw s t t') (sw s t' t))))) by (intros; symmetry; apply tsum_tsum).
  rewrite <- tsum_comm. apply tsum_ext. intros t _. apply tsum_comm.
Qed.
(** *** One set *)
(** pairs of which at least one is in the set *)
Fixpoint pair_hits {A} (r : A -> bool) (t t' : list A) : nat :=
  match t, t' with
  | x :: u, y :: u' => ((if r x || r y then 1 else 0) + pair_hits r u u')%nat
  | _, _ => 0%nat
  end.
Lemma hits_cons_nat {A} (r : A -> bool) x t : hits r (x :: t) = ((if r x then 1 else 0) + hits r t)%nat.
Proof. unfold hits, count. simpl. destruct (r x); reflexivity. Qed.
Lemma sw_hits {A} (r : A -> bool) s : forall t t', (hits r (sw s t' t) <= pair_hits r t t')%nat.
Proof.
  induction s as [|b s IH]; intros t t'; [destruct t', t; apply Nat.le_0_l|]. destruct t as [|x t], t' as [|y t']; try apply Nat.le_0_l.
  cbn [sw pair_hits]. rewrite hits_cons_nat. specialize (IH t t'). destruct b; destruct (r x), (r y); simpl; lia.
Qed.
Lemma sw_missed {A} (r : A -> bool) m : forall t t', length t = m -> length t' = m ->
  masks m (fun s => ind (negb (existsb r (sw s t t')))) * 2 ^ pair_hits r t t' <= 2 ^ m.
Proof.
  induction m as [|m IH]; intros t t' L L'; [destruct t, t'; try discriminate; simpl; lra|].
  destruct t as [|x t], t' as [|y t']; try discriminate. injection L as L. injection L' as L'.
  specialize (IH t t' L L'). cbn [tsum rsum sw existsb pair_hits]. set (T := masks m (fun s => ind (negb (existsb r (sw s t t'))))) in *.
  assert (E : forall b : bool, masks m (fun s => ind (negb (b || existsb r (sw s t t')))) = if b then 0 else T).
  { intros []; [|reflexivity]. simpl. rewrite tsum_const. lra. }
  rewrite !E. assert (0 <= T * 2 ^ pair_hits r t t').
  { apply Rmult_le_pos; [apply tsum_nonneg; intros; apply ind_nonneg|apply pow_le; lra]. }
  assert (0 < 2 ^ m) by (apply pow_lt; lra). destruct (r x), (r y); simpl; nra.
Qed.
Lemma one_set {A} (r : A -> bool) m j t t' : length t = m -> length t' = m ->
  masks m (fun s => ind (negb (existsb r (sw s t t')) && (if Rle_dec j (INR (hits r (sw s t' t))) then true else false))) <= 2 ^ m * Rpower 2 (- j).
Proof.
  intros L L'. assert (P2 : 0 < 2 ^ m) by (apply pow_lt; lra). assert (Pj : 0 < Rpower 2 (- j)) by apply exp_pos.
  destruct (Rle_dec j (INR (pair_hits r t t'))) as [Y|Y].
  - apply Rle_trans with (masks m (fun s => ind (negb (existsb r (sw s t t'))))).
    + apply tsum_le. intros s _. destruct (negb _); simpl; [apply ind_le1|lra].
    + pose proof (sw_missed r m t t' L L') as H. set (h := pair_hits r t t') in *.
      assert (P : 0 < 2 ^ h) by (apply pow_lt; lra). apply (Rmult_le_reg_r (2 ^ h)); auto. apply Rle_trans with (1 := H).
      assert (E : 1 <= Rpower 2 (- j) * 2 ^ h); [|nra].
      rewrite <- (Rpower_pow h 2) by lra. rewrite <- Rpower_plus. rewrite <- (Rpower_O 2) by lra. apply Rle_Rpower; lra.
  - rewrite (tsum_ext _ _ _ (fun _ => 0)).
    + rewrite tsum_const. nra.
    + intros s _. pose proof (sw_hits r s t t') as H. apply le_INR in H. destruct (Rle_dec j (INR (hits r (sw s t' t)))); [lra|]. now rewrite andb_false_r.
Qed.
(** *** Finitely many sets *)
Fixpoint reps {A} (pts : list A) (F : list (A -> bool)) : list (A -> bool) :=
  match F with
  | [] => []
  | r :: F' => if in_dec list_bool_dec (map r pts) (map (fun q => map q pts) (reps pts F')) then reps pts F' else r :: reps pts F'
  end.
Lemma reps_incl {A} (pts : list A) F r : In r (reps pts F) -> In r F.
Proof. induction F as [|q F IH]; simpl; auto. destruct (in_dec _ _ _); simpl; intuition. Qed.
Lemma reps_nodup {A} (pts : list A) F : NoDup (map (fun q => map q pts) (reps pts F)).
Proof. induction F as [|q F IH]; simpl; [constructor|]. destruct (in_dec _ _ _); simpl; auto. now constructor. Qed.
Lemma reps_all {A} (pts : list A) F r : In r F -> exists r', In r' (reps pts F) /\ map r' pts = map r pts.
Proof.
  induction F as [|q F IH]; simpl; [easy|]. intros [->|I].
  - destruct (in_dec _ _ _) as [Y|Y]; [|exists r; split; auto; now left]. apply in_map_iff in Y as (r' & E & Y). eauto.
  - destruct (IH I) as (r' & I' & E). exists r'. split; auto. destruct (in_dec _ _ _); auto. now right.
Qed.
Lemma sw_in {A} s : forall (t t' : list A) x, In x (sw s t t') -> In x (t ++ t').
Proof.
  induction s as [|b s IH]; intros t t' x; [easy|]. destruct t as [|y t]; [easy|]. destruct t' as [|z t']; [easy|]. cbn [sw].
  intros [H|H].
  - destruct b; subst x; [apply in_or_app; right; now left|now left].
  - apply IH, in_app_or in H as [H|H]; [right; apply in_or_app; now left|apply in_or_app; right; now right].
Qed.
Lemma map_eq_on {A} (r r' : A -> bool) pts : map r pts = map r' pts -> forall x, In x pts -> r x = r' x.
Proof. induction pts as [|y pts IH]; [easy|]. simpl. intros E x. injection E as E1 E2. intros [<-|I]; auto. Qed.
Lemma existsb_agree {A} (r r' : A -> bool) u : (forall x, In x u -> r x = r' x) -> existsb r u = existsb r' u /\ hits r u = hits r' u.
Proof.
  induction u as [|x u IH]; intro H; [auto|]. destruct IH as [E1 E2]; [intros; apply H; now right|]. simpl. rewrite !hits_cons_nat, E1, E2, (H x) by now left. auto.
Qed.
Section Core.
Context {P : Type}.
Variables (X : list P) (m vc : nat) (e : R) (F : list (P -> bool)).
Hypothesis X0 : (0 < length X)%nat.
Hypothesis He : 0 < e.
Hypothesis Hm : 8 <= e * INR m.
Hypothesis HF : forall r, In r F -> share_at_least e r X.
Hypothesis HV : vc_at_most vc (fun r => In r F) X.
Let N := INR (length X).
Let many (r : P -> bool) (t : list P) : bool := if Rle_dec (e * INR m / 2) (INR (hits r t)) then true else false.
Let pair_bad (t t' : list P) : bool := existsb (fun r => negb (existsb r t) && many r t') F.
Lemma pairs_bound : dsum X m (fun t t' => ind (pair_bad t t')) <= N ^ m * (N ^ m * (INR (ss (S vc) (2 * m)) * Rpower 2 (- (e * INR m / 2)))).
Proof.
  assert (P2 : 0 < 2 ^ m) by (apply pow_lt; lra).
  apply (Rmult_le_reg_l (2 ^ m)); auto. rewrite masks_average.
  apply Rle_trans with (dsum X m (fun _ _ => INR (ss (S vc) (2 * m)) * (2 ^ m * Rpower 2 (- (e * INR m / 2))))).
  - apply dsum_le. intros t t' [L D] [L' D'].
    set (F' := reps (t ++ t') F).
    apply Rle_trans with (masks m (fun s => rsum F' (fun r => ind (negb (existsb r (sw s t t')) && many r (sw s t' t))))).
    + apply tsum_le. intros s _. unfold pair_bad.
      destruct (existsb (fun r => negb (existsb r (sw s t t')) && many r (sw s t' t)) F) eqn:E; [|apply rsum_nonneg; intros; apply ind_nonneg].
      apply existsb_exists in E as (r & I & H). destruct (reps_all (t ++ t') F r I) as (r' & I' & Er).
      assert (H' : negb (existsb r' (sw s t t')) && many r' (sw s t' t) = true).
      { unfold many in *. destruct (existsb_agree r' r (sw s t t')) as [A1 _]; [intros x Ix; eapply map_eq_on; eauto; now apply (sw_in s)|].
        destruct (existsb_agree r' r (sw s t' t)) as [_ A2]; [intros x Ix; eapply map_eq_on; eauto; apply sw_in, in_app_or in Ix as [Ix|Ix]; apply in_or_app; auto|].
        rewrite A1, A2. exact H. }
      eapply Rle_trans; [|apply existsb_sum]. replace (existsb _ F') with true; [simpl; lra|]. symmetry. apply existsb_exists. eauto.
    + rewrite tsum_rsum. apply Rle_trans with (rsum F' (fun _ => 2 ^ m * Rpower 2 (- (e * INR m / 2)))).
      * apply rsum_le. intros r _. now apply one_set.
      * rewrite rsum_const. apply Rmult_le_compat_r; [apply Rmult_le_pos; [lra|left; apply exp_pos]|]. apply le_INR.
        rewrite <- (map_length (fun q => map q (t ++ t')) F').
        replace (2 * m)%nat with (length (t ++ t')) by (rewrite app_length; lia).
        apply (traces_count vc (fun r => In r F) X); auto; [apply Forall_app; auto|].
        split; [apply reps_nodup|]. intros v Iv. apply in_map_iff in Iv as (r & <- & I). exists r. split; auto. eapply reps_incl, I.
  - rewrite dsum_const. fold N. apply Req_le. ring.
Qed.
Lemma finite_bound : tsum X m (fun t => ind (existsb (fun r => negb (existsb r t)) F)) <= 2 * INR (ss (S vc) (2 * m)) * Rpower 2 (- (e * INR m / 2)) * N ^ m.
Proof.
  assert (Np : 0 < N ^ m) by (apply pow_lt, lt_0_INR; auto).
  apply (Rmult_le_reg_l (N ^ m)); auto. rewrite <- tsum_scal.
  apply Rle_trans with (2 * dsum X m (fun t t' => ind (pair_bad t t'))).
  - rewrite <- tsum_tsum, <- tsum_scal. apply tsum_le. intros t _.
    destruct (existsb (fun r => negb (existsb r t)) F) eqn:E.
    + apply existsb_exists in E as (r & I & H). simpl ind. rewrite Rmult_1_r.
      apply Rle_trans with (1 := many_hits X r m e X0 He (HF r I) Hm). apply Rmult_le_compat_l; [lra|]. apply tsum_le. intros t' _.
      fold (many r t'). destruct (many r t') eqn:M; [|apply ind_nonneg]. replace (pair_bad t t') with true; [simpl; lra|].
      symmetry. apply existsb_exists. exists r. split; auto. now rewrite H, M.
    + simpl ind. rewrite Rmult_0_r. apply Rmult_le_pos; [lra|]. apply tsum_nonneg. intros; apply ind_nonneg.
  - pose proof pairs_bound as B. nra.
Qed.
End Core.
(** finitely many witnesses *)
Lemma choose_sets {P} (system : (P -> bool) -> Prop) e X (bad : list P -> bool) (l : list (list P)) :
  (forall t, In t l -> bad t = true -> misses_large system e X t) ->
  exists F, (forall r, In r F -> system r /\ share_at_least e r X) /\ forall t, In t l -> bad t = true -> existsb (fun r => negb (existsb r t)) F = true.
Proof.
  induction l as [|t l IH]; intro H; [exists []; easy|].
  destruct IH as (F & A & B); [intros; apply H; auto; now right|].
  destruct (bad t) eqn:E.
  - destruct (H t (or_introl eq_refl) E) as (r & S & Sh & M). exists (r :: F). split; [intros q [<-|I]; auto|].
    intros u Iu Bu. cbn [existsb]. destruct Iu as [<-|Iu]; [|rewrite (B u Iu Bu); apply orb_true_r].
    replace (existsb r t) with false; [reflexivity|]. symmetry. apply not_true_is_false. intro X0. apply existsb_exists in X0 as (x & Ix & Hx). rewrite (M x Ix) in Hx. discriminate.
  - exists F. split; auto. intros u [<-|Iu] Bu; [congruence|auto].
Qed.
Lemma vc_smaller {P} d (s s' : (P -> bool) -> Prop) X : (forall r, s' r -> s r) -> vc_at_most d s X -> vc_at_most d s' X.
Proof. intros H V pts F L Sh. apply (V pts F L). intros labels Ll. destruct (Sh labels Ll) as (r & R & E). eauto. Qed.
(** when [e m < 8] the bound is at least one *)
Lemma small_trivial e vc m : e <= 1 -> e * INR m < 8 -> (1 <= vc)%nat -> 1 <= net_failure_bound e vc m.
Proof.
  intros H1 H8 Hv. unfold net_failure_bound. rewrite <- psum_spec.
  assert (Sb : 1 + 2 * INR m <= IZR (psum (2 * m) vc)).
  { assert (Z : (1 + 2 * Z.of_nat m <= psum (2 * m) vc)%Z).
    { destruct vc as [|vc]; [lia|]. clear - Hv. induction vc as [|vc IH]; [|rewrite psum_S; pose proof (comb_nonneg (2 * m) (S (S vc))); assert (G : (1 <= S vc)%nat) by lia; specialize (IH G); lia].
      rewrite psum_S, psum_0. assert (C1 : forall n, comb n 1 = Z.of_nat n) by (induction n as [|n IHn]; [reflexivity|]; cbn [comb]; rewrite comb_0_r; lia). rewrite C1. lia. }
    apply IZR_le in Z. rewrite plus_IZR, mult_IZR, <- INR_IZR_INZ in Z. lra. }
  set (s := IZR (psum (2 * m) vc)) in *.
  assert (G : forall j, e * INR m / 2 <= INR j -> 2 ^ j <= 2 * s -> 1 <= 2 * s * Rpower 2 (- e * INR m / 2)).
  { intros j Hj Hs. assert (Q : Rpower 2 (- INR j) <= Rpower 2 (- e * INR m / 2)) by (apply Rle_Rpower; lra).
    assert (Q0 : 0 < Rpower 2 (- INR j)) by apply exp_pos.
    assert (Q1 : 2 ^ j * Rpower 2 (- INR j) = 1) by (rewrite <- Rpower_pow by lra; rewrite <- Rpower_plus; replace (INR j + - INR j) with 0 by lra; apply Rpower_O; lra).
    assert (0 < 2 ^ j) by (apply pow_lt; lra). nra. }
  pose proof (pos_INR m) as M0.
  destruct (Nat.le_gt_cases 4 m) as [M|M].
  - apply le_INR in M. simpl in M. apply (G 4%nat); simpl; lra.
  - destruct m as [|m]; [apply (G 0%nat); simpl in *; lra|]. assert (INR (S m) <= 3) by (replace 3 with (INR 3) by (simpl; lra); apply le_INR; lia).
    assert (1 <= INR (S m)) by (rewrite S_INR; pose proof (pos_INR m); lra). apply (G 2%nat); [simpl (INR 2); nra|simpl pow; lra].
Qed.
Lemma tsum_no_bad {P} (X : list P) m (bad : list P -> bool) : (forall t, drawn X m t -> bad t = false) -> tsum X m (fun t => ind (bad t)) = 0.
Proof. intro H. rewrite (tsum_ext _ _ _ (fun _ => 0)) by (intros t D; now rewrite H). rewrite tsum_const. lra. Qed.
Lemma net_probability_spec {P} (system : (P -> bool) -> Prop) X m e vc (bad : list P -> bool) : (1 <= vc)%nat -> vc_at_most vc system X ->
  (forall t, drawn X m t -> bad t = true -> misses_large system e X t) -> probability_at_most X m bad (net_failure_bound e vc m).
Proof.
  intros Hv V H. apply probability_sum.
  destruct (existsb bad (sequences X m)) eqn:B.
  2:{ rewrite tsum_no_bad; [apply Rmult_le_pos; [left; apply nfb_pos|apply pow_le, pos_INR]|]. intros t D. apply not_true_is_false. intro E.
      rewrite <- not_true_iff_false in B. apply B. apply existsb_exists. exists t. split; auto. now apply sequences_drawn. }
  assert (One : 1 <= net_failure_bound e vc m -> tsum X m (fun t => ind (bad t)) <= net_failure_bound e vc m * INR (length X) ^ m).
  { intro G. apply Rle_trans with (tsum X m (fun _ => 1)); [apply tsum_le; intros; apply ind_le1|]. rewrite tsum_const. rewrite Rmult_comm. apply Rmult_le_compat_r; auto. apply pow_le, pos_INR. }
  destruct m as [|m]; [apply One; rewrite nfb_0; lra|].
  destruct X as [|x0 X0]; [cbn [tsum rsum]; apply Rmult_le_pos; [left; apply nfb_pos|apply pow_le, pos_INR]|]. set (X := x0 :: X0) in *.
  assert (LX : (0 < length X)%nat) by (simpl; lia).
  apply existsb_exists in B as (t0 & It0 & Bt0). apply sequences_drawn in It0. destruct (H t0 It0 Bt0) as (r0 & _ & Sh0 & _).
  assert (e1 : e <= 1).
  { unfold share_at_least in Sh0. assert (INR (count r0 X) <= INR (length X)) by (apply le_INR, count_le). assert (0 < INR (length X)) by (apply lt_0_INR; auto). nra. }
  destruct (Rlt_dec (e * INR (S m)) 8) as [Y|Y]; [apply One, small_trivial; auto|].
  assert (e0 : 0 < e) by (apply Rnot_le_lt; intro; pose proof (pos_INR (S m)); nra).
  destruct (choose_sets system e X bad (sequences X (S m))) as (F & A & C); [intros t I; apply H; now apply sequences_drawn|].
  apply Rle_trans with (tsum X (S m) (fun t => ind (existsb (fun r => negb (existsb r t)) F))).
  - apply tsum_le. intros t D. destruct (bad t) eqn:E; [|apply ind_nonneg]. rewrite C; auto; [lra|]. now apply sequences_drawn.
  - eapply Rle_trans; [apply (finite_bound X (S m) vc e F); auto; [lra|intros r I; now apply A|eapply vc_smaller; [|exact V]; intros r I; now apply A]|].
    apply Req_le. unfold net_failure_bound. rewrite <- psum_spec, <- ss_comb, <- INR_IZR_INZ. do 3 f_equal. lra.
Qed.
(** The probability that the samples miss a set of measure at least [rho], of a system of VC dimension
    at most [vc], is at most two to the power of compute_sauer_shelah_bound_log2. *)
Theorem net_probability : forall (P : Type) (system : (P -> bool) -> Prop) (X : list P) (m vc : nat) rho (bad : list P -> bool), (1 <= vc)%nat ->
  vc_at_most vc system X -> (forall t, drawn X m t -> bad t = true -> misses_large system rho X t) ->
  probability_at_most X m bad (Rpower 2 (compute_sauer_shelah_bound_log2 (Z.of_nat m) rho vc)).
Proof.
  intros P system X m vc rho bad Hv V H. rewrite bound_log2_spec.
  replace (Rpower 2 (log2R (net_failure_bound rho vc m))) with (net_failure_bound rho vc m); [now apply net_probability_spec with system|].
  unfold Rpower, log2R. pose proof ln2_pos. replace (ln (net_failure_bound rho vc m) / ln 2 * ln 2) with (ln (net_failure_bound rho vc m)) by (field; lra).
  symmetry. apply exp_ln, nfb_pos.
Qed.
Print Assumptions net_probability.

(** *** Nets of balls *)
Lemma ball_net_bound {P} dim (pos : P -> list R) X vol rad centres m : fair_balls dim pos X vol rad centres ->
  event_at_most X m (ball_missed pos rad centres) (net_failure_bound (unit_ball_volume dim * rad ^ dim / vol) (dim + 1) m).
Proof.
  intros [HX HC] bad Hb. apply net_probability_spec with (balls dim pos); [lia|now apply balls_vc_dimension|].
  intros t D B. destruct (Hb t D B) as (c & Ic & M). destruct (HC c Ic) as [Lc Sh].
  exists (fun x => in_ball c rad (pos x)). split; [exists c, rad; auto|]. split; auto.
  intros x Ix. specialize (M x Ix). unfold in_ball. destruct (Rle_dec (dist (pos x) c) rad); [lra|auto].
Qed.
Lemma event_mono {P} (X : list P) m (E F : list P -> Prop) b b' : event_at_most X m F b -> (forall t, drawn X m t -> E t -> F t) -> b <= b' -> event_at_most X m E b'.
Proof.
  intros H I L bad Hb. apply probability_sum. specialize (H bad (fun t D B => I t D (Hb t D B))). apply probability_sum in H.
  apply Rle_trans with (1 := H). apply Rmult_le_compat_r; auto. apply pow_le, pos_INR.
Qed.
(** With at least as many samples as compute_numerical_bound returns, all balls of radius
    compute_epsilon_net_radius hold a sample, except with probability [1 - p]. *)
Theorem numerical_bound_net : forall (P : Type) dim (pos : P -> list R) (X : list P) centres c p v tol fuel z conn_r m,
  compute_numerical_bound c p v dim tol fuel = Some (Ret z, conn_r) -> (z <= Z.of_nat m)%Z ->
  let rad := compute_epsilon_net_radius c tol in
  fair_balls dim pos X v rad centres -> event_at_most X m (ball_missed pos rad centres) (1 - p).
Proof.
  intros P dim pos X centres c p v tol fuel z conn_r m E Hm rad Fb.
  destruct (numerical_bound_permanent _ _ _ _ _ _ _ _ E m m ltac:(lia) (le_n _)) as [G _].
  eapply event_mono; [apply (ball_net_bound dim pos X v rad centres m Fb)|auto|].
  replace (unit_ball_volume dim * rad ^ dim / v) with (ball_measure c tol dim v); auto.
  unfold ball_measure, rad, compute_epsilon_net_radius, alpha_of_tol. destruct tol; auto. do 4 f_equal. now replace (1 + r ^ 2) with (1 + r * r) by ring.
Qed.
Print Assumptions numerical_bound_net.

(** The same with compute_blumer_bound samples. *)
Theorem blumer_bound_net : forall (P : Type) dim (pos : P -> list R) (X : list P) centres net_rad gam vol m,
  0 < unit_ball_volume dim * net_rad ^ dim / vol <= 1 -> 0 < gam -> compute_blumer_bound net_rad dim gam vol <= INR m ->
  fair_balls dim pos X vol net_rad centres -> event_at_most X m (ball_missed pos net_rad centres) gam.
Proof.
  intros P dim pos X centres net_rad gam vol m H G B Fb.
  eapply event_mono; [apply (ball_net_bound dim pos X vol net_rad centres m Fb)|auto|]. now apply blumer_bound_sufficient.
Qed.
Print Assumptions blumer_bound_net.

(** The radius of compute_net_radius_from_prob fails with at most twice the probability asked for. *)
Theorem net_radius_from_prob_net : forall (P : Type) dim (pos : P -> list R) (X : list P) centres failure_prob vol m,
  (1 <= dim)%nat -> (1 <= m)%nat -> 0 < failure_prob < 2 -> 0 < vol ->
  let rad := compute_net_radius_from_prob dim (Z.of_nat m) failure_prob vol in
  fair_balls dim pos X vol rad centres -> event_at_most X m (ball_missed pos rad centres) (2 * failure_prob).
Proof.
  intros P dim pos X centres q vol m D M Q V rad Fb.
  eapply event_mono; [apply (ball_net_bound dim pos X vol rad centres m Fb)|auto|]. right. now apply net_radius_from_prob_gives_twice.
Qed.
Print Assumptions net_radius_from_prob_net.

(** *** Example: integers on a line *)
Definition zrange (n : nat) : list Z := map Z.of_nat (seq 0 n).
Definition zcoord (z : Z) : list R := [IZR z].
Definition between (a b : R) (c : list R) : Prop := exists x, c = [x] /\ a <= x <= b.
Lemma in_ball_line z x rad : in_ball [x] rad (zcoord z) = true <-> x - rad <= IZR z <= x + rad.
Proof.
  unfold in_ball, zcoord, dist. simpl. replace (sqrt _) with (Rabs (IZR z - x)).
  - destruct (Rle_dec (Rabs (IZR z - x)) rad) as [Y|Y]; split; auto; try discriminate; intro H.
    + destruct (Rle_dec 0 (IZR z - x)); [rewrite Rabs_pos_eq in Y by lra|rewrite Rabs_left in Y by lra]; lra.
    + exfalso. apply Y. apply Rabs_le. lra.
  - symmetry. replace ((IZR z - x) * (IZR z - x) + 0) with (Rsqr (IZR z - x)) by (unfold Rsqr; ring). apply sqrt_Rsqr_abs.
Qed.
Lemma zrange_share n k x rad : 0 <= x - rad -> x + rad <= INR n - 1 -> INR k <= 2 * rad -> (k <= count (fun z => in_ball [x] rad (zcoord z)) (zrange n))%nat.
Proof.
  intros H0 H1 Hk. unfold count. destruct (archimed (x - rad)) as [A1 A2]. set (a := up (x - rad)) in *.
  replace k with (length (map (fun i => (a + Z.of_nat i)%Z) (seq 0 k))) by (rewrite map_length; apply seq_length).
  apply NoDup_incl_length.
  - apply Injective_map_NoDup; [intros i j; lia|apply seq_NoDup].
  - intros z Iz. apply in_map_iff in Iz as (i & <- & Ii). apply in_seq in Ii.
    assert (Hi : INR i + 1 <= INR k) by (rewrite <- S_INR; apply le_INR; lia).
    assert (B : x - rad <= IZR (a + Z.of_nat i) <= x + rad) by (rewrite plus_IZR, <- INR_IZR_INZ; pose proof (pos_INR i); lra).
    apply filter_In. split; [|now apply in_ball_line].
    assert (Z0 : (0 <= a + Z.of_nat i)%Z) by (apply le_IZR; lra).
    assert (Z1 : (a + Z.of_nat i <= Z.of_nat n - 1)%Z) by (apply le_IZR; rewrite minus_IZR, <- INR_IZR_INZ; lra).
    unfold zrange. apply in_map_iff. exists (Z.to_nat (a + Z.of_nat i)). rewrite Z2Nat.id by lia. split; auto. apply in_seq. lia.
Qed.
(** the integers 0..40, balls of radius ten around points ten away from both ends *)
Lemma line_fair vol : 41 <= vol -> fair_balls 1 zcoord (zrange 41) vol (compute_epsilon_net_radius 10 None) (between 10 30).
Proof.
  intro Hv. unfold compute_epsilon_net_radius, alpha_of_tol. replace (1 * 10) with 10 by ring. split; [reflexivity|].
  intros c (x & -> & Hx). split; [reflexivity|]. unfold share_at_least. simpl unit_ball_volume.
  assert (C : (20 <= count (fun z => in_ball [x] 10 (zcoord z)) (zrange 41))%nat) by (apply zrange_share; simpl INR; lra).
  apply le_INR in C. apply Rle_trans with (INR 20); auto. unfold zrange. rewrite map_length, seq_length.
  replace (INR 20) with 20 by (simpl; lra). replace (INR 41) with 41 by (simpl; lra).
  apply (Rmult_le_reg_r vol); [lra|]. replace (2 * 10 ^ 1 / vol * 41 * vol) with (2 * 10 * 41) by (field; lra). lra.
Qed.
(** a net of that radius fails to form in two hundred draws at most half of the time *)
Example line_net : fair_balls 1 zcoord (zrange 41) 41 (compute_epsilon_net_radius 10 None) (between 10 30) /\
  (exists z conn_r, compute_numerical_bound 10 (1 / 2) 41 1 None 1000 = Some (Ret z, conn_r) /\ (z <= 200)%Z) /\
  event_at_most (zrange 41) 200 (ball_missed zcoord (compute_epsilon_net_radius 10 None) (between 10 30)) (1 / 2).
Proof.
  assert (Fb := line_fair 41 ltac:(lra)). split; auto.
  assert (Rho : ball_measure 10 None 1 41 = 20 / 41) by (unfold ball_measure; simpl; field).
  assert (B : net_failure_bound (ball_measure 10 None 1 41) (1 + 1) 200 <= 1 - 1 / 2).
  { rewrite Rho. unfold net_failure_bound. rewrite <- psum_spec. replace (psum (2 * 200) (1 + 1)) with 80201%Z by (vm_compute; reflexivity).
    apply Rle_trans with (2 * 80201 * Rpower 2 (- INR 20)).
    - apply Rmult_le_compat_l; [lra|]. apply Rle_Rpower; [lra|]. replace (INR 200) with 200 by (rewrite INR_IZR_INZ; reflexivity). replace (INR 20) with 20 by (simpl; lra). lra.
    - rewrite Rpower_Ropp, Rpower_pow by lra. simpl pow. lra. }
  destruct (numerical_bound_outcomes 10 (1 / 2) 41 1 None 1000 ltac:(lra) (le_n _)) as [[_ H] _].
  destruct H as [z Hz]; [exists 200%nat; split; [lia|apply B]|].
  destruct (compute_numerical_bound 10 (1 / 2) 41 1 None 1000) as [[s conn_r]|] eqn:E; [|discriminate].
  simpl in Hz. injection Hz as ->.
  assert (Z2 : (z <= 200)%Z).
  { destruct (numerical_bound_least _ _ _ _ _ _ _ _ E) as (n & -> & Hn & _ & _ & Hl). destruct (le_lt_dec n 200); [lia|]. specialize (Hl 200%nat ltac:(lia)). lra. }
  split; [exists z, conn_r; auto|]. replace (1 / 2) with (1 - 1 / 2) by lra.
  eapply numerical_bound_net; eauto.
Qed.
