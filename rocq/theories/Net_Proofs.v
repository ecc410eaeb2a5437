(** Chains of samples along a curve of known clearance. *)
From Coq Require Import Arith List Reals QArith Qreals Lra Lia Psatz Classical.
From Verif Require Import NkGraph_Model NkGraph_Spec NkGraph_Proofs Prm_Model Prm_Spec Geom_Spec Geom_Proofs Net_Spec.
Import ListNotations.
Close Scope Q_scope.
Open Scope R_scope.

(** ** Euclidean distances of coordinate lists *)
Fixpoint dot3 (p q r : list R) : R :=
  match p, q, r with
  | x :: p', y :: q', z :: r' => (x - y) * (y - z) + dot3 p' q' r'
  | _, _, _ => 0
  end.

Lemma dot3_cs : forall p q r, length p = length q -> length q = length r ->
  (dot3 p q r) ^ 2 <= sumsq p q * sumsq q r.
Proof.
  induction p as [|x p IH]; intros [|y q] [|z r] L1 L2; simpl in L1, L2; try discriminate; [simpl; lra|].
  specialize (IH q r ltac:(lia) ltac:(lia)).
  cbn [dot3 sumsq]. pose proof (sumsq_nonneg p q) as HA. pose proof (sumsq_nonneg q r) as HB.
  set (A := sumsq p q) in *. set (B := sumsq q r) in *. set (C := dot3 p q r) in *.
  set (u := x - y). set (v := y - z).
  assert (K : 2 * (C * (u * v)) <= A * (v * v) + B * (u * u)).
  { assert (S : (2 * (C * (u * v))) ^ 2 <= (A * (v * v) + B * (u * u)) ^ 2).
    { replace ((2 * (C * (u * v))) ^ 2) with (4 * (C ^ 2 * (u * v) ^ 2)) by ring.
      assert (C ^ 2 * (u * v) ^ 2 <= A * B * (u * v) ^ 2) by (apply Rmult_le_compat_r; [nra|lra]).
      replace ((A * (v * v) + B * (u * u)) ^ 2) with ((A * (v * v) - B * (u * u)) ^ 2 + 4 * (A * B * (u * v) ^ 2)) by ring.
      pose proof (pow2_ge_0 (A * (v * v) - B * (u * u))). lra. }
    assert (0 <= A * (v * v) + B * (u * u)) by (apply Rplus_le_le_0_compat; apply Rmult_le_pos; nra).
    apply Rsqr_incr_0_var; auto. unfold Rsqr. nra. }
  replace ((u * v + C) ^ 2) with ((u * u) * (v * v) + 2 * (C * (u * v)) + C ^ 2) by ring.
  replace ((u * u + A) * (v * v + B)) with ((u * u) * (v * v) + (A * (v * v) + B * (u * u)) + A * B) by ring.
  lra.
Qed.

Lemma sumsq_sum : forall p q r, length p = length q -> length q = length r ->
  sumsq p r = sumsq p q + sumsq q r + 2 * dot3 p q r.
Proof.
  induction p as [|x p IH]; intros [|y q] [|z r] L1 L2; simpl in L1, L2; try discriminate; [simpl; lra|].
  cbn [dot3 sumsq]. rewrite (IH q r) by lia. ring.
Qed.

Lemma dist_nonneg p q : 0 <= dist p q.
Proof. apply sqrt_pos. Qed.
Lemma dist_sq p q : dist p q * dist p q = sumsq p q.
Proof. apply sqrt_sqrt, sumsq_nonneg. Qed.
Lemma sumsq_sym : forall p q, sumsq p q = sumsq q p.
Proof. induction p as [|x p IH]; intros [|y q]; auto. simpl. rewrite IH. ring. Qed.
Lemma dist_sym p q : dist p q = dist q p.
Proof. unfold dist. now rewrite sumsq_sym. Qed.
Lemma dist_self p : dist p p = 0.
Proof. unfold dist. replace (sumsq p p) with 0; [apply sqrt_0|]. induction p; simpl; auto. rewrite <- IHp. ring. Qed.

Lemma dist_triangle p q r : length p = length q -> length q = length r -> dist p r <= dist p q + dist q r.
Proof.
  intros L1 L2. pose proof (dist_nonneg p q) as A. pose proof (dist_nonneg q r) as B.
  apply Rsqr_incr_0_var; [|lra]. unfold Rsqr. rewrite dist_sq, (sumsq_sum p q r) by auto.
  pose proof (dot3_cs p q r L1 L2) as C. rewrite <- !dist_sq in C. rewrite <- !dist_sq.
  assert (D : dot3 p q r <= dist p q * dist q r).
  { apply Rsqr_incr_0_var; [unfold Rsqr; nra|apply Rmult_le_pos; auto]. }
  nra.
Qed.

(** ** The tube between two balls *)
Lemma sumsq_at_time : forall x y a b t, 0 <= t <= 1 -> length x = length y -> length x = length a -> length x = length b ->
  sumsq (at_time t x y) (at_time t a b) <= (1 - t) * sumsq x a + t * sumsq y b.
Proof.
  induction x as [|x0 x IH]; intros [|y0 y] [|a0 a] [|b0 b] t Ht L1 L2 L3; simpl in L1, L2, L3; try discriminate; [simpl; lra|].
  cbn [at_time sumsq]. specialize (IH y a b t Ht ltac:(lia) ltac:(lia) ltac:(lia)).
  assert (0 <= t * (1 - t) * ((x0 - a0) - (y0 - b0)) ^ 2).
  { apply Rmult_le_pos; [apply Rmult_le_pos; lra|apply pow2_ge_0]. }
  nra.
Qed.

Lemma sumsq_mix : forall z a b t, length z = length a -> length z = length b ->
  (1 - t) * sumsq z a + t * sumsq z b = sumsq z (at_time t a b) + t * (1 - t) * sumsq a b.
Proof.
  induction z as [|z0 z IH]; intros [|a0 a] [|b0 b] t L1 L2; simpl in L1, L2; try discriminate; [simpl; ring|].
  cbn [at_time sumsq]. specialize (IH a b t ltac:(lia) ltac:(lia)).
  replace ((1 - t) * ((z0 - a0) * (z0 - a0) + sumsq z a) + t * ((z0 - b0) * (z0 - b0) + sumsq z b))
    with ((1 - t) * ((z0 - a0) * (z0 - a0)) + t * ((z0 - b0) * (z0 - b0)) + ((1 - t) * sumsq z a + t * sumsq z b)) by ring.
  rewrite IH. ring.
Qed.

(** A motion between two points near [a] and [b] stays near [a] or [b]. *)
Lemma tube x y a b rho w delta t : 0 <= t <= 1 -> 0 <= rho -> 0 <= w -> 0 <= delta ->
  rho ^ 2 + (w / 2) ^ 2 <= delta ^ 2 ->
  length x = length y -> length x = length a -> length x = length b ->
  dist x a <= rho -> dist y b <= rho -> dist a b <= w ->
  dist (at_time t x y) a <= delta \/ dist (at_time t x y) b <= delta.
Proof.
  intros Ht Hr Hw Hd Hrw L1 L2 L3 Dx Dy Dab.
  assert (Sq : forall p q e, 0 <= e -> dist p q <= e -> sumsq p q <= e ^ 2).
  { intros p q e He D. rewrite <- dist_sq. pose proof (dist_nonneg p q). nra. }
  apply Sq in Dx; auto. apply Sq in Dy; auto. apply Sq in Dab; auto.
  pose proof (sumsq_at_time x y a b t Ht L1 L2 L3) as A.
  assert (Lz : length (at_time t x y) = length x) by (apply at_time_length; auto).
  pose proof (sumsq_mix (at_time t x y) a b t ltac:(lia) ltac:(lia)) as M.
  set (z := at_time t x y) in *.
  assert (B : sumsq z (at_time t a b) <= rho ^ 2) by nra.
  assert (Tt : 0 <= t * (1 - t) <= 1 / 4).
  { split; [apply Rmult_le_pos; lra|]. pose proof (pow2_ge_0 (t - 1 / 2)). lra. }
  assert (C : t * (1 - t) * sumsq a b <= w ^ 2 / 4).
  { apply Rle_trans with (t * (1 - t) * w ^ 2); [apply Rmult_le_compat_l; lra|].
    replace (w ^ 2 / 4) with (1 / 4 * w ^ 2) by field. apply Rmult_le_compat_r; [apply pow2_ge_0|lra]. }
  assert (T : (1 - t) * sumsq z a + t * sumsq z b <= delta ^ 2) by (rewrite M; lra).
  assert (U : forall p q, sumsq p q <= delta ^ 2 -> dist p q <= delta).
  { intros p q H. apply Rsqr_incr_0_var; auto. unfold Rsqr. rewrite dist_sq. lra. }
  destruct (Rle_dec (sumsq z a) (delta ^ 2)) as [Y|N]; [left; auto|].
  right. apply U. destruct (Req_dec t 0) as [->|T0]; [lra|].
  destruct (Rle_dec (sumsq z b) (delta ^ 2)) as [Y'|N']; auto. exfalso. nra.
Qed.

Lemma finite_choice (Q : nat -> nat -> Prop) m : (forall k, (k <= m)%nat -> exists i, Q k i) ->
  exists f, forall k, (k <= m)%nat -> Q k (f k).
Proof.
  induction m as [|m IH]; intro H.
  - destruct (H 0%nat ltac:(lia)) as [i Hi]. exists (fun _ => i). intros k Hk. now replace k with 0%nat by lia.
  - destruct IH as [f Hf]; [intros; apply H; lia|]. destruct (H (S m) ltac:(lia)) as [i Hi].
    exists (fun k => if (k =? S m)%nat then i else f k). intros k Hk.
    destruct (Nat.eqb_spec k (S m)) as [->|N]; auto. apply Hf. lia.
Qed.

Lemma last_cons {A} (l : list A) a : last (a :: l) a = last l a.
Proof. destruct l; reflexivity. Qed.
Lemma last_default {A} (l : list A) a b : l <> [] -> last l a = last l b.
Proof. induction l as [|x [|y l] IH]; intro H; [now elim H|reflexivity|]. simpl in *. now rewrite IH. Qed.

Lemma trail_extend (E : nat -> nat -> Q -> Prop) j x : forall l a c, trail E (a :: l) c -> E (last l a) j x ->
  exists c', trail E (a :: l ++ [j]) c'.
Proof.
  induction l as [|b l IH]; intros a c T H.
  - exists (x + 0)%Q. constructor; auto. constructor.
  - inversion T; subst. destruct (IH b c0) as [c' T']; auto.
    { rewrite <- last_cons, (last_default (b :: l) b a) by discriminate. auto. }
    exists (w + c')%Q. constructor; auto.
Qed.

(** Points of a set close to its least upper bound; decided with the excluded middle that
    comes with the real numbers' least upper bounds. *)
Lemma classic_close (T : R -> Prop) m e : (forall b, is_upper_bound T b -> m <= b) -> 0 < e ->
  exists s, T s /\ m - e < s.
Proof.
  intros Lub He. apply NNPP. intro N.
  assert (B : is_upper_bound T (m - e)).
  { intros s Hs. destruct (Rle_dec s (m - e)) as [Y|Nn]; auto. exfalso. apply N. exists s. split; auto. lra. }
  specialize (Lub _ B). lra.
Qed.

(** ** Chains *)
Section Chain.
  Context {P : Type}.
  Variable dim : nat.
  Variable pos : P -> list R.
  Variable free : list R -> Prop.
  Variable check : P -> P -> bool.
  Variable dst : P -> P -> Q.
  Variable eta : R.
  Hypothesis Hpos : coordinates dim pos.
  Hypothesis Hchk : accepts_free_motions pos free check.
  Hypothesis Hdst : distances_within pos dst eta.

  Variables (delta L : R) (c : R -> list R) (ss : list P) (rho : R).
  Hypothesis Hrho : 0 <= rho.
  Hypothesis HL : 0 <= L.
  Hypothesis Hc : curve dim L c.
  Hypothesis Hfree : has_clearance dim free delta L c.
  Hypothesis Hnet : net_along pos rho L c ss.

  Variable E : nat -> nat -> Q -> Prop.
  Variable r : R.
  Hypothesis HE : forall i j p q, nth_error ss i = Some p -> nth_error ss j = Some q -> i <> j ->
    Q2R (dst p q) <= r -> check p q = true -> check q p = true -> exists w, E i j w /\ (w == dst p q)%Q.

  Lemma dst_up p q x : dist (pos p) (pos q) <= x -> Q2R (dst p q) <= x + eta.
  Proof. intro H. pose proof (Hdst p q) as D. unfold Rabs in D. destruct (Rcase_abs _); lra. Qed.

  Lemma eta_nonneg : (exists p : P, True) -> 0 <= eta.
  Proof. intros [p _]. pose proof (Hdst p p). pose proof (Rabs_pos (Q2R (dst p p) - dist (pos p) (pos p))). lra. Qed.

  (** Two points near curve points a short way apart: the motion is valid. *)
  Lemma tube_valid p q s t w : 0 <= s <= L -> 0 <= t <= L -> Rabs (s - t) <= w -> 0 <= delta ->
    rho ^ 2 + (w / 2) ^ 2 <= delta ^ 2 -> dist (pos p) (c s) <= rho -> dist (pos q) (c t) <= rho ->
    check p q = true /\ dist (pos p) (pos q) <= 2 * rho + w.
  Proof.
    intros Hs Ht Hw Hd Hrw Dp Dq. destruct Hc as [Lc Lip].
    pose proof (Lip s t Hs Ht) as Dst.
    assert (Hw0 : 0 <= w) by (pose proof (Rabs_pos (s - t)); lra).
    split.
    - apply Hchk. intros u Hu.
      assert (Lz : length (at_time u (pos p) (pos q)) = dim) by (rewrite at_time_length; rewrite !Hpos; auto).
      destruct (tube (pos p) (pos q) (c s) (c t) rho w delta u) as [D|D]; auto; rewrite ?Hpos, ?Lc; auto; try lra.
      + apply (Hfree s); auto.
      + apply (Hfree t); auto.
    - pose proof (dist_triangle (pos p) (c s) (pos q) ltac:(rewrite Hpos, Lc; auto) ltac:(rewrite Hpos, Lc; auto)) as T1.
      pose proof (dist_triangle (c s) (c t) (pos q) ltac:(rewrite !Lc; auto) ltac:(rewrite Hpos, Lc; auto)) as T2.
      rewrite (dist_sym (c t) (pos q)) in T2. lra.
  Qed.

  (** Samples f k near points s k of the curve, each a short way from the next, make a trail. *)
  Lemma chain_trail (f : nat -> nat) (s : nat -> R) (w : R) (m : nat) :
    0 <= delta -> rho ^ 2 + (w / 2) ^ 2 <= delta ^ 2 -> 2 * rho + w + eta <= r ->
    (forall k, (k <= m)%nat -> 0 <= s k <= L) ->
    (forall k, (k < m)%nat -> Rabs (s k - s (S k)) <= w) ->
    (forall k, (k <= m)%nat -> exists p, nth_error ss (f k) = Some p /\ dist (pos p) (c (s k)) <= rho) ->
    forall k, (k <= m)%nat -> exists l cost, trail E (f k :: l) cost /\ last (f k :: l) (f k) = f m /\
      Q2R cost <= INR (m - k) * (2 * rho + w + eta).
  Proof.
    intros Hd Hrw Hr Hs Hst Hf. intros k Hk. remember (m - k)%nat as n eqn:En. revert k Hk En.
    induction n as [|n IH]; intros k Hk En.
    - assert (k = m) by lia. subst k. exists [], 0%Q. split; [constructor|]. split; [reflexivity|].
      simpl. rewrite RMicromega.Q2R_0. lra.
    - destruct (IH (S k) ltac:(lia) ltac:(lia)) as (l & cost & T & Ls & C).
      destruct (Hf k ltac:(lia)) as (p & Ep & Dp). destruct (Hf (S k) ltac:(lia)) as (q & Eq & Dq).
      assert (He : 0 <= eta) by (apply eta_nonneg; eauto).
      assert (Hw : 0 <= w) by (pose proof (Rabs_pos (s k - s (S k))); pose proof (Hst k ltac:(lia)); lra).
      rewrite S_INR.
      destruct (Nat.eq_dec (f k) (f (S k))) as [Ef|Nf].
      + exists l, cost. rewrite Ef. split; auto. split; auto. nra.
      + destruct (tube_valid p q (s k) (s (S k)) w) as [V D]; auto; try (apply Hs; lia); [apply Hst; lia|].
        destruct (tube_valid q p (s (S k)) (s k) w) as [V' _]; auto; try (apply Hs; lia).
        { rewrite Rabs_minus_sym. apply Hst. lia. }
        pose proof (dst_up p q _ D) as Up.
        destruct (HE (f k) (f (S k)) p q) as (x & Ex & Ew); auto.
        { lra. }
        exists (f (S k) :: l), (x + cost)%Q. split; [constructor; auto|]. split.
        * cbn [last] in Ls |- *. destruct l; auto. rewrite <- Ls. clear. generalize (f k) (f (S k)). revert n0.
          induction l as [|y l IH]; intros; simpl in *; auto.
        * rewrite Q2R_plus. apply Qeq_eqR in Ew. rewrite Ew. lra.
  Qed.

  Lemma entry_near q p i t s w re : nth_error ss i = Some p -> 0 <= t <= L -> 0 <= s <= L -> pos q = c t ->
    Rabs (t - s) <= w -> 0 <= delta -> rho ^ 2 + (w / 2) ^ 2 <= delta ^ 2 -> rho + w + eta <= Q2R re ->
    dist (pos p) (c s) <= rho -> entry dst check ss re q i (dst p q) /\ Q2R (dst p q) <= rho + w + eta.
  Proof.
    intros Ei Ht Hs Eq Hw Hd Hrw Hr Dp. destruct Hc as [Lc Lip].
    assert (D : dist (pos p) (pos q) <= rho + w).
    { rewrite Eq. pose proof (dist_triangle (pos p) (c s) (c t) ltac:(rewrite Hpos, Lc; auto) ltac:(rewrite !Lc; auto)) as T.
      pose proof (Lip s t Hs Ht) as Q. rewrite Rabs_minus_sym in Q. lra. }
    apply dst_up in D. split; auto. exists p. split; auto. split; auto. split; [apply Rle_Qle; lra|].
    apply (tube_valid q p t s w); auto. rewrite Eq, dist_self. lra.
  Qed.

  Variables (start goal : P) (re : Q).
  Hypothesis Hstart : pos start = c 0.
  Hypothesis Hgoal : pos goal = c L.

  (** K steps of equal length along the curve. *)
  Lemma net_chain K w : (2 <= K)%nat -> w = L / INR K -> 0 <= delta -> rho ^ 2 + (w / 2) ^ 2 <= delta ^ 2 ->
    2 * rho + w + eta <= r -> rho + w + eta <= Q2R re ->
    exists ids cost, solution dst check ss re E start goal ids cost /\
      Q2R cost <= L + 2 * rho * (INR K - 1) + INR K * eta.
  Proof.
    intros HK Ew Hd Hrw Hr Hre. set (m := (K - 2)%nat). set (s := fun k : nat => INR (S k) * w).
    assert (HKr : 2 <= INR K) by (apply le_INR in HK; simpl in HK; lra).
    assert (Hw : 0 <= w) by (subst w; apply Rmult_le_pos; [lra|left; apply Rinv_0_lt_compat; lra]).
    assert (Kw : INR K * w = L) by (subst w; field; lra).
    assert (Sin : forall k, (k <= m)%nat -> 0 <= s k <= L).
    { intros k Hk. unfold s. assert (INR (S k) <= INR K) by (apply le_INR; lia). pose proof (pos_INR (S k)). split; nra. }
    destruct (finite_choice (fun k i => exists p, nth_error ss i = Some p /\ dist (pos p) (c (s k)) <= rho) m) as [f Hf].
    { intros k Hk. apply Hnet. apply Sin; auto. }
    destruct (chain_trail f s w m) with (k := 0%nat) as (l & cost & T & Ls & C); auto; try lia.
    { intros k Hk. unfold s. rewrite (S_INR (S k)). replace (INR (S k) * w - (INR (S k) + 1) * w) with (- w) by ring.
      rewrite Rabs_Ropp, Rabs_pos_eq; lra. }
    destruct (Hf 0%nat ltac:(lia)) as (p & Ep & Dp). destruct (Hf m ltac:(lia)) as (q & Eq & Dq).
    assert (L0 : 0 <= 0 <= L) by lra. assert (LL : 0 <= L <= L) by lra.
    destruct (entry_near start p (f 0%nat) 0 (s 0%nat) w re) as [En1 C1]; auto; try (apply Sin; lia).
    { unfold s. simpl. replace (0 - 1 * w) with (- w) by ring. rewrite Rabs_Ropp, Rabs_pos_eq; lra. }
    destruct (entry_near goal q (f m) L (s m) w re) as [En2 C2]; auto; try (apply Sin; lia).
    { assert (Em : INR (S m) = INR K - 1) by (rewrite S_INR; unfold m; rewrite minus_INR by lia; simpl; lra).
      unfold s. rewrite Em. replace (L - (INR K - 1) * w) with (w - (INR K * w - L)) by ring. rewrite Kw.
      replace (w - (L - L)) with w by ring. rewrite Rabs_pos_eq; lra. }
    exists (f 0%nat :: l), (dst p start + cost + dst q goal)%Q. split.
    - exists (f 0%nat), (f m), cost, (dst p start), (dst q goal).
      split; [reflexivity|]. split; [auto|]. split; [auto|]. split; [auto|]. split; [auto|]. reflexivity.
    - rewrite !Q2R_plus. rewrite Nat.sub_0_r in C.
      assert (Em : INR m = INR K - 2) by (unfold m; rewrite minus_INR by lia; simpl; lra).
      rewrite Em in C. nra.
  Qed.

  (** Some chain exists as soon as the balls of the net lie in the clearance. *)
  Lemma net_connects : rho <= delta -> 2 * rho + eta <= r -> rho + eta <= Q2R re ->
    exists ids cost, solution dst check ss re E start goal ids cost.
  Proof.
    intros Hrd Hr Hre. pose proof Hc as [Lc Lip].
    assert (H0 : rho ^ 2 + (0 / 2) ^ 2 <= delta ^ 2) by nra.
    set (near := fun (i : nat) (s : R) => exists p, nth_error ss i = Some p /\ dist (pos p) (c s) <= rho).
    set (reached := fun i => exists a l cost ds, entry dst check ss re start a ds /\
                      trail E (a :: l) cost /\ last (a :: l) a = i).
    (* samples not near a point are not near its surroundings *)
    assert (Gap : forall s, 0 <= s <= L -> exists e, 0 < e /\ forall i t, 0 <= t <= L -> Rabs (t - s) < e -> near i t -> near i s).
    { intros s Hs.
      assert (G : forall l : list P, exists e, 0 < e /\ forall p t, In p l -> 0 <= t <= L -> Rabs (t - s) < e ->
                   dist (pos p) (c t) <= rho -> dist (pos p) (c s) <= rho).
      { induction l as [|p l [e [He IH]]]; [exists 1; split; [lra|intros p t []]|].
        destruct (Rle_dec (dist (pos p) (c s)) rho) as [Y|N].
        - exists e. split; auto. intros q t [<-|Hq] Ht D Dq; auto. eapply IH; eauto.
        - exists (Rmin e (dist (pos p) (c s) - rho)). split; [apply Rmin_glb_lt; lra|].
          intros q t [<-|Hq] Ht D Dq.
          + exfalso. pose proof (Rmin_r e (dist (pos p) (c s) - rho)).
            pose proof (dist_triangle (pos p) (c t) (c s) ltac:(rewrite Hpos, Lc; auto) ltac:(rewrite !Lc; auto)).
            pose proof (Lip t s Ht Hs). lra.
          + pose proof (Rmin_l e (dist (pos p) (c s) - rho)). apply (IH q t); auto. lra. }
      destruct (G ss) as (e & He & Hg). exists e. split; auto. intros i t Ht D (p & Ep & Dp).
      exists p. split; auto. apply (Hg p t); auto. eapply nth_error_In; eauto. }
    (* near samples of one point are linked *)
    assert (Link : forall i j s, 0 <= s <= L -> near i s -> near j s -> reached i -> reached j).
    { intros i j s Hs (p & Ep & Dp) (q & Eq & Dq) (a & l & cost & ds & En & T & Ls).
      destruct (Nat.eq_dec i j) as [->|N]; [exists a, l, cost, ds; auto|].
      assert (Z : Rabs (s - s) <= 0) by (rewrite Rminus_diag_eq, Rabs_R0 by auto; lra).
      destruct (tube_valid p q s s 0) as [V D]; auto; [lra|].
      destruct (tube_valid q p s s 0) as [V' _]; auto; [lra|].
      apply dst_up in D. destruct (HE i j p q) as (x & Ex & _); auto; [lra|].
      destruct (trail_extend E j x l a cost T) as [c' T'].
      { rewrite <- last_cons, Ls. auto. }
      exists a, (l ++ [j]), c', ds. split; [auto|]. split; [auto|]. rewrite last_cons. apply last_last. }
    set (T := fun s => 0 <= s <= L /\ exists i, reached i /\ near i s).
    assert (T0 : T 0).
    { split; [lra|]. destruct (Hnet 0 ltac:(lra)) as (i & p & Ep & Dp). exists i. split; [|exists p; auto].
      assert (Z : Rabs (0 - 0) <= 0) by (rewrite Rminus_0_r, Rabs_R0; lra).
      destruct (entry_near start p i 0 0 0 re) as [En _]; auto; try lra.
      exists i, [], 0%Q, (dst p start). split; auto. split; [constructor|reflexivity]. }
    destruct (completeness T) as [m [Ub Lub]].
    { exists L. intros s [Hs _]. lra. }
    { exists 0. auto. }
    assert (Hm : 0 <= m <= L) by (split; [apply Ub; auto|apply Lub; intros s [Hs _]; lra]).
    destruct (Gap m Hm) as (e & He & Hg).
    assert (Rm : exists i, reached i /\ near i m).
    { destruct (classic_close T m e Lub He) as (s & [Hs (i & Ri & Ni)] & Ds).
      - pose proof (Ub s (conj Hs (ex_intro _ i (conj Ri Ni)))). exists i. split; auto. apply (Hg i s); auto.
        rewrite Rabs_left1; lra. }
    destruct Rm as (i & Ri & Ni).
    assert (Em : m = L).
    { destruct (Rle_dec L m) as [Y|N]; [lra|]. exfalso.
      set (s := Rmin L (m + e / 2)).
      assert (Hs : 0 <= s <= L /\ m < s < m + e).
      { unfold s, Rmin. destruct (Rle_dec L (m + e / 2)); split; lra. }
      destruct (Hnet s (proj1 Hs)) as (j & p & Ep & Dp).
      assert (Nj : near j s) by (exists p; auto).
      assert (Nm : near j m).
      { apply (Hg j s); auto; [apply Hs|]. rewrite Rabs_pos_eq; lra. }
      assert (Rj : reached j) by (apply (Link i j m); auto).
      pose proof (Ub s (conj (proj1 Hs) (ex_intro _ j (conj Rj Nj)))). lra. }
    subst m. destruct Ni as (q & Eq & Dq). destruct Ri as (a & l & cost & ds & En & Tr & Ls).
    assert (Z : Rabs (L - L) <= 0) by (rewrite Rminus_diag_eq, Rabs_R0 by auto; lra).
    destruct (entry_near goal q i L L 0 re) as [En2 _]; auto; try lra.
    exists (a :: l), (ds + cost + dst q goal)%Q.
    exists a, i, cost, ds, (dst q goal). split; [reflexivity|]. split; [auto|]. split; [auto|]. split; [auto|].
    split; [auto|reflexivity].
  Qed.
End Chain.
