(** Proofs about the search loops of Search_Model.v. *)
From Coq Require Import ZArith QArith Qround Bool Lia Lqa.
From Verif Require Import Search_Model Search_Spec.
Open Scope Z_scope.

(** * Binary64 midpoint *)

(** Integers exactly representable with a 53 bit significand. *)
Definition rep (m : Z) : Prop :=
  exists a e, 0 <= e /\ 0 <= a <= 2 ^ 53 /\ m = a * 2 ^ e.

Lemma rep_small : forall m, 0 <= m <= 2 ^ 53 -> rep m.
Proof. intros m H. exists m, 0. rewrite Z.pow_0_r. lia. Qed.

Lemma rep_pow2 : forall k, 0 <= k -> rep (2 ^ k).
Proof. intros k H. exists 1, k. lia. Qed.

(** Above 2^53 only even integers are representable. *)
Lemma rep_even : forall m, rep m -> 2 ^ 53 < m -> Z.Even m.
Proof.
  intros m (a & e & He & Ha & ->) Hm.
  destruct (Z.eq_dec e 0) as [->|].
  - rewrite Z.pow_0_r in Hm. lia.
  - exists (a * 2 ^ (e - 1)).
    replace e with (1 + (e - 1)) at 1 by lia.
    rewrite Z.pow_add_r by lia. change (2 ^ 1) with 2. ring.
Qed.

Lemma py_half_int_small : forall s, s < 2 ^ 53 -> py_half_int s = s / 2.
Proof.
  intros s H. unfold py_half_int.
  apply Z.ltb_lt in H. rewrite H. reflexivity.
Qed.

(** Shape of the result in the rounding range. *)
Lemma py_half_int_big : forall s, 2 ^ 53 <= s ->
  exists e q r, 0 <= e /\ s = q * 2 ^ (e + 1) + r /\ 0 <= r < 2 ^ (e + 1) /\
    2 ^ 52 <= q < 2 ^ 53 /\
    ((py_half_int s = q * 2 ^ e /\ r <= 2 ^ e) \/
     (py_half_int s = (q + 1) * 2 ^ e /\ 2 ^ e <= r)) /\
    (r = 2 ^ e -> py_half_int s = (if Z.even q then q else q + 1) * 2 ^ e).
Proof.
  intros s H. unfold py_half_int.
  assert (Hf : s <? 2 ^ 53 = false) by (apply Z.ltb_ge; lia).
  rewrite Hf. clear Hf.
  set (e := Z.log2 s - 53).
  assert (Hl : 53 <= Z.log2 s).
  { change 53 with (Z.log2 (2 ^ 53)). apply Z.log2_le_mono. exact H. }
  assert (He : 0 <= e) by (unfold e; lia).
  pose proof (Z.log2_spec s ltac:(lia)) as [Hlo Hhi].
  assert (Hpos : 0 < 2 ^ (e + 1)) by (apply Z.pow_pos_nonneg; lia).
  assert (Hpe : 0 < 2 ^ e) by (apply Z.pow_pos_nonneg; lia).
  pose proof (Z.div_mod s (2 ^ (e + 1)) ltac:(lia)) as Hdm.
  pose proof (Z.mod_pos_bound s (2 ^ (e + 1)) Hpos) as Hr.
  exists e, (s / 2 ^ (e + 1)), (s mod 2 ^ (e + 1)).
  set (q := s / 2 ^ (e + 1)) in *. set (r := s mod 2 ^ (e + 1)) in *.
  split; [exact He|]. split; [lia|]. split; [exact Hr|].
  split.
  - assert (Hs1 : 2 ^ Z.log2 s = 2 ^ 52 * 2 ^ (e + 1)).
    { rewrite <- Z.pow_add_r by lia. f_equal. unfold e. lia. }
    assert (Hs2 : 2 ^ (Z.succ (Z.log2 s)) = 2 ^ 53 * 2 ^ (e + 1)).
    { rewrite <- Z.pow_add_r by lia. f_equal. unfold e. lia. }
    rewrite Hs1 in Hlo. rewrite Hs2 in Hhi. unfold q. split.
    + apply Z.div_le_lower_bound; lia.
    + apply Z.div_lt_upper_bound; lia.
  - split.
    + destruct (r <? 2 ^ e) eqn:E1.
      * left. apply Z.ltb_lt in E1. split; [reflexivity|lia].
      * apply Z.ltb_ge in E1. destruct (2 ^ e <? r) eqn:E2.
        -- right. apply Z.ltb_lt in E2. split; [reflexivity|lia].
        -- apply Z.ltb_ge in E2. destruct (Z.even q); simpl.
           ++ left; split; [reflexivity|lia].
           ++ right; split; [reflexivity|lia].
    + intros Hre. rewrite Hre.
      rewrite !Z.ltb_irrefl. destruct (Z.even q); reflexivity.
Qed.

Lemma py_half_int_rep : forall s, 0 <= s -> rep (py_half_int s).
Proof.
  intros s H0. destruct (Z_lt_le_dec s (2 ^ 53)) as [H|H].
  - rewrite py_half_int_small by exact H. apply rep_small.
    split; [apply Z.div_pos; lia|]. 
    apply Z.div_le_upper_bound; lia.
  - destruct (py_half_int_big s H) as (e & q & r & He & _ & _ & Hq & Hv & _).
    destruct Hv as [[-> _]|[-> _]]; [exists q, e|exists (q + 1), e]; lia.
Qed.

(** The rounded midpoint of two positive numbers is positive. *)
Lemma py_half_int_pos : forall s, 2 <= s -> 1 <= py_half_int s.
Proof.
  intros s H0. destruct (Z_lt_le_dec s (2 ^ 53)) as [H|H].
  - rewrite py_half_int_small by exact H. apply Z.div_le_lower_bound; lia.
  - destruct (py_half_int_big s H) as (e & q & r & He & _ & _ & Hq & Hv & _).
    assert (0 < 2 ^ e) by (apply Z.pow_pos_nonneg; lia).
    destruct Hv as [[-> _]|[-> _]]; nia.
Qed.

(** * Doubling search *)

Lemma pow2_997 : 2 ^ 997 > float_1e300.
Proof. vm_compute. reflexivity. Qed.

Lemma pow2_996 : 2 ^ 996 <= float_1e300.
Proof. vm_compute. discriminate. Qed.

Section Doubling.
  Context {V : Type}.
  Variable ge gt : V -> V -> bool.
  Variable f : Z -> V.
  Variable L : V.

  (** the acceptance test of bound.py 106 *)
  Definition passes (m : Z) : bool := ge L (f m) && ge (f m) (f (m + 1)).
  (** the rejection test of bound.py 128 *)
  Definition rejects (m : Z) : bool := gt (f m) L || gt (f (m + 1)) (f m).

  Lemma doubling_phase_spec : forall fuel k ub,
    1 <= k ->
    doubling_phase ge f L fuel (2 ^ k) = Ret ub ->
    exists j, k <= j <= Z.max k 996 /\ ub = 2 ^ j /\ passes ub = true /\
      (forall i, k <= i < j -> passes (2 ^ i) = false).
  Proof.
    induction fuel as [|fuel IH]; intros k ub Hk; simpl; [discriminate|].
    destruct (ge L (f (2 ^ k)) && ge (f (2 ^ k)) (f (2 ^ k + 1))) eqn:E.
    - intros [= <-]. exists k. split; [lia|].
      split; [reflexivity|]. split; [exact E|]. intros; lia.
    - destruct (float_1e300 <? 2 ^ k * 2) eqn:E2; [discriminate|].
      assert (Hp : 2 ^ k * 2 = 2 ^ (k + 1)) by (rewrite Z.pow_add_r by lia; lia).
      rewrite Hp in *. intros Hr.
      apply Z.ltb_ge in E2.
      assert (k + 1 <= 996).
      { destruct (Z_lt_le_dec 996 (k + 1)) as [H|]; [|lia].
        pose proof pow2_997. assert (2 ^ 997 <= 2 ^ (k + 1)) by (apply Z.pow_le_mono_r; lia).
        lia. }
      destruct (IH (k + 1) ub ltac:(lia) Hr) as (j & Hj & -> & Hpass & Hno).
      exists j. split; [lia|]. split; [reflexivity|]. split; [exact Hpass|].
      intros i Hi. destruct (Z.eq_dec i k) as [->|]; [exact E|apply Hno; lia].
  Qed.

  (** 997 rounds always suffice. *)
  Lemma doubling_phase_terminates : forall fuel k,
    1 <= k <= 996 -> 997 - k <= Z.of_nat fuel ->
    doubling_phase ge f L fuel (2 ^ k) <> OutOfFuel /\
    doubling_phase ge f L fuel (2 ^ k) <> ErrArith.
  Proof.
    induction fuel as [|fuel IH]; intros k Hk Hf; [lia|]. simpl.
    destruct (ge L (f (2 ^ k)) && ge (f (2 ^ k)) (f (2 ^ k + 1))); [split; discriminate|].
    assert (Hp : 2 ^ k * 2 = 2 ^ (k + 1)) by (rewrite Z.pow_add_r by lia; lia).
    rewrite Hp. destruct (float_1e300 <? 2 ^ (k + 1)) eqn:E2; [split; discriminate|].
    apply Z.ltb_ge in E2.
    assert (k + 1 <= 996).
    { destruct (Z_lt_le_dec 996 (k + 1)) as [H|]; [|lia].
      pose proof pow2_997. assert (2 ^ 997 <= 2 ^ (k + 1)) by (apply Z.pow_le_mono_r; lia).
      lia. }
    apply IH; lia.
  Qed.

  Lemma doubling_phase_no_arith : forall fuel ub, doubling_phase ge f L fuel ub <> ErrArith.
  Proof.
    induction fuel as [|fuel IH]; intros ub; simpl; [discriminate|].
    destruct (_ && _); [discriminate|].
    destruct (float_1e300 <? _); [discriminate|]. apply IH.
  Qed.

  Lemma doubling_phase_overflow : forall fuel k,
    1 <= k -> doubling_phase ge f L fuel (2 ^ k) = ErrOverflow ->
    forall i, k <= i <= 996 -> passes (2 ^ i) = false.
  Proof.
    induction fuel as [|fuel IH]; intros k Hk; simpl; [discriminate|].
    destruct (ge L (f (2 ^ k)) && ge (f (2 ^ k)) (f (2 ^ k + 1))) eqn:E; [discriminate|].
    assert (Hp : 2 ^ k * 2 = 2 ^ (k + 1)) by (rewrite Z.pow_add_r by lia; lia).
    rewrite Hp. destruct (float_1e300 <? 2 ^ (k + 1)) eqn:E2.
    - intros _ i Hi. apply Z.ltb_lt in E2.
      assert (k = i) as ->; [|exact E].
      destruct (Z.eq_dec k i); [assumption|exfalso].
      pose proof pow2_996. assert (2 ^ (k + 1) <= 2 ^ 996) by (apply Z.pow_le_mono_r; lia). lia.
    - intros Hr i Hi. destruct (Z.eq_dec i k) as [->|]; [exact E|].
      apply (IH (k + 1)); auto; lia.
  Qed.

  Lemma binary_phase_spec : forall fuel lb ub m,
    1 <= lb -> 2 <= ub ->
    binary_phase gt f L fuel lb ub = Ret m ->
    2 <= m /\
    (m = ub \/ rejects m = false) /\
    (m = lb + 1 \/ rejects (m - 1) = true).
  Proof.
    induction fuel as [|fuel IH]; intros lb ub m Hlb Hub; simpl; [discriminate|].
    destruct (ub =? lb + 1) eqn:E1.
    - intros [= <-]. apply Z.eqb_eq in E1. lia.
    - destruct (ub <=? lb) eqn:E2; [discriminate|].
      apply Z.eqb_neq in E1. apply Z.leb_gt in E2.
      pose proof (py_half_int_pos (lb + ub) ltac:(lia)) as Hpos.
      set (t := py_half_int (lb + ub)) in *.
      destruct (gt (f t) L || gt (f (t + 1)) (f t)) eqn:E3; intros Hr.
      + destruct (IH t ub m ltac:(lia) Hub Hr) as (H1 & H2 & H3).
        split; [exact H1|]. split; [exact H2|].
        destruct H3 as [H3|H3]; [right|right; exact H3].
        replace (m - 1) with t by lia. exact E3.
      + destruct (Z_le_gt_dec 2 t) as [Ht|Ht].
        * destruct (IH lb t m Hlb Ht Hr) as (H1 & H2 & H3).
          split; [exact H1|]. split; [|exact H3].
          destruct H2 as [->|H2]; right; [exact E3|exact H2].
        * (* t = 1 : the recursive call cannot return *)
          exfalso. assert (t = 1) by lia.
          destruct fuel as [|fuel']; simpl in Hr; [discriminate|].
          rewrite H in Hr.
          replace (1 =? lb + 1) with false in Hr by (symmetry; apply Z.eqb_neq; lia).
          replace (1 <=? lb) with true in Hr by (symmetry; apply Z.leb_le; lia).
          discriminate.
  Qed.

  (** Whatever the function, only representable neighbours are returned. *)
  Lemma binary_phase_le_2_53 : forall fuel lb ub m,
    0 <= lb -> 0 <= ub -> rep lb -> rep ub ->
    binary_phase gt f L fuel lb ub = Ret m -> m <= 2 ^ 53.
  Proof.
    induction fuel as [|fuel IH]; intros lb ub m Hlb Hub Rlb Rub; simpl; [discriminate|].
    destruct (ub =? lb + 1) eqn:E1.
    - intros [= <-]. apply Z.eqb_eq in E1.
      destruct (Z_le_gt_dec ub (2 ^ 53)); [assumption|exfalso].
      pose proof (rep_even ub Rub ltac:(lia)) as [x Hx].
      destruct (Z.eq_dec lb (2 ^ 53)) as [Heq|].
      + lia.
      + pose proof (rep_even lb Rlb ltac:(lia)) as [y Hy]. lia.
    - destruct (ub <=? lb) eqn:E2; [discriminate|].
      assert (Hs : 0 <= lb + ub) by lia.
      pose proof (py_half_int_rep (lb + ub) Hs) as Hrep.
      assert (Hge : 0 <= py_half_int (lb + ub)).
      { apply Z.leb_gt in E2. destruct (Z_le_gt_dec 2 (lb + ub)).
        - pose proof (py_half_int_pos (lb + ub) ltac:(lia)); lia.
        - rewrite py_half_int_small by lia. apply Z.div_pos; lia. }
      destruct (gt _ L || gt _ _); apply IH; auto.
  Qed.

  (** Below 2^53 the interval at least halves in every round. *)
  Lemma binary_phase_terminates : forall n fuel lb ub,
    1 <= lb -> lb < ub -> ub <= 2 ^ 53 ->
    ub - lb <= 2 ^ (Z.of_nat n) -> (n < fuel)%nat ->
    exists m, binary_phase gt f L fuel lb ub = Ret m.
  Proof.
    induction n as [|n IH]; intros fuel lb ub H1 H2 H7 H5 H6;
      (destruct fuel as [|fuel]; [lia|]); simpl.
    - change (2 ^ Z.of_nat 0) with 1 in H5.
      replace (ub =? lb + 1) with true by (symmetry; apply Z.eqb_eq; lia).
      eexists; reflexivity.
    - destruct (ub =? lb + 1) eqn:E1; [eexists; reflexivity|].
      apply Z.eqb_neq in E1.
      replace (ub <=? lb) with false by (symmetry; apply Z.leb_gt; lia).
      set (t := py_half_int (lb + ub)).
      assert (Hpow : 2 ^ Z.of_nat (S n) = 2 * 2 ^ Z.of_nat n).
      { rewrite Nat2Z.inj_succ, Z.pow_succ_r by lia. reflexivity. }
      assert (Ht : lb < t < ub /\ t - lb <= 2 ^ Z.of_nat n /\ ub - t <= 2 ^ Z.of_nat n).
      { unfold t. destruct (Z_lt_le_dec (lb + ub) (2 ^ 53)) as [Hs|Hs].
        - rewrite py_half_int_small by exact Hs.
          pose proof (Z.div_mod (lb + ub) 2 ltac:(lia)).
          pose proof (Z.mod_pos_bound (lb + ub) 2 ltac:(lia)).
          assert (Hn : n = O \/ (0 < n)%nat) by lia.
          destruct Hn as [->|Hn].
          + change (2 ^ Z.of_nat 0) with 1 in *. lia.
          + assert (He : exists x, 2 ^ Z.of_nat n = 2 * x).
            { exists (2 ^ (Z.of_nat n - 1)). rewrite <- Z.pow_succ_r by lia. f_equal. lia. }
            destruct He as [x Hx]. lia.
        - destruct (py_half_int_big _ Hs) as (e & q & r & He & Hse & Hr & Hq & Hv & _).
          assert (e = 0).
          { destruct (Z.eq_dec e 0); [assumption|exfalso].
            assert (2 ^ 2 <= 2 ^ (e + 1)) by (apply Z.pow_le_mono_r; lia).
            nia. }
          subst e. change (2 ^ (0 + 1)) with 2 in *. change (2 ^ 0) with 1 in *.
          assert (Hn : n = O \/ (0 < n)%nat) by lia.
          destruct Hn as [->|Hn].
          + change (2 ^ Z.of_nat 0) with 1 in *. lia.
          + assert (Hxe : exists x, 2 ^ Z.of_nat n = 2 * x).
            { exists (2 ^ (Z.of_nat n - 1)). rewrite <- Z.pow_succ_r by lia. f_equal. lia. }
            destruct Hxe as [x Hx]. lia. }
      destruct Ht as (Ht1 & Ht2 & Ht3).
      destruct (gt (f t) L || gt (f (t + 1)) (f t)).
      + apply IH; try lia.
      + apply IH; try lia.
  Qed.
End Doubling.

(** * Rounding keeps the midpoint inside the interval *)

Lemma rep_le_py_half : forall a s, rep a -> 0 <= s -> 2 * a <= s -> a <= py_half_int s.
Proof.
  intros a s (a' & e' & He' & Ha' & ->) Hs0 Hle.
  destruct (Z_lt_le_dec s (2 ^ 53)) as [H|H].
  - rewrite py_half_int_small by exact H. apply Z.div_le_lower_bound; lia.
  - destruct (py_half_int_big s H) as (e & q & r & He & Hse & Hr & Hq & Hv & _).
    assert (Hpe : 0 < 2 ^ e) by (apply Z.pow_pos_nonneg; lia).
    assert (Hsp : 2 ^ (e + 1) = 2 * 2 ^ e) by (rewrite Z.pow_add_r by lia; lia).
    rewrite Hsp in *.
    assert (Hq2 : a' * 2 ^ e' <= q * 2 ^ e).
    { destruct (Z_lt_le_dec e' e) as [Hlt|Hge].
      - assert (2 ^ e = 2 ^ (e - e') * 2 ^ e').
        { rewrite <- Z.pow_add_r by lia. f_equal; lia. }
        assert (2 ^ 1 <= 2 ^ (e - e')) by (apply Z.pow_le_mono_r; lia).
        assert (0 < 2 ^ e') by (apply Z.pow_pos_nonneg; lia).
        change (2 ^ 1) with 2 in *.
        assert (2 * 2 ^ e' <= 2 ^ e) by nia.
        assert (a' * 2 ^ e' <= 2 ^ 53 * 2 ^ e') by nia.
        assert (2 ^ 53 * 2 ^ e' = 2 ^ 52 * (2 * 2 ^ e')) by (change (2 ^ 53) with (2 ^ 52 * 2); ring).
        nia.
      - assert (Hm : 2 ^ e' = 2 ^ (e' - e) * 2 ^ e).
        { rewrite <- Z.pow_add_r by lia. f_equal; lia. }
        rewrite Hm, Z.mul_assoc in *. set (x := a' * 2 ^ (e' - e)) in *.
        assert (x < q + 1) by nia. nia. }
    destruct Hv as [[-> _]|[-> _]]; nia.
Qed.

Lemma rep_ge_py_half : forall a s, rep a -> 0 <= s -> s <= 2 * a -> py_half_int s <= a.
Proof.
  intros a s (a' & e' & He' & Ha' & ->) Hs0 Hle.
  destruct (Z_lt_le_dec s (2 ^ 53)) as [H|H].
  - rewrite py_half_int_small by exact H. apply Z.div_le_upper_bound; lia.
  - destruct (py_half_int_big s H) as (e & q & r & He & Hse & Hr & Hq & Hv & _).
    assert (Hpe : 0 < 2 ^ e) by (apply Z.pow_pos_nonneg; lia).
    assert (Hsp : 2 ^ (e + 1) = 2 * 2 ^ e) by (rewrite Z.pow_add_r by lia; lia).
    rewrite Hsp in *.
    destruct (Z_lt_le_dec e' e) as [Hlt|Hge].
    + assert (2 ^ e = 2 ^ (e - e') * 2 ^ e').
      { rewrite <- Z.pow_add_r by lia. f_equal; lia. }
      assert (2 ^ 1 <= 2 ^ (e - e')) by (apply Z.pow_le_mono_r; lia).
      assert (0 < 2 ^ e') by (apply Z.pow_pos_nonneg; lia).
      change (2 ^ 1) with 2 in *.
      assert (2 * 2 ^ e' <= 2 ^ e) by nia.
      assert (a' * 2 ^ e' <= 2 ^ 53 * 2 ^ e') by nia.
      assert (2 ^ 53 * 2 ^ e' = 2 ^ 52 * (2 * 2 ^ e')) by (change (2 ^ 53) with (2 ^ 52 * 2); ring).
      destruct Hv as [[-> _]|[-> ?]]; nia.
    + assert (Hm : 2 ^ e' = 2 ^ (e' - e) * 2 ^ e).
      { rewrite <- Z.pow_add_r by lia. f_equal; lia. }
      rewrite Hm, Z.mul_assoc in *. set (x := a' * 2 ^ (e' - e)) in *.
      destruct Hv as [[-> _]|[-> ?]].
      * nia.
      * assert (q < x) by nia. nia.
Qed.

Section Doubling2.
  Context {V : Type}.
  Variable ge gt : V -> V -> bool.
  Hypothesis ge_not_gt : forall a b, ge b a = true -> gt a b = false.
  Variable f : Z -> V.
  Variable L : V.

  Lemma passes_not_rejects : forall m, passes ge f L m = true -> rejects gt f L m = false.
  Proof.
    intros m H. unfold passes, rejects in *. apply andb_prop in H. destruct H as [H1 H2].
    rewrite (ge_not_gt _ _ H1), (ge_not_gt _ _ H2). reflexivity.
  Qed.

  Lemma binary_phase_no_err : forall fuel lb ub,
    1 <= lb -> lb < ub -> rep lb -> rep ub ->
    lb = 1 \/ rejects gt f L lb = true -> rejects gt f L ub = false ->
    binary_phase gt f L fuel lb ub <> ErrArith /\
    binary_phase gt f L fuel lb ub <> ErrOverflow.
  Proof.
    induction fuel as [|fuel IH]; intros lb ub H1 H2 R1 R2 Hl Hu; simpl; [split; discriminate|].
    destruct (ub =? lb + 1) eqn:E1; [split; discriminate|].
    apply Z.eqb_neq in E1.
    replace (ub <=? lb) with false by (symmetry; apply Z.leb_gt; lia).
    pose proof (rep_le_py_half lb (lb + ub) R1 ltac:(lia) ltac:(lia)) as Hlo.
    pose proof (rep_ge_py_half ub (lb + ub) R2 ltac:(lia) ltac:(lia)) as Hhi.
    pose proof (py_half_int_rep (lb + ub) ltac:(lia)) as Hrep.
    set (t := py_half_int (lb + ub)) in *.
    change (gt (f t) L || gt (f (t + 1)) (f t)) with (rejects gt f L t).
    destruct (rejects gt f L t) eqn:E3.
    - apply IH; auto; try lia.
      destruct (Z.eq_dec t ub) as [Heq|Hneq]; [|lia]. rewrite Heq in E3. congruence.
    - apply IH; auto; try lia.
      destruct (Z.eq_dec t lb) as [Heq|Hneq]; [|lia].
      destruct Hl as [Hl|Hl]; [|congruence].
      (* lb = 1: the midpoint 1 + ub would have to round down to 1 *)
      exfalso. subst lb. clear - Heq E1 H2. 
      assert (2 <= (1 + ub) / 2) by (apply Z.div_le_lower_bound; lia).
      pose proof (rep_le_py_half 2 (1 + ub) (rep_small 2 ltac:(lia)) ltac:(lia) ltac:(lia)).
      fold t in H0. lia.
  Qed.
End Doubling2.

(** * Whole search *)
Section Whole.
  Context {V : Type}.
  Variable ge gt : V -> V -> bool.
  Variable f : Z -> V.
  Variable L : V.
  Hypothesis ge_not_gt : forall a b, ge b a = true -> gt a b = false.

  Notation search := (doubling_search ge gt f L).

  Lemma search_ret_inv : forall fuel m, search fuel = Ret m ->
    2 <= m <= 2 ^ 53 /\ rejects gt f L m = false /\
    (passes ge f L m = true \/ rejects gt f L m = false) /\
    (m = 2 \/ rejects gt f L (m - 1) = true) /\
    exists j, 1 <= j <= 996 /\ passes ge f L (2 ^ j) = true.
  Proof.
    intros fuel m H. unfold doubling_search in H.
    destruct (doubling_phase ge f L fuel 2) as [ub| | |] eqn:E; try discriminate.
    change 2 with (2 ^ 1) in E.
    apply doubling_phase_spec in E; [|lia].
    destruct E as (j & Hj & -> & Hp & _).
    assert (H2 : 2 <= 2 ^ j) by (change 2 with (2 ^ 1) at 1; apply Z.pow_le_mono_r; lia).
    pose proof (binary_phase_spec gt f L fuel 1 (2 ^ j) m ltac:(lia) H2 H) as (A & B & C).
    pose proof (binary_phase_le_2_53 gt f L fuel 1 (2 ^ j) m ltac:(lia) ltac:(lia)
                  (rep_small 1 ltac:(lia)) (rep_pow2 j ltac:(lia)) H) as D.
    assert (Rm : rejects gt f L m = false).
    { destruct B as [->|B]; [|exact B]. apply (passes_not_rejects ge); auto. }
    repeat split; auto. exists j. split; [lia|exact Hp].
  Qed.

  Lemma search_no_err_arith : forall fuel, search fuel <> ErrArith.
  Proof.
    intros fuel H. unfold doubling_search in H.
    destruct (doubling_phase ge f L fuel 2) as [ub| | |] eqn:E; try discriminate.
    - change 2 with (2 ^ 1) in E. apply doubling_phase_spec in E; [|lia].
      destruct E as (j & Hj & -> & Hp & _).
      assert (H2 : 2 <= 2 ^ j) by (change 2 with (2 ^ 1) at 1; apply Z.pow_le_mono_r; lia).
      apply (passes_not_rejects ge gt ge_not_gt) in Hp.
      apply (binary_phase_no_err gt f L fuel 1 (2 ^ j)) in H; auto; try lia.
      + apply rep_small; lia.
      + apply rep_pow2; lia.
    - exact (doubling_phase_no_arith ge f L fuel 2 E).
  Qed.

  (** Fuel 1000 is enough for the first loop, 54 rounds for the second one. *)
  Lemma search_terminates : forall j, 1 <= j <= 53 -> passes ge f L (2 ^ j) = true ->
    forall fuel, (1000 <= fuel)%nat -> exists m, search fuel = Ret m.
  Proof.
    intros j Hj Hp fuel Hf. unfold doubling_search.
    assert (Hd : exists i, 1 <= i <= 53 /\ doubling_phase ge f L fuel 2 = Ret (2 ^ i)).
    { destruct (doubling_phase_terminates ge f L fuel 1 ltac:(lia) ltac:(lia)) as [T1 T2].
      change (2 ^ 1) with 2 in T1, T2.
      destruct (doubling_phase ge f L fuel 2) as [ub| | |] eqn:E; try congruence.
      - change 2 with (2 ^ 1) in E. apply doubling_phase_spec in E; [|lia].
        destruct E as (i & Hi & -> & Hpi & Hno). exists i. split; [|reflexivity].
        destruct (Z_le_gt_dec i 53); [lia|]. specialize (Hno j ltac:(lia)). congruence.
      - change 2 with (2 ^ 1) in E. 
        pose proof (doubling_phase_overflow ge f L fuel 1 ltac:(lia) E j ltac:(lia)). congruence. }
    destruct Hd as (i & Hi & ->).
    assert (H2 : 2 <= 2 ^ i) by (change 2 with (2 ^ 1) at 1; apply Z.pow_le_mono_r; lia).
    assert (H3 : 2 ^ i <= 2 ^ 53) by (apply Z.pow_le_mono_r; lia).
    assert (Hn : 2 ^ i - 1 <= 2 ^ Z.of_nat 53) by (change (Z.of_nat 53) with 53; lia).
    apply (binary_phase_terminates gt f L 53 fuel 1 (2 ^ i)); try lia; exact Hn.
  Qed.

  Lemma search_overflow : forall fuel, (1000 <= fuel)%nat ->
    (forall j, 1 <= j <= 996 -> passes ge f L (2 ^ j) = false) ->
    search fuel = ErrOverflow.
  Proof.
    intros fuel Hf Hno. unfold doubling_search.
    destruct (doubling_phase_terminates ge f L fuel 1 ltac:(lia) ltac:(lia)) as [T1 T2].
    change (2 ^ 1) with 2 in T1, T2.
    destruct (doubling_phase ge f L fuel 2) as [ub| | |] eqn:E; try congruence.
    change 2 with (2 ^ 1) in E. apply doubling_phase_spec in E; [|lia].
    destruct E as (i & Hi & -> & Hpi & _). rewrite Hno in Hpi by lia. discriminate.
  Qed.

  (** Overflow is raised only if no power of two up to 2^996 passes. *)
  Lemma search_overflow_inv : forall fuel, search fuel = ErrOverflow ->
    forall j, 1 <= j <= 996 -> passes ge f L (2 ^ j) = false.
  Proof.
    intros fuel H. unfold doubling_search in H.
    destruct (doubling_phase ge f L fuel 2) as [ub| | |] eqn:E; try discriminate.
    - change 2 with (2 ^ 1) in E. apply doubling_phase_spec in E; [|lia].
      destruct E as (j & Hj & -> & Hp & _).
      assert (H2 : 2 <= 2 ^ j) by (change 2 with (2 ^ 1) at 1; apply Z.pow_le_mono_r; lia).
      apply (passes_not_rejects ge gt ge_not_gt) in Hp.
      apply (binary_phase_no_err gt f L fuel 1 (2 ^ j)) in H; auto; try lia; contradiction
        || (try (apply rep_small; lia); apply rep_pow2; lia).
    - change 2 with (2 ^ 1) in E. apply (doubling_phase_overflow ge f L fuel 1 ltac:(lia) E).
  Qed.

  (** If a power of two passes but nothing up to 2^53 is acceptable, the search
      runs forever. *)
  Lemma search_diverges : forall j, 1 <= j <= 996 -> passes ge f L (2 ^ j) = true ->
    (forall m, 2 <= m <= 2 ^ 53 -> rejects gt f L m = true) ->
    forall fuel, search fuel = OutOfFuel.
  Proof.
    intros j Hj Hp Hr fuel.
    destruct (search fuel) as [m| | |] eqn:E; [| | |reflexivity].
    - apply search_ret_inv in E. destruct E as (A & B & _). rewrite Hr in B by lia. discriminate.
    - pose proof (search_overflow_inv fuel E j Hj). congruence.
    - exfalso. exact (search_no_err_arith fuel E).
  Qed.
End Whole.

(** * Float comparisons *)

Lemma fge_fle : forall a b, fge a b = true <-> fle b a.
Proof.
  intros [| |x|] [| |y|]; simpl; try (split; congruence || tauto).
  apply Qle_bool_iff.
Qed.

Lemma fgt_not_fle : forall a b, a <> FNaN -> b <> FNaN -> (fgt a b = true <-> ~ fle a b).
Proof.
  intros [| |x|] [| |y|] Ha Hb; simpl; try congruence; try (split; congruence || tauto).
  rewrite negb_true_iff, <- not_true_iff_false, Qle_bool_iff. tauto.
Qed.

Lemma fge_not_fgt : forall a b, fge b a = true -> fgt a b = false.
Proof.
  intros [| |x|] [| |y|]; simpl; try congruence.
  intros ->. reflexivity.
Qed.

(** * Halving search *)
Section Halving.
  Context {V : Type}.
  Variable ge gt : V -> V -> bool.
  Variable f : Q -> V.
  Variable L : V.
  Variable tol : Q.
  Open Scope Q_scope.

  (** rejection test of bound.py 287 *)
  Definition radius_rejected (r : Q) : bool :=
    ge (f (r - tol / 2)) (f r) || gt (f r) L.

  Lemma halving_loop_spec : forall fuel lb ub r,
    lb < ub -> halving_loop ge gt f L tol fuel lb ub = Ret r ->
    lb <= r /\ r < ub /\ (r = lb \/ radius_rejected r = false) /\
    exists u, r < u /\ u <= r + tol /\ u <= ub /\ (u = ub \/ radius_rejected u = true).
  Proof.
    induction fuel as [|fuel IH]; intros lb ub r Hlt; simpl; [discriminate|].
    destruct (Qle_bool (ub - lb) tol) eqn:E1.
    - intros [= <-]. apply Qle_bool_iff in E1. repeat split; try lra.
      + left; reflexivity.
      + exists ub. repeat split; try lra. left; reflexivity.
    - destruct (negb (Qle_bool lb ub)) eqn:E2; [discriminate|].
      set (t := (lb + ub) / 2).
      assert (Ht : lb < t /\ t < ub).
      { unfold t. split; [apply Qlt_shift_div_l|apply Qlt_shift_div_r]; lra. }
      change (ge (f (t - tol / 2)) (f t) || gt (f t) L) with (radius_rejected t).
      destruct (radius_rejected t) eqn:E3; intros Hr.
      + destruct (IH lb t r ltac:(lra) Hr) as (A & B & C & u & D1 & D2 & D3 & D4).
        repeat split; try lra; auto.
        exists u. repeat split; try lra.
        right. destruct D4 as [->|D4]; assumption.
      + destruct (IH t ub r ltac:(lra) Hr) as (A & B & C & u & D).
        repeat split; try lra.
        * right. destruct C as [->|C]; assumption.
        * exists u. exact D.
  Qed.

  Lemma halving_loop_no_err : forall fuel lb ub,
    lb < ub -> halving_loop ge gt f L tol fuel lb ub <> ErrArith /\
               halving_loop ge gt f L tol fuel lb ub <> ErrOverflow.
  Proof.
    induction fuel as [|fuel IH]; intros lb ub Hlt; simpl; [split; discriminate|].
    destruct (Qle_bool (ub - lb) tol); [split; discriminate|].
    replace (Qle_bool lb ub) with true by (symmetry; apply Qle_bool_iff; lra). simpl.
    set (t := (lb + ub) / 2).
    assert (Ht : lb < t /\ t < ub).
    { unfold t. split; [apply Qlt_shift_div_l|apply Qlt_shift_div_r]; lra. }
    destruct (_ || _); apply IH; lra.
  Qed.

  Lemma halving_loop_terminates : forall n fuel lb ub,
    0 < tol -> lb < ub -> ub - lb <= inject_Z (2 ^ Z.of_nat n) * tol -> (n < fuel)%nat ->
    exists r, halving_loop ge gt f L tol fuel lb ub = Ret r.
  Proof.
    induction n as [|n IH]; intros fuel lb ub Hp Hlt Hsz Hf;
      (destruct fuel as [|fuel]; [lia|]); simpl.
    - replace (Qle_bool (ub - lb) tol) with true.
      + eexists; reflexivity.
      + symmetry. apply Qle_bool_iff. change (inject_Z (2 ^ Z.of_nat 0)) with 1 in Hsz. lra.
    - destruct (Qle_bool (ub - lb) tol) eqn:E1; [eexists; reflexivity|].
      replace (Qle_bool lb ub) with true by (symmetry; apply Qle_bool_iff; lra). simpl.
      set (t := (lb + ub) / 2).
      assert (Ht : lb < t /\ t < ub).
      { unfold t. split; [apply Qlt_shift_div_l|apply Qlt_shift_div_r]; lra. }
      assert (Ht2 : 2 * t == lb + ub) by (unfold t; field).
      assert (Hpow : inject_Z (2 ^ Z.of_nat (S n)) == 2 * inject_Z (2 ^ Z.of_nat n)).
      { rewrite Nat2Z.inj_succ, Z.pow_succ_r, inject_Z_mult by lia. reflexivity. }
      rewrite Hpow in Hsz.
      assert (Hh : ub - t <= inject_Z (2 ^ Z.of_nat n) * tol /\ t - lb <= inject_Z (2 ^ Z.of_nat n) * tol).
      { set (x := inject_Z (2 ^ Z.of_nat n) * tol) in *.
        assert (2 * inject_Z (2 ^ Z.of_nat n) * tol == 2 * x) by (unfold x; ring).
        split; lra. }
      destruct (_ || _); apply IH; try lra; lia.
  Qed.

  Lemma pow2_archimedean : forall q : Q, exists n : nat, q <= inject_Z (2 ^ Z.of_nat n).
  Proof.
    intros q. destruct (Qlt_le_dec q 1) as [H|H].
    - exists O. change (inject_Z (2 ^ Z.of_nat 0)) with 1. lra.
    - exists (Z.to_nat (Z.log2_up (Qceiling q))).
      assert (0 < Qceiling q)%Z.
      { rewrite Zlt_Qlt. pose proof (Qle_ceiling q). change (inject_Z 0) with 0. lra. }
      rewrite Z2Nat.id by apply Z.log2_up_nonneg.
      apply Qle_trans with (inject_Z (Qceiling q)); [apply Qle_ceiling|].
      rewrite <- Zle_Qle. apply Z.log2_log2_up_spec. exact H0.
  Qed.

  Lemma halving_terminates : forall lb ub, 0 < tol -> lb < ub ->
    exists N, forall fuel, (N <= fuel)%nat ->
      exists r, halving_search ge gt f L tol fuel lb ub = Some (Ret r).
  Proof.
    intros lb ub Hp Hlt.
    destruct (pow2_archimedean ((ub - lb) / tol)) as [n Hn].
    exists (S n). intros fuel Hf. unfold halving_search.
    replace (Qle_bool ub lb) with false.
    2:{ symmetry. apply not_true_iff_false. rewrite Qle_bool_iff. lra. }
    simpl. destruct (halving_loop_terminates n fuel lb ub Hp Hlt) as [r Hr].
    - apply (Qmult_le_r _ _ tol Hp) in Hn.
      assert ((ub - lb) / tol * tol == ub - lb) by (field; lra). lra.
    - lia.
    - exists r. rewrite Hr. reflexivity.
  Qed.

  Lemma halving_diverges : forall fuel lb ub, tol <= 0 -> lb < ub ->
    halving_loop ge gt f L tol fuel lb ub = OutOfFuel.
  Proof.
    induction fuel as [|fuel IH]; intros lb ub Hp Hlt; simpl; [reflexivity|].
    replace (Qle_bool (ub - lb) tol) with false.
    2:{ symmetry. apply not_true_iff_false. rewrite Qle_bool_iff. lra. }
    replace (Qle_bool lb ub) with true by (symmetry; apply Qle_bool_iff; lra). simpl.
    set (t := (lb + ub) / 2).
    assert (Ht : lb < t /\ t < ub).
    { unfold t. split; [apply Qlt_shift_div_l|apply Qlt_shift_div_r]; lra. }
    destruct (_ || _); apply IH; lra.
  Qed.
End Halving.

Lemma linear_search_outcome : forall (V : Type) (gt : V -> V -> bool) f fp tol fuel lb ub,
  linear_search gt f fp tol (S fuel) lb ub =
    (if negb (Qle_bool lb ub) then ErrArith
     else if gt (f (lb + tol)%Q) fp then Ret lb else OutOfFuel).
Proof.
  intros. unfold linear_search.
  destruct (negb (Qle_bool lb ub)) eqn:E1; simpl; rewrite E1; [reflexivity|].
  destruct (gt (f (lb + tol)%Q) fp) eqn:E2; [reflexivity|].
  induction fuel as [|fuel IH]; simpl; [reflexivity|].
  rewrite E1, E2. exact IH.
Qed.

(** * The statements of Search_Props.v *)

Lemma certified_proof : forall (f : Z -> fval) (L : fval) fuel m,
  (forall k, f k <> FNaN) -> L <> FNaN ->
  doubling_search fge fgt f L fuel = Ret m ->
  2 <= m <= 2 ^ 53 /\ count_ok f L m /\ (m = 2 \/ ~ count_ok f L (m - 1)).
Proof.
  intros f L fuel m Hf HL H.
  apply (search_ret_inv fge fgt f L fge_not_fgt) in H. destruct H as (A & B & _ & C & _).
  assert (R : forall k, rejects fgt f L k = true <-> ~ count_ok f L k).
  { intros k. unfold rejects, count_ok. rewrite orb_true_iff.
    rewrite !fgt_not_fle by auto.
    assert (D : forall a b, a <> FNaN -> b <> FNaN -> fle a b \/ ~ fle a b).
    { intros a b Ha Hb. destruct (fge b a) eqn:E.
      - left. apply fge_fle. exact E.
      - right. intros F. apply fge_fle in F. congruence. }
    destruct (D (f k) L (Hf k) HL); destruct (D (f (k + 1)) (f k)); auto; tauto. }
  split; [exact A|]. split.
  - destruct (fge L (f m)) eqn:E1; destruct (fge (f m) (f (m + 1))) eqn:E2.
    + split; apply fge_fle; assumption.
    + exfalso. apply not_true_iff_false in B. apply B. apply R. intros [_ X].
      apply fge_fle in X. congruence.
    + exfalso. apply not_true_iff_false in B. apply B. apply R. intros [X _].
      apply fge_fle in X. congruence.
    + exfalso. apply not_true_iff_false in B. apply B. apply R. intros [X _].
      apply fge_fle in X. congruence.
  - destruct C as [C|C]; [left; exact C|right]. apply R. exact C.
Qed.

Lemma passes_count_ok : forall f L m, passes fge f L m = true <-> count_ok f L m.
Proof.
  intros. unfold passes, count_ok. rewrite andb_true_iff, !fge_fle. tauto.
Qed.

Lemma terminates_proof : forall (f : Z -> fval) (L : fval),
  (exists j, 1 <= j <= 53 /\ count_ok f L (2 ^ j)) ->
  forall fuel, (1000 <= fuel)%nat -> exists m, doubling_search fge fgt f L fuel = Ret m.
Proof.
  intros f L (j & Hj & Hok) fuel Hf.
  apply (search_terminates fge fgt f L j Hj); auto. apply passes_count_ok. exact Hok.
Qed.

Lemma overflow_proof : forall (f : Z -> fval) (L : fval) fuel, (1000 <= fuel)%nat ->
  (doubling_search fge fgt f L fuel = ErrOverflow <->
   forall j, 1 <= j <= 996 -> ~ count_ok f L (2 ^ j)).
Proof.
  intros f L fuel Hf. split.
  - intros H j Hj Hok. apply passes_count_ok in Hok.
    rewrite (search_overflow_inv fge fgt f L fge_not_fgt fuel H j Hj) in Hok. discriminate.
  - intros H. apply search_overflow; auto. intros j Hj.
    apply not_true_iff_false. rewrite passes_count_ok. auto.
Qed.

Lemma diverges_proof : forall (f : Z -> fval) (L : fval),
  (forall k, f k <> FNaN) -> L <> FNaN ->
  (exists j, 1 <= j <= 996 /\ count_ok f L (2 ^ j)) ->
  (forall m, 2 <= m <= 2 ^ 53 -> ~ count_ok f L m) ->
  forall fuel, doubling_search fge fgt f L fuel = OutOfFuel.
Proof.
  intros f L Hf HL (j & Hj & Hok) Hno fuel.
  destruct (doubling_search fge fgt f L fuel) as [m| | |] eqn:E; [| | |reflexivity].
  - apply certified_proof in E; auto. destruct E as (A & B & _). exfalso. exact (Hno m A B).
  - apply passes_count_ok in Hok.
    rewrite (search_overflow_inv fge fgt f L fge_not_fgt fuel E j Hj) in Hok. discriminate.
  - exfalso. exact (search_no_err_arith fge fgt f L fge_not_fgt fuel E).
Qed.

(** A bound function that first drops at 2^53 + 1. *)
Definition late_step (m : Z) : fval := FFin (if m <=? 2 ^ 53 then 0 else (-1 # 1)).

Lemma terminates_refuted_proof :
  exists (f : Z -> fval) (L : fval),
    (forall k, f k <> FNaN) /\ L <> FNaN /\
    (forall k, fle (f (k + 1)) (f k)) /\ count_ok f L (2 ^ 53 + 1) /\
    forall fuel, doubling_search fge fgt f L fuel = OutOfFuel.
Proof.
  exists late_step, (FFin (-1 # 1)).
  assert (Hnan : forall k, late_step k <> FNaN) by (intros k; discriminate).
  assert (Hmono : forall k, fle (late_step (k + 1)) (late_step k)).
  { intros k. unfold late_step, fle.
    destruct (k + 1 <=? 2 ^ 53) eqn:E1; destruct (k <=? 2 ^ 53) eqn:E2; try (vm_compute; discriminate).
    apply Z.leb_le in E1. apply Z.leb_gt in E2. lia. }
  assert (Hok : forall k, 2 ^ 53 < k -> count_ok late_step (FFin (-1 # 1)) k).
  { intros k Hk. split; [|apply Hmono]. unfold late_step.
    replace (k <=? 2 ^ 53) with false by (symmetry; apply Z.leb_gt; lia).
    vm_compute. discriminate. }
  split; [exact Hnan|]. split; [discriminate|]. split; [exact Hmono|].
  split; [apply Hok; lia|].
  apply diverges_proof; auto; [discriminate| |].
  - exists 54. split; [lia|]. apply Hok. lia.
  - intros m Hm [H _]. unfold late_step in H.
    replace (m <=? 2 ^ 53) with true in H by (symmetry; apply Z.leb_le; lia).
    vm_compute in H. congruence.
Qed.

(** A bound function that is NaN at 3 only. *)
Definition nan_at_3 (m : Z) : fval := if m =? 3 then FNaN else if m <? 3 then FFin 0 else FFin (-1 # 1).

Lemma radius_rejected_spec : forall f L tol r,
  (forall k, f k <> FNaN) -> L <> FNaN ->
  (radius_rejected fge fgt f L tol r = false <-> radius_ok f L tol r).
Proof.
  intros f L tol r Hf HL. unfold radius_rejected, radius_ok.
  rewrite orb_false_iff. rewrite <- !not_true_iff_false.
  rewrite fge_fle. rewrite fgt_not_fle by auto.
  assert (D : fle (f r) L \/ ~ fle (f r) L).
  { destruct (fge L (f r)) eqn:E.
    - left. apply fge_fle. exact E.
    - right. intros F. apply fge_fle in F. congruence. }
  tauto.
Qed.

Lemma halving_proof : forall (f : Q -> fval) (L : fval) tol fuel lb ub r,
  (forall k, f k <> FNaN) -> L <> FNaN ->
  halving_search fge fgt f L tol fuel lb ub = Some (Ret r) ->
  (lb <= r /\ r < ub)%Q /\ (r = lb \/ radius_ok f L tol r) /\
  exists u, (r < u /\ u <= r + tol /\ u <= ub)%Q /\ (u = ub \/ ~ radius_ok f L tol u).
Proof.
  intros f L tol fuel lb ub r Hf HL H. unfold halving_search in H.
  destruct (negb (Qle_bool ub lb)) eqn:E; [|discriminate].
  assert (Hlt : (lb < ub)%Q).
  { apply negb_true_iff, not_true_iff_false in E. rewrite Qle_bool_iff in E. lra. }
  injection H as H. apply halving_loop_spec in H; [|exact Hlt].
  destruct H as (A & B & C & u & D1 & D2 & D3 & D4).
  split; [split; assumption|]. split.
  - destruct C as [C|C]; [left; exact C|right]. apply radius_rejected_spec; auto.
  - exists u. split; [repeat split; assumption|].
    destruct D4 as [D4|D4]; [left; exact D4|right].
    intros X. apply radius_rejected_spec in X; auto. congruence.
Qed.

Lemma halving_near_optimal_proof : forall (f : Q -> fval) (L : fval) tol fuel lb ub r,
  (forall k, f k <> FNaN) -> L <> FNaN ->
  (forall a b, lb <= a -> a <= b -> b <= ub -> radius_ok f L tol b -> radius_ok f L tol a)%Q ->
  halving_search fge fgt f L tol fuel lb ub = Some (Ret r) ->
  forall x, (lb <= x /\ x < ub)%Q -> radius_ok f L tol x -> (x <= r + tol)%Q.
Proof.
  intros f L tol fuel lb ub r Hf HL Hd H x Hx Hok.
  apply halving_proof in H; auto. destruct H as (A & B & u & D & E).
  destruct (Qlt_le_dec (r + tol) x) as [Hlt|]; [exfalso|assumption].
  destruct E as [->|E]; [lra|]. apply E. apply (Hd u x); try lra. exact Hok.
Qed.

Lemma halving_outcomes_proof : forall (f : Q -> fval) (L : fval) tol fuel lb ub,
  halving_search fge fgt f L tol fuel lb ub <> Some ErrArith /\
  halving_search fge fgt f L tol fuel lb ub <> Some ErrOverflow /\
  (halving_search fge fgt f L tol fuel lb ub = None <-> (ub <= lb)%Q) /\
  ((tol <= 0)%Q -> (lb < ub)%Q -> halving_search fge fgt f L tol fuel lb ub = Some OutOfFuel).
Proof.
  intros f L tol fuel lb ub. unfold halving_search.
  destruct (Qle_bool ub lb) eqn:E; simpl.
  - apply Qle_bool_iff in E. repeat split; try discriminate; auto. intros _ X. lra.
  - assert (Hlt : (lb < ub)%Q).
    { apply not_true_iff_false in E. rewrite Qle_bool_iff in E. lra. }
    destruct (halving_loop_no_err fge fgt f L tol fuel lb ub Hlt) as [A B].
    repeat split; try congruence; try discriminate.
    + intros X. lra.
    + intros Ht _. rewrite halving_diverges by assumption. reflexivity.
Qed.
