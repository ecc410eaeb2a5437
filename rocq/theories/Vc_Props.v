(** Property C127: the set systems of bound.py.  compute_ss_comb_sum (bound.py 35-42) is the
    Sauer-Shelah count, and [vc_dim = dim + 1] (bound.py 82, 154) is the right VC dimension for
    balls in [dim] dimensions. *)
From Coq Require Import Reals List Arith Lra Lia Bool ZArith.
From Verif Require Import Prob Geom_Spec Bound_Model Bound_Spec Bound_Proofs.
Import ListNotations.
Local Open Scope R_scope.

(** *** Specification *)
(** Every labelling of the points is cut out by a set of the system. *)
Definition shatters {P} (system : (P -> bool) -> Prop) (pts : list P) : Prop :=
  forall labels, length labels = length pts -> exists r, system r /\ map r pts = labels.
(** No [d + 1] points of the population are shattered. *)
Definition vc_at_most {P} (d : nat) (system : (P -> bool) -> Prop) (X : list P) : Prop :=
  forall pts, Forall (fun x => In x X) pts -> length pts = S d -> ~ shatters system pts.
(** The different ways in which sets of the system meet the points. *)
Definition traces {P} (system : (P -> bool) -> Prop) (pts : list P) (vs : list (list bool)) : Prop :=
  NoDup vs /\ forall v, In v vs -> exists r, system r /\ map r pts = v.
(** closed balls, as decidable sets *)
Definition in_ball (c : list R) (rad : R) (x : list R) : bool := if Rle_dec (dist x c) rad then true else false.
Definition balls {P} (dim : nat) (pos : P -> list R) (r : P -> bool) : Prop :=
  exists c rad, length c = dim /\ forall x, r x = in_ball c rad (pos x).

(** *** Sauer-Shelah *)
Fixpoint ss (k n : nat) : nat :=
  match k, n with
  | O, _ => 0
  | S _, O => 1
  | S k', S n' => ss k n' + ss k' n'
  end%nat.
Fixpoint select {A} (mask : list bool) (v : list A) : list A :=
  match mask, v with
  | b :: m, x :: v' => if b then x :: select m v' else select m v'
  | _, _ => []
  end.
Definition ones (mask : list bool) : nat := count (fun b => b) mask.
Definition shat (mask : list bool) (vs : list (list bool)) : Prop :=
  forall labels, length labels = ones mask -> exists v, In v vs /\ select mask v = labels.
Lemma list_bool_dec (u v : list bool) : {u = v} + {u <> v}.
Proof. apply list_eq_dec, bool_dec. Qed.
Definition side (b : bool) (vs : list (list bool)) : list (list bool) :=
  flat_map (fun v => match v with [] => [] | x :: t => if eqb x b then [t] else [] end) vs.
Lemma side_in b vs t : In t (side b vs) <-> In (b :: t) vs.
Proof.
  unfold side. rewrite in_flat_map. split.
  - intros ([|x u] & I & H); [easy|]. destruct (eqb x b) eqn:E; [|easy]. apply eqb_prop in E. destruct H as [<-|[]]. now subst.
  - intro I. exists (b :: t). split; auto. rewrite eqb_reflx. now left.
Qed.
Lemma side_nodup b vs : NoDup vs -> NoDup (side b vs).
Proof.
  induction 1 as [|v vs H ND IH]; [constructor|]. simpl. destruct v as [|x t]; [auto|]. destruct (eqb x b) eqn:E; auto.
  apply eqb_prop in E. subst. simpl. constructor; auto. intro I. apply H. now apply side_in.
Qed.
Lemma side_count vs n : Forall (fun v => length v = S n) vs -> length vs = (length (side false vs) + length (side true vs))%nat.
Proof.
  induction 1 as [|v vs H F IH]; [reflexivity|]. simpl. rewrite !app_length. destruct v as [|x t]; [discriminate|]. destruct x; simpl; lia.
Qed.
Lemma union_inter (l1 l2 : list (list bool)) : NoDup l1 -> NoDup l2 ->
  (length l1 + length l2 = length (nodup list_bool_dec (l1 ++ l2)) + length (filter (fun v => if in_dec list_bool_dec v l2 then true else false) l1))%nat.
Proof.
  intros N1 N2. induction N1 as [|v l1 H N1 IH]; simpl; [rewrite (nodup_fixed_point _ N2); lia|].
  destruct (in_dec list_bool_dec v (l1 ++ l2)) as [Y|Y]; destruct (in_dec list_bool_dec v l2) as [Z|Z]; simpl; try lia.
  - exfalso. apply in_app_or in Y. tauto.
  - exfalso. apply Y. apply in_or_app. now right.
Qed.
Lemma ones_cons b m : ones (b :: m) = ((if b then 1 else 0) + ones m)%nat.
Proof. unfold ones, count. simpl. destruct b; reflexivity. Qed.
Lemma sauer n : forall k vs, NoDup vs -> Forall (fun v => length v = n) vs ->
  (forall mask, length mask = n -> ones mask = k -> ~ shat mask vs) -> (length vs <= ss k n)%nat.
Proof.
  induction n as [|n IH]; intros k vs ND F H.
  - assert (E : forall v, In v vs -> v = []) by (intros v I; rewrite Forall_forall in F; specialize (F v I); destruct v; [auto|discriminate]).
    destruct k as [|k]; simpl.
    + destruct vs as [|v vs]; auto. exfalso. apply (H []); auto. intros labels L. exists v. split; [now left|]. destruct labels; [now destruct v|discriminate].
    + destruct vs as [|v [|w vs]]; simpl; try lia. exfalso. inversion ND; subst. apply H2. rewrite (E v), (E w) by (simpl; auto). now left.
  - assert (S0 : forall b, Forall (fun v => length v = n) (side b vs)).
    { intro b. rewrite Forall_forall in *. intros t I. apply side_in in I. specialize (F _ I). simpl in F. lia. }
    destruct k as [|k].
    { destruct vs as [|v vs]; simpl; auto. exfalso. apply (H (repeat false (S n))); [apply repeat_length| |].
      - clear. induction n; auto.
      - intros labels L. exists v. split; [now left|]. replace (ones (repeat false (S n))) with 0%nat in L by (clear; induction n; auto).
        destruct labels; [|discriminate]. clear. revert v. induction (S n); intros v; destruct v; simpl; auto. }
    set (U := nodup list_bool_dec (side false vs ++ side true vs)).
    set (I := filter (fun v => if in_dec list_bool_dec v (side true vs) then true else false) (side false vs)).
    assert (A : (length U <= ss (S k) n)%nat).
    { apply IH; [apply NoDup_nodup| |].
      - rewrite Forall_forall. intros v Iv. apply nodup_In, in_app_or in Iv. pose proof (S0 false) as F0. pose proof (S0 true) as F1. rewrite Forall_forall in F0, F1.
        destruct Iv; auto.
      - intros mask L C Sh. apply (H (false :: mask)); [simpl; lia|rewrite ones_cons; auto|].
        intros labels Ll. rewrite ones_cons in Ll. destruct (Sh labels Ll) as (v & Iv & E). apply nodup_In, in_app_or in Iv.
        rewrite !side_in in Iv. destruct Iv as [Iv|Iv]; eexists; split; eauto. }
    assert (B : (length I <= ss k n)%nat).
    { apply IH; [apply NoDup_filter, side_nodup, ND| |].
      - rewrite Forall_forall. intros v Iv. apply filter_In in Iv. pose proof (S0 false) as F0. rewrite Forall_forall in F0. now apply F0.
      - intros mask L C Sh. apply (H (true :: mask)); [simpl; lia|rewrite ones_cons; simpl; lia|].
        intros labels Ll. rewrite ones_cons in Ll. destruct labels as [|b labels]; [discriminate|]. simpl in Ll.
        destruct (Sh labels) as (v & Iv & E); [lia|]. apply filter_In in Iv as [Iv Jv]. destruct (in_dec list_bool_dec v (side true vs)) as [K|]; [|discriminate].
        apply side_in in Iv, K. exists (b :: v). split; [now destruct b|]. simpl. now f_equal. }
    rewrite (side_count _ _ F), union_inter by (apply side_nodup; auto). fold U I. simpl ss. lia.
Qed.
Lemma select_map {A B} (f : A -> B) mask : forall v, select mask (map f v) = map f (select mask v).
Proof. induction mask as [|b m IH]; intro v; [reflexivity|]. destruct v as [|x v]; [reflexivity|]. simpl. destruct b; simpl; now rewrite IH. Qed.
Lemma select_in {A} mask : forall (v : list A) x, In x (select mask v) -> In x v.
Proof.
  induction mask as [|b m IH]; intros v x; [easy|]. destruct v as [|y v]; [easy|]. simpl. destruct b; simpl; intros H; [destruct H as [H|H]; auto|]; right; auto.
Qed.
Lemma select_length {A} mask : forall v : list A, length mask = length v -> length (select mask v) = ones mask.
Proof.
  induction mask as [|b m IH]; intros v L; [destruct v; auto|]. destruct v as [|x v]; [discriminate|]. injection L as L. rewrite ones_cons. simpl. destruct b; simpl; now rewrite IH.
Qed.
Lemma traces_count {P} d system (X pts : list P) vs : vc_at_most d system X -> Forall (fun x => In x X) pts -> traces system pts vs ->
  (length vs <= ss (S d) (length pts))%nat.
Proof.
  intros V F [ND T]. apply sauer; auto.
  - rewrite Forall_forall. intros v I. destruct (T v I) as (r & _ & <-). apply map_length.
  - intros mask L O Sh. apply (V (select mask pts)).
    + rewrite Forall_forall in *. intros x I. apply F. eapply select_in, I.
    + rewrite <- O. now apply select_length.
    + intros labels Ll. rewrite select_length in Ll by auto. destruct (Sh labels Ll) as (v & I & E). destruct (T v I) as (r & Sr & <-).
      exists r. split; auto. now rewrite <- select_map.
Qed.
Lemma ss_comb n : forall k, Z.of_nat (ss (S k) n) = psum n k.
Proof.
  induction n as [|n IH]; intro k.
  - simpl. induction k as [|k IHk]; [reflexivity|]. rewrite psum_S, <- IHk. simpl. lia.
  - change (ss (S k) (S n)) with (ss (S k) n + ss k n)%nat. rewrite Nat2Z.inj_add, IH, psum_step.
    destruct k as [|k]; [replace (ss 0 n) with 0%nat by (now destruct n); rewrite psum_0, comb_0_r; reflexivity|]. rewrite IH, psum_S. lia.
Qed.
(** The number of ways in which sets of a system of VC dimension [vc] meet [2 m] points is at most
    compute_ss_comb_sum. *)
Theorem sauer_shelah_count : forall (P : Type) system (X pts : list P) m vc vs, vc_at_most vc system X ->
  Forall (fun x => In x X) pts -> length pts = (2 * m)%nat -> traces system pts vs ->
  (Z.of_nat (length vs) <= compute_ss_comb_sum (Z.of_nat m) vc)%Z.
Proof.
  intros P system X pts m vc vs V F L T. rewrite ss_psum, <- ss_comb, <- L. apply inj_le. eapply traces_count; eauto.
Qed.
Print Assumptions sauer_shelah_count.

(** *** Linear dependence *)
Fixpoint lin (cs : list R) (vs : list (nat -> R)) (j : nat) : R :=
  match cs, vs with
  | c :: cs', v :: vs' => c * v j + lin cs' vs' j
  | _, _ => 0
  end.
Lemma lin_app c1 v1 c2 v2 j : length c1 = length v1 -> lin (c1 ++ c2) (v1 ++ v2) j = lin c1 v1 j + lin c2 v2 j.
Proof.
  revert v1. induction c1 as [|c c1 IH]; intros v1 L; destruct v1 as [|v v1]; try discriminate; simpl; [lra|]. rewrite IH by (simpl in L; lia). lra.
Qed.
Lemma lin_map f cs vs a j n : (forall v, In v vs -> f v j = v j - a v * n) -> lin cs (map f vs) j = lin cs vs j - lin cs (map (fun v _ => a v) vs) j * n.
Proof.
  revert vs. induction cs as [|c cs IH]; intros vs H; destruct vs as [|v vs]; simpl; try lra.
  rewrite IH by (intros; apply H; now right). rewrite H by now left. lra.
Qed.
Lemma lin_all_const cs vs a j j' : lin cs (map (fun v (_ : nat) => a v) vs) j = lin cs (map (fun (v : nat -> R) (_ : nat) => a v) vs) j'.
Proof. revert vs. induction cs as [|c cs IH]; intros vs; destruct vs as [|v vs]; simpl; auto. now rewrite (IH vs). Qed.
Lemma exists_nonzero (f : (nat -> R) -> R) vs : (forall v, In v vs -> f v = 0) \/ exists l1 v l2, vs = l1 ++ v :: l2 /\ f v <> 0.
Proof.
  induction vs as [|v vs IH]; [left; easy|]. destruct (Req_dec (f v) 0) as [E|E]; [|right; now exists [], v, vs].
  destruct IH as [H|(l1 & w & l2 & -> & H)]; [left; intros u [<-|I]; auto|]. right. now exists (v :: l1), w, l2.
Qed.
Lemma lin_zero cs vs j : (forall v, In v vs -> v j = 0) -> lin cs vs j = 0.
Proof.
  revert vs. induction cs as [|c cs IH]; intros vs H; destruct vs as [|v vs]; simpl; auto. rewrite H by now left. rewrite IH; [lra|]. intros; apply H; now right.
Qed.
Lemma lin_ratio cs vs n d : d <> 0 -> lin cs (map (fun w _ => w n / d) vs) 0%nat * d = lin cs vs n.
Proof.
  intro D. revert vs. induction cs as [|c cs IH]; intros vs; destruct vs as [|v vs]; simpl; try lra. rewrite <- IH. field. auto.
Qed.
(** [n + 1] vectors with [n] coordinates are linearly dependent *)
Lemma dependent n : forall vs, length vs = S n -> exists cs, length cs = S n /\ (exists c, In c cs /\ c <> 0) /\ forall j, (j < n)%nat -> lin cs vs j = 0.
Proof.
  induction n as [|n IH]; intros vs L.
  - exists [1]. split; auto. split; [exists 1; split; [now left|lra]|]. intros; lia.
  - destruct (exists_nonzero (fun v => v n) vs) as [Z|(l1 & v & l2 & -> & D)].
    + destruct vs as [|v vs]; [discriminate|]. injection L as L. destruct (IH vs L) as (cs & Lc & (c & Ic & Nc) & H).
      exists (0 :: cs). split; [simpl; lia|]. split; [exists c; split; auto; now right|]. intros j Hj. simpl.
      destruct (Nat.eq_dec j n) as [->|]; [|rewrite H by lia; lra]. rewrite (lin_zero cs vs) by (intros; apply Z; now right). lra.
    + rewrite app_length in L. simpl in L.
      destruct (IH (map (fun w j => w j - w n / v n * v j) (l1 ++ l2))) as (cs & Lc & (c & Ic & Nc) & H); [rewrite map_length, app_length; lia|].
      set (c1 := firstn (length l1) cs). set (c2 := skipn (length l1) cs).
      assert (Ec : cs = c1 ++ c2) by (symmetry; apply firstn_skipn).
      assert (L1 : length c1 = length l1) by (unfold c1; rewrite firstn_length; lia).
      set (a := lin cs (map (fun w _ => w n / v n) (l1 ++ l2)) 0%nat).
      exists (c1 ++ (- a) :: c2). split; [rewrite app_length; simpl; assert (length cs = length c1 + length c2)%nat by (rewrite <- app_length; now rewrite <- Ec); lia|].
      split. { exists c. split; auto. rewrite Ec in Ic. apply in_app_or in Ic. apply in_or_app. destruct Ic; [now left|right; now right]. }
      intros j Hj. rewrite lin_app by auto. simpl.
      assert (E : lin c1 l1 j + lin c2 l2 j = lin cs (l1 ++ l2) j) by (rewrite <- lin_app by auto; now rewrite <- Ec).
      destruct (Nat.eq_dec j n) as [->|].
      * assert (a * v n = lin cs (l1 ++ l2) n) by (apply lin_ratio; auto). lra.
      * specialize (H j ltac:(lia)). rewrite (lin_map _ cs (l1 ++ l2) (fun w => w n / v n) j (v j)) in H by (intros; reflexivity).
        rewrite (lin_all_const _ _ _ j 0%nat) in H. fold a in H. lra.
Qed.

(** *** Balls *)
Lemma sumsq_expand x : forall c, length x = length c -> sumsq x c = sumsq x (repeat 0 (length x)) - 2 * lin c (map (fun i _ => nth i x 0) (seq 0 (length x))) 0%nat + sumsq c (repeat 0 (length x)).
Proof.
  induction x as [|a x IH]; intros c L; destruct c as [|b c]; try discriminate; [simpl; lra|]. injection L as L.
  cbn [length seq map lin sumsq repeat nth]. rewrite (IH c L). rewrite <- seq_shift, map_map. cbn [nth]. lra.
Qed.
Lemma sumsq_nonneg x : forall c, 0 <= sumsq x c.
Proof. induction x as [|a x IH]; intros c; destruct c as [|b c]; simpl; try lra. specialize (IH c). pose proof (Rle_0_sqr (a - b)) as S. unfold Rsqr in S. lra. Qed.
(** a ball is a sublevel set of a function that is affine but for a part common to all balls *)
Lemma ball_affine dim c rad : length c = dim -> exists K, forall x, length x = dim ->
  (in_ball c rad x = true <-> sumsq x (repeat 0 dim) + (lin (map (fun b => -2 * b) c) (map (fun i _ => nth i x 0) (seq 0 dim)) 0%nat + K) <= 0).
Proof.
  intro L. assert (Q : exists q, forall x, (in_ball c rad x = true <-> sumsq x c <= q)).
  { destruct (Rlt_dec rad 0) as [Y|Y].
    - exists (-1). intro x. unfold in_ball, dist. pose proof (sumsq_nonneg x c). pose proof (sqrt_pos (sumsq x c)). destruct (Rle_dec _ _); split; intro; try lra; discriminate.
    - exists (rad * rad). intro x. unfold in_ball, dist. pose proof (sumsq_nonneg x c) as Hx. destruct (Rle_dec _ _) as [Z|Z]; split; intro H; auto; try discriminate.
      + rewrite <- (sqrt_sqrt _ Hx). pose proof (sqrt_pos (sumsq x c)). nra.
      + exfalso. apply Z. rewrite <- (sqrt_square rad) by lra. now apply sqrt_le_1_alt. }
  destruct Q as (q & Q). exists (sumsq c (repeat 0 dim) - q). intros x Lx. rewrite Q, (sumsq_expand x c) by lia. rewrite Lx.
  assert (E : lin (map (fun b => -2 * b) c) (map (fun i _ => nth i x 0) (seq 0 dim)) 0%nat = -2 * lin c (map (fun i _ => nth i x 0) (seq 0 dim)) 0%nat).
  { generalize (map (fun i (_ : nat) => nth i x 0) (seq 0 dim)) as l. clear. induction c as [|b c IH]; intro l; destruct l as [|v l]; simpl; try lra. rewrite IH. lra. }
  rewrite E. split; intro; lra.
Qed.
(** weighted sum of an affine function *)
Definition wsum {P} (cs : list R) (pts : list P) (g : P -> R) : R := lin cs (map (fun p _ => g p) pts) 0%nat.
Lemma wsum_plus {P} cs (pts : list P) g h : wsum cs pts (fun p => g p + h p) = wsum cs pts g + wsum cs pts h.
Proof. unfold wsum. revert pts. induction cs as [|c cs IH]; intros pts; destruct pts as [|p pts]; simpl; try lra. rewrite IH. lra. Qed.
Lemma wsum_scal {P} cs (pts : list P) a g : wsum cs pts (fun p => a * g p) = a * wsum cs pts g.
Proof. unfold wsum. revert pts. induction cs as [|c cs IH]; intros pts; destruct pts as [|p pts]; simpl; try lra. rewrite IH. lra. Qed.
Lemma lin_wsum {P} cs (pts : list P) (f : P -> nat -> R) j : lin cs (map f pts) j = wsum cs pts (fun p => f p j).
Proof. unfold wsum. revert pts. induction cs as [|c cs IH]; intros pts; destruct pts as [|p pts]; simpl; auto. now rewrite IH. Qed.
Lemma wsum_const {P} cs (pts : list P) K : wsum cs pts (fun _ => K) = K * wsum cs pts (fun _ => 1).
Proof. unfold wsum. revert pts. induction cs as [|c cs IH]; intros pts; destruct pts as [|p pts]; simpl; try lra. rewrite IH. lra. Qed.
Lemma wsum_zero {P} cs (pts : list P) : wsum cs pts (fun _ => 0) = 0.
Proof. unfold wsum. apply lin_zero. intros v I. apply in_map_iff in I as (p & <- & _). reflexivity. Qed.
Lemma wsum_lin {P} cs (pts : list P) (u : list R) (x : P -> nat -> R) : forall k n, (forall j, (k <= j < k + n)%nat -> wsum cs pts (fun p => x p j) = 0) ->
  wsum cs pts (fun p => lin u (map (fun i _ => x p i) (seq k n)) 0%nat) = 0.
Proof.
  induction u as [|b u IH]; intros k n H; [apply wsum_zero|]. destruct n as [|n]; [apply wsum_zero|].
  cbn [seq map lin]. rewrite wsum_plus, wsum_scal, (H k) by lia. rewrite (IH (S k) n); [lra|]. intros j Hj. apply H. lia.
Qed.
Lemma wsum_negative {P} cs : forall (pts : list P) g, length cs = length pts -> (exists c, In c cs /\ c <> 0) ->
  (forall i c p, nth_error cs i = Some c -> nth_error pts i = Some p -> (0 < c -> g p < 0) /\ (c < 0 -> 0 < g p)) -> wsum cs pts g < 0.
Proof.
  assert (W : forall cs (pts : list P) g, (forall i c p, nth_error cs i = Some c -> nth_error pts i = Some p -> (0 < c -> g p < 0) /\ (c < 0 -> 0 < g p)) -> wsum cs pts g <= 0).
  { clear cs. unfold wsum. induction cs as [|c cs IH]; intros pts g H; destruct pts as [|p pts]; simpl; try lra.
    assert (c * g p <= 0). { destruct (H 0%nat c p eq_refl eq_refl) as [A B]. destruct (Rtotal_order c 0) as [T|[->|T]]; [specialize (B T); nra|lra|specialize (A T); nra]. }
    specialize (IH pts g (fun i c' p' => H (S i) c' p')). lra. }
  induction cs as [|c cs IH]; intros pts g L (x & I & N) H; [easy|]. destruct pts as [|p pts]; [discriminate|]. injection L as L.
  change (c * g p + wsum cs pts g < 0). destruct (H 0%nat c p eq_refl eq_refl) as [A B].
  assert (H' : forall i c p, nth_error cs i = Some c -> nth_error pts i = Some p -> (0 < c -> g p < 0) /\ (c < 0 -> 0 < g p)) by (intros i c' p'; exact (H (S i) c' p')).
  pose proof (W cs pts g H'). destruct (Rtotal_order c 0) as [T|[T|T]]; [specialize (B T); nra| |specialize (A T); nra].
  subst c. destruct I as [<-|I]; [lra|]. specialize (IH pts g L (ex_intro _ x (conj I N)) H'). lra.
Qed.
(** Balls in [dim] dimensions do not shatter [dim + 2] points: the VC dimension is at most the
    [dim + 1] that bound.py uses. *)
Theorem balls_vc_dimension : forall (P : Type) (dim : nat) (pos : P -> list R) (X : list P), (forall x, In x X -> length (pos x) = dim) ->
  vc_at_most (dim + 1) (balls dim pos) X.
Proof.
  intros P dim pos X HX pts F L Sh.
  assert (Lp : forall p, In p pts -> length (pos p) = dim) by (rewrite Forall_forall in F; auto).
  destruct (dependent (S dim) (map (fun p j => if (j <? dim)%nat then nth j (pos p) 0 else 1) pts)) as (cs & Lc & Nz & H); [rewrite map_length; lia|].
  assert (W : forall j, (j < S dim)%nat -> wsum cs pts (fun p => if (j <? dim)%nat then nth j (pos p) 0 else 1) = 0).
  { intros j Hj. specialize (H j Hj). rewrite lin_wsum in H. exact H. }
  assert (W1 : wsum cs pts (fun _ => 1) = 0) by (specialize (W dim ltac:(lia)); rewrite Nat.ltb_irrefl in W; exact W).
  assert (Wj : forall j, (j < dim)%nat -> wsum cs pts (fun p => nth j (pos p) 0) = 0).
  { intros j Hj. specialize (W j ltac:(lia)). replace (j <? dim)%nat with true in W by (symmetry; now apply Nat.ltb_lt). exact W. }
  set (labels := map (fun c => if Rlt_dec 0 c then true else false) cs).
  destruct (Sh labels) as (r1 & (a1 & d1 & La1 & R1) & E1); [unfold labels; rewrite map_length; lia|].
  destruct (Sh (map negb labels)) as (r2 & (a2 & d2 & La2 & R2) & E2); [unfold labels; rewrite !map_length; lia|].
  destruct (ball_affine dim a1 d1 La1) as (K1 & B1). destruct (ball_affine dim a2 d2 La2) as (K2 & B2).
  set (f := fun (a : list R) K (p : P) => lin (map (fun b => -2 * b) a) (map (fun i _ => nth i (pos p) 0) (seq 0 dim)) 0%nat + K).
  assert (Z : forall a K, wsum cs pts (f a K) = 0).
  { intros a K. unfold f. rewrite wsum_plus. rewrite (wsum_lin cs pts _ (fun p i => nth i (pos p) 0) 0 dim) by (intros; apply Wj; lia).
    rewrite wsum_const, W1. lra. }
  assert (Neg : wsum cs pts (fun p => f a1 K1 p + (-1) * f a2 K2 p) < 0).
  { apply wsum_negative; auto; [lia|]. intros i c p Ic Ip.
    assert (I : In p pts) by (eapply nth_error_In; eauto).
    assert (T1 : r1 p = if Rlt_dec 0 c then true else false).
    { assert (X1 : nth_error (map r1 pts) i = Some (r1 p)) by now apply map_nth_error. rewrite E1 in X1. unfold labels in X1.
      rewrite (map_nth_error (fun c => if Rlt_dec 0 c then true else false) i cs Ic) in X1. congruence. }
    assert (T2 : r2 p = negb (if Rlt_dec 0 c then true else false)).
    { assert (X2 : nth_error (map r2 pts) i = Some (r2 p)) by now apply map_nth_error. rewrite E2 in X2. unfold labels in X2. rewrite map_map in X2.
      rewrite (map_nth_error (fun c => negb (if Rlt_dec 0 c then true else false)) i cs Ic) in X2. congruence. }
    rewrite R1 in T1. rewrite R2 in T2. pose proof (B1 (pos p) (Lp p I)) as C1. pose proof (B2 (pos p) (Lp p I)) as C2. fold (f a1 K1 p) in C1. fold (f a2 K2 p) in C2.
    rewrite T1 in C1. rewrite T2 in C2. destruct (Rlt_dec 0 c) as [Y|Y]; simpl in C1, C2.
    - split; [|intro; lra]. intros _. assert (sumsq (pos p) (repeat 0 dim) + f a1 K1 p <= 0) by (apply C1; auto).
      assert (~ sumsq (pos p) (repeat 0 dim) + f a2 K2 p <= 0) by (intro G; apply C2 in G; discriminate). lra.
    - split; [intro; lra|]. intros _. assert (sumsq (pos p) (repeat 0 dim) + f a2 K2 p <= 0) by (apply C2; auto).
      assert (~ sumsq (pos p) (repeat 0 dim) + f a1 K1 p <= 0) by (intro G; apply C1 in G; discriminate). lra. }
  rewrite wsum_plus, wsum_scal, !Z in Neg. lra.
Qed.
Print Assumptions balls_vc_dimension.

(** The dimension is not smaller: the origin and the unit vectors are shattered. *)
Fixpoint unit_vector (i n : nat) {struct n} : list R :=
  match n, i with
  | O, _ => []
  | S n', O => 1 :: repeat 0 n'
  | S n', S i' => 0 :: unit_vector i' n'
  end.
Definition corner (dim k : nat) : list R := match k with O => repeat 0 dim | S i => unit_vector i dim end.
Lemma unit_length i n : length (unit_vector i n) = n.
Proof. revert i. induction n as [|n IH]; intro i; auto. destruct i; cbn [unit_vector length]; f_equal; [apply repeat_length|apply IH]. Qed.
Lemma sumsq_zero c : sumsq (repeat 0 (length c)) c = sumsq c (repeat 0 (length c)).
Proof. induction c as [|a c IH]; simpl; [reflexivity|]. rewrite IH. lra. Qed.
Lemma sumsq_unit c : forall i, (i < length c)%nat -> sumsq (unit_vector i (length c)) c = sumsq (repeat 0 (length c)) c + 1 - 2 * nth i c 0.
Proof.
  induction c as [|a c IH]; intros i H; [simpl in H; lia|]. destruct i as [|i]; simpl; [lra|]. rewrite IH by (simpl in H; lia). lra.
Qed.
Lemma sumsq_01 c : (forall x, In x c -> x = 0 \/ x = 1) -> (forall x, In x c -> x = 0) \/ 1 <= sumsq (repeat 0 (length c)) c.
Proof.
  induction c as [|a c IH]; intro H; [left; easy|]. simpl. destruct IH as [Z|Z]; [intros; apply H; now right| |].
  - destruct (H a) as [-> | ->]; [now left| |].
    + left. intros x [<-|I]; auto.
    + right. pose proof (sumsq_nonneg (repeat 0 (length c)) c). lra.
  - right. pose proof (Rle_0_sqr (0 - a)) as S. unfold Rsqr in S. lra.
Qed.
Lemma in_ball_sq c rad x : 0 <= rad -> in_ball c rad x = if Rle_dec (sumsq x c) (rad * rad) then true else false.
Proof.
  intro H. unfold in_ball, dist. pose proof (sumsq_nonneg x c) as S. destruct (Rle_dec (sqrt _) _) as [Y|Y], (Rle_dec _ _) as [Z|Z]; auto; exfalso.
  - apply Z. rewrite <- (sqrt_sqrt _ S). pose proof (sqrt_pos (sumsq x c)). nra.
  - apply Y. rewrite <- (sqrt_square rad) by lra. now apply sqrt_le_1_alt.
Qed.
Theorem balls_vc_dimension_tight : forall dim, ~ vc_at_most dim (balls dim (corner dim)) (seq 0 (dim + 1)).
Proof.
  intros dim V. apply (V (seq 0 (dim + 1))); [now apply Forall_forall|rewrite seq_length; lia|]. clear V.
  intros labels L. rewrite seq_length in L. destruct labels as [|l0 ls]; [simpl in L; lia|]. simpl in L. assert (Ls : length ls = dim) by lia.
  set (c := map (fun b : bool => if b then 1 else 0) ls). assert (Lc : length c = dim) by (unfold c; now rewrite map_length).
  assert (C01 : forall x, In x c -> x = 0 \/ x = 1) by (intros x I; apply in_map_iff in I as ([] & <- & _); auto).
  set (s := sumsq (repeat 0 (length c)) c). assert (S0 : 0 <= s) by apply sumsq_nonneg.
  assert (Seq : seq 0 (dim + 1) = 0%nat :: map S (seq 0 dim)) by (rewrite Nat.add_1_r; simpl; now rewrite seq_shift).
  assert (N : forall i, (i < dim)%nat -> nth i c 0 = if nth i ls false then 1 else 0).
  { intros i Hi. exact (map_nth (fun b : bool => if b then 1 else 0) ls false i). }
  assert (Go : forall rad, (in_ball c rad (repeat 0 dim) = l0) -> (forall i, (i < dim)%nat -> in_ball c rad (unit_vector i dim) = nth i ls false) ->
    exists r, balls dim (corner dim) r /\ map r (seq 0 (dim + 1)) = l0 :: ls).
  { intros rad H0 Hi. exists (fun k => in_ball c rad (corner dim k)). split; [exists c, rad; auto|]. rewrite Seq. cbn [map corner]. rewrite H0. f_equal.
    rewrite map_map. cbn [corner]. rewrite (map_ext_in _ (fun i => nth i ls false)) by (intros i I; apply in_seq in I; apply Hi; lia).
    rewrite <- Ls. clear. induction ls as [|b ls IH]; [reflexivity|]. cbn [length seq map nth]. f_equal. rewrite <- seq_shift, map_map. exact IH. }
  assert (U : forall i, (i < dim)%nat -> sumsq (unit_vector i dim) c = s + 1 - 2 * nth i c 0) by (intros i Hi; rewrite <- Lc; apply sumsq_unit; lia).
  assert (Z : sumsq (repeat 0 dim) c = s) by (unfold s; now rewrite Lc).
  destruct l0.
  - apply (Go (sqrt s)).
    + rewrite in_ball_sq by apply sqrt_pos. rewrite sqrt_sqrt, Z by auto. destruct (Rle_dec s s); [auto|lra].
    + intros i Hi. rewrite in_ball_sq by apply sqrt_pos. rewrite sqrt_sqrt, U, N by auto. destruct (nth i ls false), (Rle_dec _ _); auto; lra.
  - destruct (sumsq_01 c C01) as [A|A].
    + apply (Go (-1)).
      * unfold in_ball, dist. pose proof (sqrt_pos (sumsq (repeat 0 dim) c)). destruct (Rle_dec _ _); [lra|auto].
      * intros i Hi. unfold in_ball, dist. pose proof (sqrt_pos (sumsq (unit_vector i dim) c)). destruct (Rle_dec _ _); [lra|].
        specialize (N i Hi). rewrite (A (nth i c 0)) in N by (apply nth_In; lia). destruct (nth i ls false); auto; lra.
    + fold s in A. apply (Go (sqrt (s - 1/2))).
      * rewrite in_ball_sq by apply sqrt_pos. rewrite sqrt_sqrt, Z by lra. destruct (Rle_dec _ _); [lra|auto].
      * intros i Hi. rewrite in_ball_sq by apply sqrt_pos. rewrite sqrt_sqrt, U, N by (auto; lra). destruct (nth i ls false), (Rle_dec _ _); auto; lra.
Qed.
Print Assumptions balls_vc_dimension_tight.
(** two points of the line and all their traces *)
Example traces_ex : traces (balls 1 (fun x : R => [x])) [0; 1] [[true; false]; [false; true]; [true; true]; [false; false]].
Proof.
  split.
  - repeat constructor; simpl; intuition discriminate.
  - assert (A : forall x c rad, in_ball [c] rad [x] = if Rle_dec (Rabs (x - c)) rad then true else false).
    { intros. unfold in_ball, dist. simpl. rewrite Rplus_0_r. change ((x - c) * (x - c)) with (Rsqr (x - c)). rewrite sqrt_Rsqr_abs. reflexivity. }
    assert (B : forall c rad, balls 1 (fun x : R => [x]) (fun x => in_ball [c] rad [x])) by (intros c rad; exists [c], rad; auto).
    intros v [<-|[<-|[<-|[<-|[]]]]].
    + exists (fun x => in_ball [0] 0 [x]). split; auto. simpl. rewrite !A. replace (0 - 0) with 0 by lra. replace (1 - 0) with 1 by lra. rewrite Rabs_R0, Rabs_R1. destruct (Rle_dec 0 0), (Rle_dec 1 0); auto; lra.
    + exists (fun x => in_ball [1] 0 [x]). split; auto. simpl. rewrite !A. replace (1 - 1) with 0 by lra. replace (0 - 1) with (- (1)) by lra. rewrite Rabs_Ropp, Rabs_R0, Rabs_R1. destruct (Rle_dec 0 0), (Rle_dec 1 0); auto; lra.
    + exists (fun x => in_ball [0] 1 [x]). split; auto. simpl. rewrite !A. replace (0 - 0) with 0 by lra. replace (1 - 0) with 1 by lra. rewrite Rabs_R0, Rabs_R1. destruct (Rle_dec 0 1), (Rle_dec 1 1); auto; lra.
    + exists (fun x => in_ball [0] (-1) [x]). split; auto. simpl. rewrite !A. pose proof (Rabs_pos (0 - 0)). pose proof (Rabs_pos (1 - 0)). destruct (Rle_dec (Rabs (0 - 0)) (-1)), (Rle_dec (Rabs (1 - 0)) (-1)); auto; lra.
Qed.
