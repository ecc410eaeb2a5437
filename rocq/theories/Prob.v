(** Counting over sample sequences.

    A sampler that draws independently and uniformly from a finite population is described by
    the population (a list, in which points may be repeated); the probability of an event is the
    share of the sequences of the given length for which it happens. *)
From Coq Require Import Reals List Arith Lra Lia Bool.
Import ListNotations.
Local Open Scope R_scope.

(** *** Specification *)
(** all sequences of [m] draws from [X] *)
Fixpoint sequences {P} (X : list P) (m : nat) : list (list P) :=
  match m with
  | O => [[]]
  | S m' => flat_map (fun x => map (cons x) (sequences X m')) X
  end.
Definition count {A} (f : A -> bool) (l : list A) : nat := length (filter f l).
(** the share of the sequences of [m] draws for which [bad] happens is at most [b] *)
Definition probability_at_most {P} (X : list P) (m : nat) (bad : list P -> bool) (b : R) : Prop :=
  INR (count bad (sequences X m)) <= b * INR (length (sequences X m)).

(** *** Sums *)
Definition ind (b : bool) : R := if b then 1 else 0.
Fixpoint rsum {A} (l : list A) (f : A -> R) : R :=
  match l with [] => 0 | x :: l' => f x + rsum l' f end.
(** sum over all sequences *)
Fixpoint tsum {A} (X : list A) (m : nat) (f : list A -> R) : R :=
  match m with O => f [] | S m' => rsum X (fun x => tsum X m' (fun t => f (x :: t))) end.

Lemma ind_nonneg b : 0 <= ind b.
Proof. destruct b; simpl; lra. Qed.
Lemma ind_le1 b : ind b <= 1.
Proof. destruct b; simpl; lra. Qed.
Lemma rsum_ext {A} l (f g : A -> R) : (forall x, In x l -> f x = g x) -> rsum l f = rsum l g.
Proof. induction l as [|a l IH]; simpl; intro H; auto. rewrite H by auto. rewrite IH; auto. Qed.
Lemma rsum_le {A} l (f g : A -> R) : (forall x, In x l -> f x <= g x) -> rsum l f <= rsum l g.
Proof. induction l as [|a l IH]; simpl; intro H; [lra|]. apply Rplus_le_compat; auto. Qed.
Lemma rsum_plus {A} l (f g : A -> R) : rsum l (fun x => f x + g x) = rsum l f + rsum l g.
Proof. induction l as [|a l IH]; simpl; [lra|]. rewrite IH. lra. Qed.
Lemma rsum_scal {A} l c (f : A -> R) : rsum l (fun x => c * f x) = c * rsum l f.
Proof. induction l as [|a l IH]; simpl; [lra|]. rewrite IH. lra. Qed.
Lemma rsum_const {A} (l : list A) c : rsum l (fun _ => c) = INR (length l) * c.
Proof. induction l as [|a l IH]; [simpl; lra|]. cbn [rsum length]. rewrite IH, S_INR. lra. Qed.
Lemma rsum_app {A} l1 l2 (f : A -> R) : rsum (l1 ++ l2) f = rsum l1 f + rsum l2 f.
Proof. induction l1 as [|a l IH]; simpl; [lra|]. rewrite IH. lra. Qed.
Lemma rsum_map {A B} (g : A -> B) l (f : B -> R) : rsum (map g l) f = rsum l (fun x => f (g x)).
Proof. induction l as [|a l IH]; simpl; auto. now rewrite IH. Qed.
Lemma rsum_flat {A B} (g : A -> list B) l (f : B -> R) : rsum (flat_map g l) f = rsum l (fun x => rsum (g x) f).
Proof. induction l as [|a l IH]; simpl; auto. now rewrite rsum_app, IH. Qed.
Lemma rsum_nonneg {A} l (f : A -> R) : (forall x, In x l -> 0 <= f x) -> 0 <= rsum l f.
Proof. intro H. rewrite <- (Rmult_0_r (INR (length l))), <- (rsum_const l 0). now apply rsum_le. Qed.
Lemma rsum_swap {A B} (l : list A) (l' : list B) f : rsum l (fun x => rsum l' (f x)) = rsum l' (fun y => rsum l (fun x => f x y)).
Proof.
  induction l as [|a l IH]; simpl; [now rewrite rsum_const, Rmult_0_r|]. now rewrite rsum_plus, IH.
Qed.
Lemma rsum_count {A} (f : A -> bool) l : rsum l (fun x => ind (f x)) = INR (count f l).
Proof.
  unfold count. induction l as [|a l IH]; [reflexivity|]. cbn [rsum filter]. rewrite IH. destruct (f a); simpl ind; [cbn [length]; rewrite S_INR|]; lra.
Qed.
Lemma count_le {A} (f : A -> bool) l : (count f l <= length l)%nat.
Proof. unfold count. induction l as [|a l IH]; simpl; auto. destruct (f a); simpl; lia. Qed.
Lemma existsb_sum {A} (f : A -> bool) l : ind (existsb f l) <= rsum l (fun x => ind (f x)).
Proof.
  induction l as [|a l IH]; simpl; [lra|]. destruct (f a); simpl; [|lra].
  assert (0 <= rsum l (fun x => ind (f x))) by (apply rsum_nonneg; intros; apply ind_nonneg). lra.
Qed.

Definition drawn {A} (X : list A) (m : nat) (t : list A) : Prop := length t = m /\ Forall (fun x => In x X) t.
Lemma drawn_cons {A} (X : list A) m x t : In x X -> drawn X m t -> drawn X (S m) (x :: t).
Proof. intros H [L F]. split; [simpl; lia|constructor; auto]. Qed.
Lemma tsum_ext {A} (X : list A) m : forall f g, (forall t, drawn X m t -> f t = g t) -> tsum X m f = tsum X m g.
Proof.
  induction m as [|m IH]; intros f g H; cbn [tsum]; [apply H; split; auto|].
  apply rsum_ext. intros x I. apply IH. intros t D. apply H. now apply drawn_cons.
Qed.
Lemma tsum_le {A} (X : list A) m : forall f g, (forall t, drawn X m t -> f t <= g t) -> tsum X m f <= tsum X m g.
Proof.
  induction m as [|m IH]; intros f g H; cbn [tsum]; [apply H; split; auto|].
  apply rsum_le. intros x I. apply IH. intros t D. apply H. now apply drawn_cons.
Qed.
Lemma tsum_plus {A} (X : list A) m : forall f g, tsum X m (fun t => f t + g t) = tsum X m f + tsum X m g.
Proof.
  induction m as [|m IH]; intros f g; cbn [tsum]; auto. rewrite <- rsum_plus. apply rsum_ext. intros. apply IH.
Qed.
Lemma tsum_scal {A} (X : list A) m : forall c f, tsum X m (fun t => c * f t) = c * tsum X m f.
Proof.
  induction m as [|m IH]; intros c f; cbn [tsum]; auto. rewrite <- rsum_scal. apply rsum_ext. intros. apply IH.
Qed.
Lemma tsum_const {A} (X : list A) m : forall c, tsum X m (fun _ => c) = INR (length X) ^ m * c.
Proof.
  induction m as [|m IH]; intros c; cbn [tsum pow]; [lra|].
  rewrite (rsum_ext _ _ (fun _ => INR (length X) ^ m * c)) by (intros; apply IH). rewrite rsum_const. lra.
Qed.
Lemma tsum_nonneg {A} (X : list A) m f : (forall t, drawn X m t -> 0 <= f t) -> 0 <= tsum X m f.
Proof. intro H. rewrite <- (Rmult_0_r (INR (length X) ^ m)), <- (tsum_const X m 0). now apply tsum_le. Qed.
Lemma tsum_rsum {A B} (X : list A) m (l : list B) : forall f, tsum X m (fun t => rsum l (f t)) = rsum l (fun y => tsum X m (fun t => f t y)).
Proof.
  induction m as [|m IH]; intros f; cbn [tsum]; auto.
  rewrite (rsum_ext _ _ (fun x => rsum l (fun y => tsum X m (fun t => f (x :: t) y)))) by (intros; apply IH).
  apply rsum_swap.
Qed.
Lemma tsum_sequences {A} (X : list A) m : forall f, tsum X m f = rsum (sequences X m) f.
Proof.
  induction m as [|m IH]; intros f; cbn [tsum sequences]; [simpl; lra|].
  rewrite rsum_flat. apply rsum_ext. intros x I. rewrite rsum_map. apply IH.
Qed.
Lemma sequences_length {A} (X : list A) m : length (sequences X m) = (length X ^ m)%nat.
Proof.
  induction m as [|m IH]; [reflexivity|]. cbn [sequences Nat.pow]. rewrite <- IH. generalize (sequences X m) as s. clear IH.
  induction X as [|x X IHX]; intro s; [reflexivity|]. cbn [flat_map length]. rewrite app_length, map_length, IHX. lia.
Qed.
Lemma sequences_drawn {A} (X : list A) m t : In t (sequences X m) <-> drawn X m t.
Proof.
  revert t. induction m as [|m IH]; intro t; cbn [sequences].
  - split; [intros [<-|[]]; split; auto|]. intros [L _]. destruct t; [now left|discriminate].
  - rewrite in_flat_map. split.
    + intros (x & I & H). apply in_map_iff in H as (t' & <- & H). apply drawn_cons; auto. now apply IH.
    + intros [L F]. destruct t as [|x t]; [discriminate|]. inversion F; subst. exists x. split; auto.
      apply in_map_iff. exists t. split; auto. apply IH. split; auto.
Qed.
(** the probability as a sum *)
Lemma probability_sum {P} (X : list P) m bad b :
  probability_at_most X m bad b <-> tsum X m (fun t => ind (bad t)) <= b * INR (length X) ^ m.
Proof.
  unfold probability_at_most. rewrite tsum_sequences, rsum_count, sequences_length, pow_INR. reflexivity.
Qed.
Lemma probability_mono {P} (X : list P) m bad bad' b b' : (forall t, drawn X m t -> bad' t = true -> bad t = true) -> b <= b' ->
  probability_at_most X m bad b -> probability_at_most X m bad' b'.
Proof.
  intros H L. rewrite !probability_sum. intro B. apply Rle_trans with (tsum X m (fun t => ind (bad t))).
  - apply tsum_le. intros t D. specialize (H t D). destruct (bad' t); [rewrite H; auto; lra|apply ind_nonneg].
  - apply Rle_trans with (1 := B). apply Rmult_le_compat_r; auto. apply pow_le, pos_INR.
Qed.
Lemma probability_or {P} (X : list P) m bad bad' b b' : probability_at_most X m bad b -> probability_at_most X m bad' b' ->
  probability_at_most X m (fun t => bad t || bad' t) (b + b').
Proof.
  rewrite !probability_sum. intros A B. apply Rle_trans with (tsum X m (fun t => ind (bad t) + ind (bad' t))).
  - apply tsum_le. intros t _. destruct (bad t), (bad' t); simpl; lra.
  - rewrite tsum_plus. lra.
Qed.

(** *** Number of draws in a set *)
Definition hits {A} (r : A -> bool) (t : list A) : nat := count r t.
Lemma hits_cons {A} (r : A -> bool) x t : INR (hits r (x :: t)) = ind (r x) + INR (hits r t).
Proof. unfold hits. rewrite <- !rsum_count. reflexivity. Qed.
Lemma hits_0 {A} (r : A -> bool) t : hits r t = 0%nat <-> existsb r t = false.
Proof.
  unfold hits, count. induction t as [|x t IH]; simpl; [tauto|]. destruct (r x); simpl; [split; discriminate|auto].
Qed.
(** first two moments *)
Lemma tsum_hits {A} (X : list A) r m : let N := INR (length X) in N * tsum X m (fun t => INR (hits r t)) = INR m * INR (count r X) * N ^ m.
Proof.
  intro N. induction m as [|m IH]; [simpl; unfold hits, count; simpl; lra|]. cbn [tsum].
  rewrite (rsum_ext _ _ (fun x => ind (r x) * N ^ m + tsum X m (fun t => INR (hits r t)))).
  - rewrite rsum_plus, rsum_const. fold N.
    rewrite (rsum_ext _ _ (fun x => N ^ m * ind (r x))) by (intros; lra). rewrite rsum_scal, rsum_count, S_INR. cbn [pow].
    rewrite Rmult_plus_distr_l, IH. ring.
  - intros x I. rewrite (tsum_ext _ _ _ (fun t => ind (r x) + INR (hits r t))) by (intros; apply hits_cons).
    rewrite tsum_plus, tsum_const. fold N. lra.
Qed.
Lemma tsum_hits_sq {A} (X : list A) r m : let N := INR (length X) in let h := INR (count r X) in
  N * N * tsum X m (fun t => INR (hits r t) * INR (hits r t)) = (INR m * h * N + INR m * (INR m - 1) * h * h) * N ^ m.
Proof.
  intros N h. induction m as [|m IH]; [simpl; unfold hits, count; simpl; lra|]. cbn [tsum].
  rewrite (rsum_ext _ _ (fun x => ind (r x) * (N ^ m + 2 * tsum X m (fun t => INR (hits r t))) + tsum X m (fun t => INR (hits r t) * INR (hits r t)))).
  - rewrite rsum_plus, rsum_const. fold N.
    rewrite (rsum_ext _ _ (fun x => (N ^ m + 2 * tsum X m (fun t => INR (hits r t))) * ind (r x))) by (intros; lra).
    rewrite rsum_scal, rsum_count, S_INR. fold h. cbn [pow].
    pose proof (tsum_hits X r m) as E. cbv zeta in E. fold N h in E.
    replace (N * N * ((N ^ m + 2 * tsum X m (fun t => INR (hits r t))) * h + N * tsum X m (fun t => INR (hits r t) * INR (hits r t))))
      with (N * N * N ^ m * h + 2 * h * N * (N * tsum X m (fun t => INR (hits r t))) + N * (N * N * tsum X m (fun t => INR (hits r t) * INR (hits r t)))) by ring.
    rewrite E, IH. ring.
  - intros x I. rewrite (tsum_ext _ _ _ (fun t => (ind (r x) + 2 * ind (r x) * INR (hits r t)) + INR (hits r t) * INR (hits r t))).
    + rewrite !tsum_plus, tsum_scal, tsum_const. fold N. ring.
    + intros t _. rewrite hits_cons. destruct (r x); simpl ind; ring.
Qed.
(** Chebyshev's inequality for the number of draws in a set that holds a share [e] of the population *)
Lemma many_hits {A} (X : list A) r m e : (0 < length X)%nat -> 0 < e -> e * INR (length X) <= INR (count r X) -> 8 <= e * INR m ->
  INR (length X) ^ m <= 2 * tsum X m (fun t => ind (if Rle_dec (e * INR m / 2) (INR (hits r t)) then true else false)).
Proof.
  intros L He Hr Hm. set (N := INR (length X)) in *. set (h := INR (count r X)) in *.
  assert (N0 : 0 < N) by (apply lt_0_INR; auto).
  assert (hN : h <= N) by (apply le_INR, count_le).
  assert (m0 : 0 < INR m) by (apply Rnot_le_lt; intro; pose proof (pos_INR m); assert (INR m = 0) as Z by lra; rewrite Z in Hm; lra).
  assert (h0 : 0 < h) by nra.
  assert (V : N * N * tsum X m (fun t => (INR (hits r t) - INR m * h / N) * (INR (hits r t) - INR m * h / N)) = INR m * h * (N - h) * N ^ m).
  { rewrite (tsum_ext _ _ _ (fun t => (INR (hits r t) * INR (hits r t) + (- 2 * (INR m * h / N)) * INR (hits r t)) + (INR m * h / N) * (INR m * h / N))) by (intros; ring).
    rewrite !tsum_plus, tsum_scal, tsum_const. fold N.
    pose proof (tsum_hits X r m) as E1. pose proof (tsum_hits_sq X r m) as E2. cbv zeta in E1, E2. fold N h in E1, E2.
    replace (N * N * (tsum X m (fun t => INR (hits r t) * INR (hits r t)) + - 2 * (INR m * h / N) * tsum X m (fun t => INR (hits r t)) + N ^ m * (INR m * h / N * (INR m * h / N))))
      with (N * N * tsum X m (fun t => INR (hits r t) * INR (hits r t)) - 2 * INR m * h * (N * tsum X m (fun t => INR (hits r t))) + N ^ m * (INR m * h) * (INR m * h)) by (field; lra).
    rewrite E1, E2. ring. }
  set (few := fun t => if Rle_dec (e * INR m / 2) (INR (hits r t)) then true else false).
  assert (F : (INR m * h / 2) * (INR m * h / 2) * tsum X m (fun t => 1 - ind (few t)) <= INR m * h * (N - h) * N ^ m).
  { rewrite <- V, <- !tsum_scal. apply tsum_le. intros t _. unfold few. destruct (Rle_dec _ _) as [Y|Y]; simpl ind.
    - replace (INR m * h / 2 * (INR m * h / 2) * (1 - 1)) with 0 by ring.
      apply Rmult_le_pos; [nra|apply Rle_0_sqr].
    - apply Rnot_le_lt in Y. pose proof (pos_INR (hits r t)) as P0. set (u := INR (hits r t)) in *.
      assert (D : INR m * h / 2 <= INR m * h - N * u).
      { assert (N * u <= N * (e * INR m / 2)) by (apply Rmult_le_compat_l; lra). assert (e * N * INR m <= h * INR m) by (apply Rmult_le_compat_r; lra). lra. }
      replace (N * N * ((u - INR m * h / N) * (u - INR m * h / N))) with ((INR m * h - N * u) * (INR m * h - N * u)) by (field; lra).
      assert (0 <= INR m * h / 2) by nra. nra. }
  assert (S : tsum X m (fun t => 1 - ind (few t)) = N ^ m - tsum X m (fun t => ind (few t))).
  { rewrite (tsum_ext _ _ _ (fun t => 1 + (-1) * ind (few t))) by (intros; lra). rewrite tsum_plus, tsum_scal, tsum_const. fold N. lra. }
  rewrite S in F. set (T := tsum X m (fun t => ind (few t))) in *. change (N ^ m <= 2 * T).
  assert (Nm : 0 < N ^ m) by (now apply pow_lt).
  assert (G : (INR m * h / 2) * (INR m * h / 2) * (N ^ m - T) <= (INR m * h / 2) * (INR m * h / 2) * (N ^ m / 2)).
  { apply Rle_trans with (1 := F). apply Rle_trans with (INR m * h * N * N ^ m).
    - apply Rmult_le_compat_r; [lra|]. apply Rmult_le_compat_l; [apply Rmult_le_pos; lra|lra].
    - replace (INR m * h / 2 * (INR m * h / 2) * (N ^ m / 2)) with (INR m * h * (INR m * h / 8) * N ^ m) by field.
      apply Rmult_le_compat_r; [lra|]. apply Rmult_le_compat_l; [apply Rmult_le_pos; lra|].
      assert (8 * N <= e * INR m * N) by (apply Rmult_le_compat_r; lra). assert (e * N * INR m <= h * INR m) by (apply Rmult_le_compat_r; lra). lra. }
  assert (K : 0 < INR m * h / 2) by (apply Rdiv_lt_0_compat; [now apply Rmult_lt_0_compat|lra]).
  apply Rmult_le_reg_l in G; [lra|now apply Rmult_lt_0_compat].
Qed.
(** generating function *)
Lemma tsum_pow_hits {A} (X : list A) r th m : tsum X m (fun t => th ^ hits r t) = (INR (length X) + INR (count r X) * (th - 1)) ^ m.
Proof.
  induction m as [|m IH]; [reflexivity|]. cbn [tsum pow].
  rewrite (rsum_ext _ _ (fun x => (1 + ind (r x) * (th - 1)) * (INR (length X) + INR (count r X) * (th - 1)) ^ m)).
  - rewrite (rsum_ext _ _ (fun x => (INR (length X) + INR (count r X) * (th - 1)) ^ m * (1 + (th - 1) * ind (r x)))) by (intros; ring).
    rewrite rsum_scal, rsum_plus, rsum_const, rsum_scal, rsum_count. ring.
  - intros x I. rewrite <- IH, <- tsum_scal. apply tsum_ext. intros t _. unfold hits, count. simpl. destruct (r x); simpl; ring.
Qed.
