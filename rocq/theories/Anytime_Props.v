(** Properties of the anytime planning loop. *)
From Coq Require Import QArith Qround ZArith List Bool Lia Lqa Sorted.
From Verif Require Import Anytime_Model.
Import ListNotations.
Open Scope Z_scope.

(** ** Specification: a search that went through the given sizes without success before the
    last *)
Fixpoint rising (l : list Z) : Prop :=
  match l with
  | a :: (b :: _) as l' => a < b /\ rising l'
  | _ => True
  end.
Record tried {P} (query : list Z -> list P) (first max : Z) (sizes : list Z) : Prop := {
  tried_some : sizes <> [];
  tried_first : hd 0 sizes = first;
  tried_rising : rising sizes;
  tried_budget : forall n, In n sizes -> 1 <= n <= max;
  tried_failed : forall k, (0 < k < length sizes)%nat -> query (firstn k sizes) = []
}.

(** ** Lemmas *)
Lemma Qlt_bool_iff x y : Qlt_bool x y = true <-> (x < y)%Q.
Proof.
  unfold Qlt_bool. rewrite negb_true_iff. split.
  - intro H. apply Qnot_le_lt. intro L. apply Qle_bool_iff in L. congruence.
  - intro H. apply not_true_iff_false. rewrite Qle_bool_iff. apply Qlt_not_le. auto.
Qed.
Lemma Qint_pos x : (0 <= x)%Q -> Qint x = Qfloor x.
Proof. intro H. unfold Qint. apply Qle_bool_iff in H. now rewrite H. Qed.
Lemma Qint_bounds x : (0 <= x)%Q -> (inject_Z (Qint x) <= x /\ x < inject_Z (Qint x + 1))%Q.
Proof. intro H. rewrite Qint_pos by auto. split; [apply Qfloor_le|apply Qlt_floor]. Qed.
Lemma Qint_small x m : (x < inject_Z (m + 1))%Q -> 1 <= Qint x -> Qint x <= m.
Proof.
  intros H L. assert (0 <= x)%Q.
  { unfold Qint in L. destruct (Qle_bool 0 x) eqn:E; [now apply Qle_bool_iff|].
    exfalso. apply not_true_iff_false in E. rewrite Qle_bool_iff in E. apply Qnot_le_lt in E.
    assert (0 <= Qfloor (- x)) by (change 0 with (Qfloor 0); apply Qfloor_resp_le; lra). lia. }
  destruct (Qint_bounds x H0) as [A _]. assert (inject_Z (Qint x) < inject_Z (m + 1))%Q by lra. rewrite <- Zlt_Qlt in H1. lia.
Qed.

Lemma rising_app l n : rising l -> (l = [] \/ last l 0 < n) -> rising (l ++ [n]).
Proof.
  induction l as [|a l IH]; simpl; auto. intros R H. destruct l as [|b l].
  - simpl. destruct H as [H|H]; [discriminate|]. auto.
  - simpl in *. destruct R as [R1 R2]. split; auto. apply IH; auto. right. destruct H as [H|H]; [discriminate|exact H].
Qed.
Section Loop.
Variable P : Type.
Variable query : list Z -> list P.
Variable max_samples : Z.
Variable factor : Q.
Notation loop := (loop P query max_samples factor).

(** state of the loop: the sizes so far all failed *)
Definition state (first : Z) (num : Q) (sizes : list Z) : Prop :=
  match sizes with
  | [] => (1 <= num)%Q /\ Qint num = first
  | _ => tried query first max_samples sizes /\ query sizes = []
  end.

Lemma grow_state first num sizes : state first num sizes -> Qlt_bool num (inject_Z (max_samples + 1)) = true ->
  match sizes with [] => false | _ => Qint num <=? last sizes 0 end = false -> tried query first max_samples (sizes ++ [Qint num]).
Proof.
  intros S B G. apply Qlt_bool_iff in B. destruct sizes as [|a l].
  - destruct S as [S1 S2]. simpl. rewrite S2 in *.
    assert (F : 1 <= first).
    { rewrite <- S2, Qint_pos by lra. change 1 with (Qfloor (inject_Z 1)). apply Qfloor_resp_le. exact S1. }
    constructor; simpl; auto; [discriminate| |intros; lia].
    intros n [<-|[]]. split; auto. rewrite <- S2. apply Qint_small; auto. lia.
  - destruct S as [[S1 S2 S3 S4 S5] S6]. apply Z.leb_gt in G.
    assert (L : 1 <= last (a :: l) 0).
    { apply S4. destruct (exists_last S1) as (l' & x & ->). rewrite last_last. apply in_or_app. simpl. auto. }
    constructor.
    + destruct (a :: l); discriminate.
    + simpl in *. exact S2.
    + apply rising_app; auto.
    + intros n Hn. apply in_app_or in Hn. destruct Hn as [Hn|[<-|[]]]; [now apply S4|]. split; [lia|]. apply Qint_small; auto. lia.
    + intros k Hk. rewrite app_length in Hk. simpl length in Hk.
      destruct (Nat.eq_dec k (length (a :: l))) as [->|Ne].
      * rewrite firstn_app, Nat.sub_diag, firstn_all. simpl firstn. rewrite app_nil_r. exact S6.
      * rewrite firstn_app. replace (k - length (a :: l))%nat with 0%nat by (simpl in *; lia). simpl (firstn 0 _). rewrite app_nil_r. apply S5. simpl in *. lia.
Qed.

Lemma loop_spec first : forall fuel num sizes, state first num sizes ->
  match loop fuel num sizes with
  | OutOfFuel => True
  | PathUnbound => sizes = [] /\ (inject_Z (max_samples + 1) <= num)%Q
  | GrowError s => tried query first max_samples s /\ query s = []
  | Stopped s path => tried query first max_samples s /\ query s = path
  end.
Proof.
  induction fuel as [|fuel IH]; intros num sizes S; [exact I|]. cbn [Anytime_Model.loop].
  destruct (Qlt_bool num (inject_Z (max_samples + 1))) eqn:B.
  - destruct (match sizes with [] => false | _ => Qint num <=? last sizes 0 end) eqn:G.
    + destruct sizes; [discriminate|]. exact S.
    + pose proof (grow_state first num sizes S B G) as T. destruct (query (sizes ++ [Qint num])) as [|p path] eqn:Q.
      * assert (St : state first (num * factor) (sizes ++ [Qint num])) by (unfold state; destruct (sizes ++ [Qint num]) eqn:E; [destruct sizes; discriminate|]; split; auto).
        specialize (IH _ _ St). destruct (loop fuel _ _); auto. destruct IH as [E _]. destruct sizes; discriminate.
      * split; auto.
  - destruct sizes as [|a l]; [|exact S]. split; auto. apply Qnot_lt_le. rewrite <- Qlt_bool_iff. congruence.
Qed.

Lemma loop_fuel first : forall fuel num sizes, state first num sizes ->
  (Z.to_nat (max_samples + 1 - last sizes 0%Z) < fuel)%nat -> loop fuel num sizes <> OutOfFuel.
Proof.
  induction fuel as [|fuel IH]; intros num sizes S F; [lia|]. cbn [Anytime_Model.loop].
  destruct (Qlt_bool num (inject_Z (max_samples + 1))) eqn:B.
  - destruct (match sizes with [] => false | _ => Qint num <=? last sizes 0 end) eqn:G; [discriminate|].
    pose proof (grow_state first num sizes S B G) as T. destruct (query (sizes ++ [Qint num])) as [|p path] eqn:Q; [|discriminate].
    apply IH.
    + unfold state. destruct (sizes ++ [Qint num]) eqn:E; [destruct sizes; discriminate|]. split; auto.
    + rewrite last_last. destruct (tried_budget _ _ _ _ T (Qint num)) as [L1 L2]; [apply in_or_app; simpl; auto|].
      assert (last sizes 0 < Qint num) by (destruct sizes; [simpl; lia|now apply Z.leb_gt in G]). lia.
  - destruct sizes; discriminate.
Qed.

(** enough growth never repeats a size, and failure means the next size would exceed the budget *)
Lemma loop_growth first : forall fuel num sizes, (1 <= num)%Q -> (1 <= num * (factor - 1))%Q ->
  match sizes with [] => Qint num = first | _ => tried query first max_samples sizes /\ query sizes = [] /\ (inject_Z (last sizes 0%Z) <= num - 1)%Q /\ (num <= (inject_Z (last sizes 0%Z) + 1) * factor)%Q end ->
  match loop fuel num sizes with
  | GrowError _ => False
  | Stopped s [] => (inject_Z (max_samples + 1) <= (inject_Z (last s 0%Z) + 1) * factor)%Q
  | _ => True
  end.
Proof.
  induction fuel as [|fuel IH]; intros num sizes N F S; [exact I|]. cbn [Anytime_Model.loop].
  assert (St : state first num sizes) by (unfold state; destruct sizes; [auto|destruct S as (T & Q & _); auto]).
  destruct (Qlt_bool num (inject_Z (max_samples + 1))) eqn:B.
  - assert (G : match sizes with [] => false | _ => Qint num <=? last sizes 0 end = false).
    { destruct sizes as [|a l]; auto. destruct S as (_ & _ & L & _). apply Z.leb_gt.
      rewrite Qint_pos by lra. apply Z.lt_le_trans with (last (a :: l) 0 + 1); [lia|].
      rewrite <- (Qfloor_Z (last (a :: l) 0 + 1)). apply Qfloor_resp_le. rewrite inject_Z_plus. change (inject_Z 1) with 1%Q. lra. }
    rewrite G. pose proof (grow_state first num sizes St B G) as T. destruct (query (sizes ++ [Qint num])) as [|p path] eqn:Q; [|exact I].
    destruct (Qint_bounds num ltac:(lra)) as [B1 B2]. rewrite inject_Z_plus in B2. change (inject_Z 1) with 1%Q in B2.
    assert (Fp : (0 < factor - 1)%Q).
    { destruct (Qlt_le_dec 0 (factor - 1)) as [|C]; auto. exfalso.
      assert (num * (factor - 1) <= 0)%Q; [|lra]. setoid_replace 0%Q with (num * 0)%Q by ring. apply Qmult_le_l; lra. }
    apply IH.
    + assert (num * factor == num + num * (factor - 1))%Q by ring. lra.
    + assert (num * factor * (factor - 1) == num * (factor - 1) + num * (factor - 1) * (factor - 1))%Q as E by ring. rewrite E.
      assert (0 <= num * (factor - 1) * (factor - 1))%Q by (apply Qmult_le_0_compat; lra). lra.
    + destruct (sizes ++ [Qint num]) eqn:E; [destruct sizes; discriminate|]. rewrite <- E in *. clear E. split; auto. split; auto. rewrite last_last. split.
      * assert (num * factor == num + num * (factor - 1))%Q by ring. lra.
      * apply Qmult_le_compat_r; lra.
  - destruct sizes as [|a l]; [exact I|]. destruct S as (T & Q & _ & U). apply not_true_iff_false in B. rewrite Qlt_bool_iff in B. apply Qnot_lt_le in B. lra.
Qed.
End Loop.

(** ** Theorems *)
(** The loop ends whatever the planner answers and whatever the factor, after at most
    max_samples + 2 rounds. *)
Theorem anytime_terminates P query max factor num : (1 <= num)%Q ->
  exists r, r <> OutOfFuel /\ forall fuel, (Z.to_nat (max + 1) < fuel)%nat -> loop P query max factor fuel num [] = r.
Proof.
  intro H. exists (loop P query max factor (S (Z.to_nat (max + 1))) num []). split.
  - apply (loop_fuel P query max factor (Qint num)); [split; auto|]. simpl. replace (max + 1 - 0) with (max + 1) by lia. lia.
  - assert (M : forall f1 f2 num sizes, (f1 <= f2)%nat -> loop P query max factor f1 num sizes <> OutOfFuel -> loop P query max factor f2 num sizes = loop P query max factor f1 num sizes).
    { induction f1 as [|f1 IH]; intros f2 m s L N; [simpl in N; congruence|]. destruct f2 as [|f2]; [lia|].
      cbn [loop] in *. destruct (Qlt_bool m _); auto. destruct (match s with [] => false | _ => _ end); auto.
      destruct (query _); auto. apply IH; auto. lia. }
    intros fuel F. apply M; [lia|]. apply (loop_fuel P query max factor (Qint num)); [split; auto|]. simpl. replace (max + 1 - 0) with (max + 1) by lia. lia.
Qed.

(** It asks for increasing sizes within the budget, starting with the first size, and stops at
    the first success; the result is the path of the last attempt with both end points, or
    nothing if that attempt failed too. *)
Theorem anytime_result P query max factor num fuel start goal : (1 <= num)%Q ->
  match loop P query max factor fuel num [] with
  | OutOfFuel => True
  | PathUnbound => (inject_Z (max + 1) <= num)%Q
  | GrowError sizes => tried query (Qfloor num) max sizes /\ query sizes = []
  | Stopped sizes path => tried query (Qfloor num) max sizes /\
      motion P start goal (Stopped sizes path) = Some (match query sizes with [] => None | _ => Some (start :: query sizes ++ [goal]) end)
  end.
Proof.
  intro H. assert (St : state P query max (Qfloor num) num []) by (split; auto; apply Qint_pos; lra).
  pose proof (loop_spec P query max factor (Qfloor num) fuel num [] St) as L.
  destruct (loop P query max factor fuel num []) as [| |s|s p]; auto; [tauto|]. destruct L as [T Q]. split; auto. subst p. simpl. destruct (query s); auto.
Qed.

(** If the first size times (factor - 1) is at least one, no attempt is refused, and a failed
    search got within one factor of the budget. *)
Theorem anytime_growth P query max factor num fuel : (1 <= num)%Q -> (1 <= num * (factor - 1))%Q ->
  match loop P query max factor fuel num [] with
  | GrowError _ => False
  | Stopped sizes [] => (inject_Z (max + 1) <= (inject_Z (last sizes 0%Z) + 1) * factor)%Q
  | _ => True
  end.
Proof. intros H F. apply (loop_growth P query max factor (Qint num)); auto. Qed.

(** defaults of get_anytime_motion_fn: sizes 10, 15, 22, 33, 50, 75 *)
Example default_sizes : loop nat (fun _ => []) 100 (3 # 2) 20 10 [] = Stopped [10; 15; 22; 33; 50; 75] [].
Proof. reflexivity. Qed.
Example default_success : loop nat (fun s => if (3 <=? length s)%nat then [7%nat] else []) 100 (3 # 2) 20 10 [] = Stopped [10; 15; 22] [7%nat].
Proof. reflexivity. Qed.
Example default_hypotheses : (1 <= 10)%Q /\ (1 <= 10 * ((3 # 2) - 1))%Q.
Proof. split; discriminate. Qed.

(** A failed search need not have used the whole budget. *)
Theorem anytime_uses_budget_refuted : exists (query : list Z -> list nat) max factor num sizes fuel,
  (1 < num)%Q /\ (1 < factor)%Q /\ loop nat query max factor fuel num [] = Stopped sizes [] /\ ~ In max sizes.
Proof.
  exists (fun _ => []), 100, (3 # 2), 10%Q, [10; 15; 22; 33; 50; 75], 20%nat. split; [reflexivity|]. split; [reflexivity|]. split; [reflexivity|].
  simpl. intuition discriminate.
Qed.
(** A factor above one can still ask for the same size twice, which raises. *)
Theorem anytime_no_error_refuted : exists (query : list Z -> list nat) max factor num sizes fuel,
  (1 <= num)%Q /\ (1 < factor)%Q /\ loop nat query max factor fuel num [] = GrowError sizes.
Proof. exists (fun _ => []), 100, (3 # 2), 1%Q, [1], 20%nat. split; [discriminate|]. split; reflexivity. Qed.
(** A first size above the budget leaves [path] unbound. *)
Theorem anytime_path_bound_refuted : exists (query : list Z -> list nat) max factor num fuel,
  (1 <= num)%Q /\ (1 < factor)%Q /\ loop nat query max factor fuel num [] = PathUnbound.
Proof. exists (fun _ => []), 9, (3 # 2), 10%Q, 5%nat. split; [discriminate|]. split; reflexivity. Qed.

(** Adaptive mode with the factor 1.5 or more: for bounds of five or more samples the only
    attempt uses one sample less than the bound. *)
Theorem adaptive_single_attempt P query bound start_samples end_samples factor fuel : 5 <= bound -> (3 # 2 <= factor)%Q -> (2 <= fuel)%nat ->
  let (first, max) := budget true bound start_samples end_samples in
  loop P query max factor fuel (inject_Z first) [] = Stopped [bound - 1] (query [bound - 1]).
Proof.
  intros B F Hf. unfold budget. destruct fuel as [|[|fuel]]; try lia. cbn [loop].
  assert (E1 : Qlt_bool (inject_Z (bound - 1)) (inject_Z (bound + 1)) = true) by (apply Qlt_bool_iff; rewrite <- Zlt_Qlt; lia).
  assert (E2 : Qint (inject_Z (bound - 1)) = bound - 1).
  { rewrite Qint_pos; [apply Qfloor_Z|]. change 0%Q with (inject_Z 0). rewrite <- Zle_Qle. lia. }
  assert (E3 : Qlt_bool (inject_Z (bound - 1) * factor) (inject_Z (bound + 1)) = false).
  { apply not_true_iff_false. rewrite Qlt_bool_iff. apply Qle_not_lt.
    apply Qle_trans with (inject_Z (bound - 1) * (3 # 2))%Q.
    - assert (inject_Z (bound + 1) == inject_Z (2 * (bound + 1)) * (1 # 2))%Q as -> by (rewrite inject_Z_mult; change (inject_Z 2) with 2%Q; field).
      assert (inject_Z (bound - 1) * (3 # 2) == inject_Z (3 * (bound - 1)) * (1 # 2))%Q as -> by (rewrite inject_Z_mult; change (inject_Z 3) with 3%Q; field).
      apply Qmult_le_compat_r; [|discriminate]. rewrite <- Zle_Qle. lia.
    - rewrite !(Qmult_comm (inject_Z (bound - 1))). apply Qmult_le_compat_r; auto. change 0%Q with (inject_Z 0). rewrite <- Zle_Qle. lia. }
  rewrite E1, E2, E3. cbn [app]. destruct (query [bound - 1]); reflexivity.
Qed.
Example adaptive_example : loop nat (fun _ => []) 1000 (3 # 2) 5 (inject_Z 999) [] = Stopped [999] [].
Proof. reflexivity. Qed.

Theorem adaptive_reaches_bound_refuted : exists (query : list Z -> list nat) bound fuel sizes, 5 <= bound /\
  (let (first, max) := budget true bound 100 1000 in loop nat query max (3 # 2) fuel (inject_Z first) [] = Stopped sizes []) /\
  forall n, In n sizes -> n < bound.
Proof.
  exists (fun _ => []), 1000, 5%nat, [999]. split; [lia|]. split; [reflexivity|]. intros n [<-|[]]. lia.
Qed.

Print Assumptions anytime_terminates.
Print Assumptions anytime_result.
Print Assumptions anytime_growth.
Print Assumptions anytime_uses_budget_refuted.
Print Assumptions anytime_no_error_refuted.
Print Assumptions anytime_path_bound_refuted.
Print Assumptions adaptive_single_attempt.
Print Assumptions adaptive_reaches_bound_refuted.
