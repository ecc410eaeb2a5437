(** The sampling probabilities of the Gray-code corridor. *)
From Coq Require Import Arith ZArith QArith Qround List Bool Lia Lqa Qfield.
From Verif Require Import Gray_Model Gray_Spec Gray_Proofs Gray_Proofs2.
Import ListNotations.
Open Scope Q_scope.

Lemma qpow_pos x n : 0 < x -> 0 < qpow x n.
Proof. intro H. induction n; simpl; [lra|nra]. Qed.

Lemma qprod_repeat x n : qprod (repeat x n) == qpow x n.
Proof. induction n as [|n IH]; simpl; [reflexivity|]. unfold qprod in *. simpl. rewrite IH. reflexivity. Qed.

Lemma vol_center_val dim th : vol_center dim th == centre_volume dim th.
Proof. unfold vol_center, cube_center_lengths. rewrite qprod_repeat. reflexivity. Qed.
Lemma vol_open_val dim th : (1 <= dim)%nat -> vol_open_wall dim th == passage_volume dim th.
Proof.
  intro H. destruct dim as [|dim]; [lia|].
  unfold vol_open_wall, open_wall_lengths, passage_volume. simpl Nat.sub.
  cbn [cube_center_lengths repeat]. rewrite Nat.sub_0_r. unfold qprod. simpl. fold (qprod (repeat (1 - 2 * th) dim)).
  rewrite qprod_repeat. reflexivity.
Qed.

Lemma total_app l m : total (l ++ m) == total l + total m.
Proof. unfold total. induction l as [|x l IH]; simpl; [ring|]. rewrite IH. ring. Qed.
Lemma total_repeat x n : total (repeat x n) == inject_Z (Z.of_nat n) * x.
Proof.
  induction n as [|n IH]; [simpl; ring|].
  rewrite Nat2Z.inj_succ. unfold Z.succ. rewrite inject_Z_plus. cbn [repeat]. unfold total in *. simpl fold_right. rewrite IH.
  change (inject_Z 1) with 1. ring.
Qed.

Section Volumes.
  Variables (n dim : nat) (th : Q).
  Hypothesis Hd : (1 <= dim)%nat.
  Hypothesis Hn : (2 <= n)%nat.
  Hypothesis T0 : 0 <= th.
  Hypothesis T1 : th < 1#2.

  Lemma centre_pos : 0 < centre_volume dim th.
  Proof. apply qpow_pos. lra. Qed.
  Lemma passage_nonneg : 0 <= passage_volume dim th.
  Proof. unfold passage_volume. assert (0 < qpow (1 - 2 * th) (dim - 1)) by (apply qpow_pos; lra). nra. Qed.
  Lemma n_ge : 2 <= inject_Z (Z.of_nat n).
  Proof. change 2 with (inject_Z 2). rewrite <- Zle_Qle. lia. Qed.
  Lemma n_sub : inject_Z (Z.of_nat n - 2) == inject_Z (Z.of_nat n) - 2.
  Proof. unfold Z.sub. rewrite inject_Z_plus. change (inject_Z (-(2))) with (-(2)). ring. Qed.

  Lemma total_volume_val : total_volume n dim th == free_volume n dim th.
  Proof.
    unfold total_volume, vol_mid_passage, vol_end_passage, free_volume.
    rewrite vol_center_val, vol_open_val, n_sub by auto. ring.
  Qed.
  Lemma total_volume_pos : 0 < total_volume n dim th.
  Proof.
    rewrite total_volume_val. unfold free_volume. pose proof centre_pos. pose proof passage_nonneg. pose proof n_ge.
    set (m := inject_Z (Z.of_nat n)) in *. nra.
  Qed.
  Lemma end_pos : 0 < vol_end_passage dim th.
  Proof. unfold vol_end_passage. rewrite vol_center_val, vol_open_val by auto. pose proof centre_pos. pose proof passage_nonneg. lra. Qed.
  Lemma mid_pos : 0 < vol_mid_passage dim th.
  Proof. unfold vol_mid_passage. rewrite vol_center_val, vol_open_val by auto. pose proof centre_pos. pose proof passage_nonneg. lra. Qed.

  Lemma div_nonneg a b : 0 <= a -> 0 < b -> 0 <= a / b.
  Proof. intros A B. apply Qle_shift_div_l; auto. lra. Qed.

  Lemma cuboid_pmf_dist : length (cuboid_pmf n dim th) = n /\ Forall (fun p => 0 <= p) (cuboid_pmf n dim th) /\
    total (cuboid_pmf n dim th) == 1.
  Proof.
    pose proof total_volume_pos as TV. pose proof end_pos as EP. pose proof mid_pos as MP.
    unfold cuboid_pmf. split; [rewrite !app_length, repeat_length; simpl; lia|]. split.
    - repeat (apply Forall_app; split); [constructor; [|constructor]| |constructor; [|constructor]]; try (apply div_nonneg; lra).
      apply Forall_forall. intros x Hx. apply repeat_spec in Hx. subst. apply div_nonneg; lra.
    - rewrite !total_app, total_repeat, Nat2Z.inj_sub by auto. change (Z.of_nat 2) with 2%Z.
      unfold total. simpl fold_right.
      setoid_replace 1 with (total_volume n dim th / total_volume n dim th) by (field; lra).
      unfold total_volume at 4. field. lra.
  Qed.
  Lemma mid_pmf_dist : Forall (fun p => 0 <= p) (mid_passage_regions_pmf dim th) /\ total (mid_passage_regions_pmf dim th) == 1.
  Proof.
    pose proof mid_pos as MP. pose proof centre_pos as C. pose proof passage_nonneg as P.
    rewrite <- vol_center_val in C. rewrite <- vol_open_val in P by auto.
    unfold mid_passage_regions_pmf. split.
    - repeat constructor; apply div_nonneg; lra.
    - unfold total. simpl. unfold vol_mid_passage in *. field. lra.
  Qed.
  Lemma end_pmf_dist : Forall (fun p => 0 <= p) (end_passage_regions_pmf dim th) /\ total (end_passage_regions_pmf dim th) == 1.
  Proof.
    pose proof end_pos as MP. pose proof centre_pos as C. pose proof passage_nonneg as P.
    rewrite <- vol_center_val in C. rewrite <- vol_open_val in P by auto.
    unfold end_passage_regions_pmf. split.
    - repeat constructor; apply div_nonneg; lra.
    - unfold total. simpl. unfold vol_end_passage in *. field. lra.
  Qed.

  Lemma cuboid_pmf_nth i : (i < n)%nat -> nth i (cuboid_pmf n dim th) 0 =
    if (Nat.eqb i 0 || Nat.eqb i (n - 1))%bool then vol_end_passage dim th / total_volume n dim th
    else vol_mid_passage dim th / total_volume n dim th.
  Proof.
    intro Hi. unfold cuboid_pmf. destruct i as [|i]; [reflexivity|].
    destruct (Nat.eqb_spec (S i) (n - 1)) as [E|E]; simpl orb; cbv iota; simpl app; cbn [nth].
    - rewrite app_nth2 by (rewrite repeat_length; lia). rewrite repeat_length. replace (i - (n - 2))%nat with 0%nat by lia. reflexivity.
    - rewrite app_nth1 by (rewrite repeat_length; lia). apply nth_repeat_lt. lia.
  Qed.
End Volumes.
