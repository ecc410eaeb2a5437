(** Properties of the Gray-code corridor (envs.py 470-768). *)
From Coq Require Import Arith ZArith QArith Qround List Bool Lia Lqa Qfield.
From Verif Require Import Gray_Model Gray_Spec Gray_Proofs Gray_Proofs2 Gray_Proofs3 Gray_Proofs4 Gray_Proofs5.
Import ListNotations.
Open Scope Q_scope.

(** ** The corridor *)
Theorem gray_corridor dim len : (2 <= dim)%nat -> (1 <= len)%nat ->
  let path := linear_list dim len in
  NoDup path /\ length path = (len * Nat.pow 2 (dim - 1))%nat /\
  (forall c, In c path <-> in_grid dim len c) /\
  hd [] path = repeat 0%Z dim /\
  (forall c d, consecutive path c d -> one_step c d).
Proof.
  intros Hd Hl. cbv zeta. destruct (linear_corridor dim len ltac:(lia)) as (N & _ & S).
  split; auto. split; [apply linear_length|]. split; [intro c; apply linear_In; lia|]. split; auto.
  destruct (linear_first dim len ltac:(lia) Hl) as [m ->]. reflexivity.
Qed.

Example gray_corridor_case : (2 <= 3)%nat /\ (1 <= 2)%nat /\
  linear_list 3 2 = [[0;0;0]; [0;0;1]; [0;1;1]; [0;1;0]; [1;1;0]; [1;1;1]; [1;0;1]; [1;0;0]]%Z.
Proof. split; [lia|]. split; [lia|]. reflexivity. Qed.

Lemma path_long dim len : (2 <= dim)%nat -> (1 <= len)%nat -> (2 <= length (linear_list dim len))%nat.
Proof.
  intros Hd Hl. rewrite linear_length. destruct dim as [|[|dim]]; try lia. simpl Nat.sub.
  assert (1 <= 2 ^ dim)%nat by (apply (Nat.pow_le_mono_r 2 0); lia). simpl Nat.pow. nia.
Qed.

(** ** The wall distance *)
Theorem gray_wall_distance_exact dim len th x : (2 <= dim)%nat -> length x = dim ->
  let path := linear_list dim len in
  ((exists d, distance_to_wall dim path th x = Ok d) <-> exists c, in_grid dim len c /\ cube_of x c) /\
  (forall d v, distance_to_wall dim path th x = Ok d -> (at_least v d <-> corridor_free path (th + v) x)).
Proof.
  intros Hd Lx path. assert (K : corridor dim path) by (apply linear_corridor; lia).
  assert (In_iff : In (floor_cube x) path <-> exists c, in_grid dim len c /\ cube_of x c).
  { unfold path. rewrite linear_In by lia. split.
    - intro H. exists (floor_cube x). split; auto. now apply floor_cube_of.
    - intros (c & H & C). apply floor_cube_of in C. now rewrite C. }
  rewrite <- In_iff. split.
  - split.
    + intros (d & E). destruct (in_dec (list_eq_dec Z.eq_dec) (floor_cube x) path) as [I|I]; auto.
      rewrite (distance_to_wall_err dim path th x) in E by auto. discriminate.
    + intro I. destruct (distance_to_wall_spec dim path th x K Lx I) as (d & -> & _). eauto.
  - intros d v E. destruct (in_dec (list_eq_dec Z.eq_dec) (floor_cube x) path) as [I|I].
    + destruct (distance_to_wall_spec dim path th x K Lx I) as (d' & E' & A & _). rewrite E' in E. injection E as <-. apply A.
    + rewrite (distance_to_wall_err dim path th x) in E by auto. discriminate.
Qed.

(** In the corner cube the face towards the next cube is open, the others are walls. *)
Example gray_wall_distance_case :
  distance_to_wall 2 (linear_list 2 2) (1#10) [3#10; 95#100] = Ok (Some ((3#10) - (0 + (1#2)) - (-(1#2)) - (1#10))) /\
  (3#10) - (0 + (1#2)) - (-(1#2)) - (1#10) == 2#10.
Proof. split; reflexivity. Qed.

(** ** Samples *)
Lemma map_fst_filter_NoDup {A B} (f : A * B -> bool) : forall (l : list A) (m : list B), NoDup l ->
  NoDup (map fst (filter f (combine l m))) /\ forall x, In x (map fst (filter f (combine l m))) -> In x l.
Proof.
  induction l as [|a l IH]; intros m N; [simpl; split; [constructor|tauto]|].
  destruct m as [|b m]; [simpl; split; [constructor|tauto]|]. inversion N as [|? ? Na Nl]; subst.
  destruct (IH m Nl) as [I1 I2]. simpl. destruct (f (a, b)); simpl.
  - split; [constructor; auto|]. intros x [->|H]; auto.
  - split; auto.
Qed.

Lemma neighbors_of (path : list cube) i : NoDup path -> (i < length path)%nat ->
  (forall j, i = S j -> nth 0 (neighbors path (nth i path [])) [] = nth j path [] /\
     ((S i < length path)%nat -> nth 1 (neighbors path (nth i path [])) [] = nth (S i) path [])) /\
  (i = 0%nat -> (S i < length path)%nat -> nth 0 (neighbors path (nth i path [])) [] = nth (S i) path []).
Proof.
  intros N Hi. split.
  - intros j ->. destruct (pred_hd path (nth (S j) path []) (nth j path []) N) as [l E].
    { apply (consecutive_nth path _ _ []). exists j. auto. }
    unfold neighbors. rewrite E. split; [reflexivity|]. intro Hs.
    assert (l = []).
    { destruct l as [|e l]; auto. exfalso.
      assert (ND : NoDup (predecessors path (nth (S j) path []))) by (apply (map_fst_filter_NoDup _ path (tl path) N)).
      rewrite E in ND. inversion ND as [|? ? Na _]; subst. apply Na. left.
      apply (consecutive_pred_unique path (nth (S j) path [])); auto.
      - apply predecessors_In. rewrite E. simpl; auto.
      - apply (consecutive_nth path _ _ []). exists j. auto. }
    subst l. destruct (succ_hd path (nth (S j) path []) (nth (S (S j)) path []) N) as [l E'].
    { apply (consecutive_nth path _ _ []). exists (S j). auto. }
    rewrite E'. reflexivity.
  - intros -> Hs. unfold neighbors. destruct (predecessors path (nth 0 path [])) as [|e l] eqn:E.
    + destruct (succ_hd path (nth 0 path []) (nth 1 path []) N) as [l E'].
      { apply (consecutive_nth path _ _ []). exists 0%nat. auto. }
      rewrite E'. reflexivity.
    + exfalso. assert (H : consecutive path e (nth 0 path [])) by (apply predecessors_In; rewrite E; simpl; auto).
      apply (consecutive_nth path _ _ []) in H as (j & Hj & _ & E2). apply nth_unique in E2; auto; lia.
Qed.

(** the region probabilities used for the cube with index i, envs.py 585-593 *)
Definition regions_pmf (n dim : nat) (th : Q) (i : nat) : list Q :=
  if (i =? 0)%nat || (i =? n - 1)%nat then end_passage_regions_pmf dim th else mid_passage_regions_pmf dim th.

(** where the region drawn in cube i must lie: the centre, or the opening to a neighbour *)
Definition region_box (path : list cube) (th : Q) (i r : nat) (x : point) : Prop :=
  let c := nth i path [] in
  let n := length path in
  if (i =? 0)%nat then if (r =? 0)%nat then in_centre th c x else in_opening th c (nth 1 path []) x
  else if (i =? n - 1)%nat then if (r =? 0)%nat then in_centre th c x else in_opening th c (nth (n - 2) path []) x
  else if (r =? 0)%nat then in_opening th c (nth (i - 1) path []) x
  else if (r =? 1)%nat then in_centre th c x else in_opening th c (nth (i + 1) path []) x.

Lemma passage_needs_thickness dim th : (1 <= dim)%nat -> 0 <= th -> 0 < vol_open_wall dim th -> 0 < th.
Proof.
  intros Hd T0 H. rewrite vol_open_val in H by auto. unfold passage_volume in H.
  destruct (Qlt_le_dec 0 th) as [L|L]; auto. assert (E : th == 0) by lra. rewrite E in H at 1. lra.
Qed.

Lemma div_pos_num a b : 0 <= a -> 0 < b -> 0 < a / b -> 0 < a.
Proof.
  intros A B H. destruct (Qlt_le_dec 0 a); auto. assert (E : a == 0) by lra. rewrite E in H.
  assert (Z : 0 / b == 0) by (field; lra). lra.
Qed.

Theorem gray_samples dim len th i r u : (2 <= dim)%nat -> (1 <= len)%nat -> 0 <= th -> th < 1#2 ->
  let path := linear_list dim len in
  let n := length path in
  (i < n)%nat -> 0 < nth r (regions_pmf n dim th i) 0 -> unit_draws dim u ->
  let x := sample_from_env dim path th i r u in
  length x = dim /\ cube_of x (nth i path []) /\ region_box path th i r x /\
  exists d, distance_to_wall dim path th x = Ok d /\ at_least 0 d.
Proof.
  intros Hd Hl T0 T1 path n Hi Pr U x.
  assert (K : corridor dim path) by (apply linear_corridor; lia). pose proof K as (N & HL & HS).
  assert (Hn : (2 <= n)%nat) by (now apply path_long).
  set (c := nth i path []) in *. assert (Hc : In c path) by (now apply nth_In). assert (Lc := HL c Hc).
  assert (PN : 0 <= vol_open_wall dim th) by (rewrite vol_open_val by lia; apply passage_nonneg; auto).
  assert (EP : 0 < vol_end_passage dim th) by (apply end_pos; auto; lia).
  assert (MP : 0 < vol_mid_passage dim th) by (apply mid_pos; auto; lia).
  assert (Hend : (cube_eqb c (hd [] path) || cube_eqb c (last path []))%bool = ((i =? 0)%nat || (i =? n - 1)%nat)%bool).
  { assert (H0 : hd [] path = nth 0 path []) by (destruct path; reflexivity). rewrite H0, last_is_nth.
    f_equal; apply eq_true_iff_eq; rewrite cube_eqb_iff, Nat.eqb_eq; (split; [|intros ->; reflexivity]);
      intro E; apply (nth_unique path) in E; auto; fold n; lia. }
  destruct (neighbors_of path i N Hi) as [NB1 NB2]. fold c in NB1, NB2.
  assert (Finish : length x = dim /\ cube_of x c /\ margin path c th x -> region_box path th i r x ->
     length x = dim /\ cube_of x c /\ region_box path th i r x /\
     exists d, distance_to_wall dim path th x = Ok d /\ at_least 0 d).
  { intros (A & B & C) D. split; auto. split; auto. split; auto.
    assert (F : floor_cube x = c) by (now apply floor_cube_of).
    destruct (distance_to_wall_spec dim path th x K A) as (d & E & _ & O); [now rewrite F|].
    exists d. split; auto. apply oneg_iff, O. exists c. auto. }
  assert (Cen : forall rg, is_center rg = true -> sampled_region path c r = rg ->
      length x = dim /\ cube_of x c /\ margin path c th x /\ in_centre th c x).
  { intros rg R E. unfold x, sample_from_env. fold c. rewrite E.
    destruct (sample_center dim path th u c rg Lc U T0 T1 R) as (A & B & C & D). split; auto. split; auto. split; auto.
    intros j Hj. apply D. lia. }
  assert (Pas : forall rg, is_center rg = false -> sampled_region path c r = rg -> 0 < th ->
      let ix := match rg with EndPassage | MidPassage1 => 0%nat | _ => 1%nat end in
      (ix < length (neighbors path c))%nat ->
      length x = dim /\ cube_of x c /\ margin path c th x /\ in_opening th c (nth ix (neighbors path c) []) x).
  { intros rg R E T ix Hix. unfold x, sample_from_env. fold c. rewrite E.
    apply (sample_passage dim path th u c rg); auto. }
  destruct (neighbors_count path c N Hn Hc) as [NC1 NC2].
  unfold sampled_region in Cen, Pas. rewrite Hend in Cen, Pas. unfold regions_pmf in Pr.
  unfold region_box in Finish. fold c n in Finish. unfold region_box. fold c n.
  destruct (Nat.eqb_spec i 0) as [E0|E0]; [|destruct (Nat.eqb_spec i (n - 1)) as [E1|E1]]; simpl orb in Cen, Pas, Pr; cbv iota in Cen, Pas, Pr, Finish |- *.
  - destruct r as [|[|r]]; [| |exfalso; destruct r; cbn in Pr; lra].
    + destruct (Cen EndCenter eq_refl eq_refl) as (A & B & C & D). apply Finish; auto.
    + cbn in Pr. apply div_pos_num in Pr; auto. apply passage_needs_thickness in Pr; auto; [|lia].
      destruct (Pas EndPassage eq_refl eq_refl Pr) as (A & B & C & D); [cbn; lia|].
      apply Finish; auto. rewrite NB2 in D by (auto; fold n; lia). now rewrite E0 in D.
  - destruct r as [|[|r]]; [| |exfalso; destruct r; cbn in Pr; lra].
    + destruct (Cen EndCenter eq_refl eq_refl) as (A & B & C & D). apply Finish; auto.
    + cbn in Pr. apply div_pos_num in Pr; auto. apply passage_needs_thickness in Pr; auto; [|lia].
      destruct (Pas EndPassage eq_refl eq_refl Pr) as (A & B & C & D); [cbn; lia|].
      apply Finish; auto. destruct (NB1 (n - 2)%nat) as [X _]; [lia|]. now rewrite X in D.
  - assert (NC : (2 <= length (neighbors path c))%nat).
    { apply NC2; intro E; apply cube_eqb_iff in E; rewrite E in Hend; [|rewrite orb_true_r in Hend]; discriminate. }
    destruct (NB1 (i - 1)%nat ltac:(lia)) as [X Y].
    destruct r as [|[|[|r]]]; [| | |exfalso; destruct r; cbn in Pr; lra]; cbn [Nat.eqb].
    + cbn in Pr. apply div_pos_num in Pr; auto. apply passage_needs_thickness in Pr; auto; [|lia].
      destruct (Pas MidPassage1 eq_refl eq_refl Pr) as (A & B & C & D); [cbn; lia|].
      apply Finish; auto. now rewrite X in D.
    + destruct (Cen MidCenter eq_refl eq_refl) as (A & B & C & D). apply Finish; auto.
    + cbn in Pr. apply div_pos_num in Pr; auto. apply passage_needs_thickness in Pr; auto; [|lia].
      destruct (Pas MidPassage2 eq_refl eq_refl Pr) as (A & B & C & D); [cbn; lia|].
      apply Finish; auto. rewrite Y in D by (fold n; lia). now rewrite Nat.add_1_r.
Qed.

Example gray_samples_case :
  0 < nth 2 (regions_pmf 4 2 (1#10) 1) 0 /\ unit_draws 2 [1#2; 1#4] /\
  Forall2 Qeq (sample_from_env 2 (linear_list 2 2) (1#10) 1 2 [1#2; 1#4]) [95#100; 13#10].
Proof.
  split; [reflexivity|]. split.
  - split; [reflexivity|]. intros i Hi. destruct i as [|[|i]]; [| |lia]; simpl; lra.
  - repeat constructor.
Qed.

(** volume of the region drawn in cube i *)
Definition region_volume (n dim : nat) (th : Q) (i r : nat) : Q :=
  let centre_ix := if (i =? 0)%nat || (i =? n - 1)%nat then 0%nat else 1%nat in
  if (r =? centre_ix)%nat then centre_volume dim th else passage_volume dim th.

(** Each region is drawn with probability proportional to its volume, so samples are uniform
    over the free part of the corridor. *)
Theorem gray_probabilities dim len th : (2 <= dim)%nat -> (1 <= len)%nat -> 0 <= th -> th < 1#2 ->
  let n := length (linear_list dim len) in
  (length (cuboid_pmf n dim th) = n /\ Forall (fun p => 0 <= p) (cuboid_pmf n dim th) /\ total (cuboid_pmf n dim th) == 1) /\
  (forall i, (i < n)%nat ->
     length (regions_pmf n dim th i) = (if (i =? 0) || (i =? n - 1) then 2 else 3)%nat /\
     Forall (fun p => 0 <= p) (regions_pmf n dim th i) /\ total (regions_pmf n dim th i) == 1 /\
     forall r, (r < length (regions_pmf n dim th i))%nat ->
       nth i (cuboid_pmf n dim th) 0 * nth r (regions_pmf n dim th i) 0 ==
       region_volume n dim th i r / free_volume n dim th).
Proof.
  intros Hd Hl T0 T1 n. assert (Hn : (2 <= n)%nat) by (now apply path_long). assert (H1 : (1 <= dim)%nat) by lia.
  split; [now apply cuboid_pmf_dist|]. intros i Hi.
  pose proof (mid_pmf_dist dim th H1 T0 T1) as [M1 M2]. pose proof (end_pmf_dist dim th H1 T0 T1) as [N1 N2].
  pose proof (total_volume_pos n dim th H1 Hn T0 T1) as TV.
  pose proof (end_pos dim th H1 T0 T1) as EP. pose proof (mid_pos dim th H1 T0 T1) as MP.
  rewrite cuboid_pmf_nth by auto. unfold regions_pmf, region_volume.
  destruct ((i =? 0)%nat || (i =? n - 1)%nat); (split; [reflexivity|]; split; [auto|]; split; [auto|]); intros r Hr; cbn in Hr.
  - destruct r as [|[|r]]; [| |lia]; cbn [nth end_passage_regions_pmf app Nat.eqb];
      rewrite <- total_volume_val, <- ?vol_center_val, <- ?vol_open_val by auto; field; lra.
  - destruct r as [|[|[|r]]]; [| | |lia]; cbn [nth mid_passage_regions_pmf app Nat.eqb];
      rewrite <- total_volume_val, <- ?vol_center_val, <- ?vol_open_val by auto; field; lra.
Qed.

Example gray_probabilities_case :
  Forall2 Qeq (cuboid_pmf 4 2 (1#10)) [9#38; 5#19; 5#19; 9#38] /\
  free_volume 4 2 (1#10) == 76#25.
Proof. split; [repeat constructor|reflexivity]. Qed.

(** ** The reference curve *)
Lemma curve_segment n t : (2 <= n)%nat -> 0 <= t <= 1 ->
  exists k s, (S k < n)%nat /\ 0 <= s <= 1 /\ t * (inject_Z (Z.of_nat n) - 1) == inject_Z (Z.of_nat k) + s.
Proof.
  intros Hn Ht. set (y := t * (inject_Z (Z.of_nat n) - 1)).
  assert (N2 : 2 <= inject_Z (Z.of_nat n)) by (change 2 with (inject_Z 2); rewrite <- Zle_Qle; lia). set (m := inject_Z (Z.of_nat n)) in *.
  assert (Y : 0 <= y <= m - 1) by (unfold y; nra).
  destruct (Qlt_le_dec y (m - 1)) as [L|L].
  - exists (Z.to_nat (Qfloor y)), (y - inject_Z (Qfloor y)).
    assert (F0 : (0 <= Qfloor y)%Z) by (apply (Qfloor_resp_le 0 y); lra).
    pose proof (Qfloor_le y) as F1. pose proof (Qlt_floor y) as F2. rewrite inject_Z_plus in F2. change (inject_Z 1) with 1 in F2.
    assert (F3 : (Qfloor y < Z.of_nat n - 1)%Z).
    { rewrite Zlt_Qlt. unfold Z.sub. rewrite inject_Z_plus. change (inject_Z (-(1))) with (-(1)). fold m. lra. }
    split; [lia|]. split; [lra|]. rewrite Z2Nat.id by auto. ring.
  - exists (n - 2)%nat, 1. split; [lia|]. split; [lra|].
    rewrite Nat2Z.inj_sub by auto. unfold Z.sub. rewrite inject_Z_plus. fold m. change (inject_Z (- Z.of_nat 2)) with (-(2)). lra.
Qed.

Section CurveShape.
  Variables (dim len : nat).
  Hypothesis Hd : (2 <= dim)%nat.
  Hypothesis Hl : (1 <= len)%nat.
  Hypothesis Hx : (3 <= dim)%nat \/ Nat.even len = true.
  Let path := linear_list dim len.
  Let n := length path.

  Lemma curve_at t k s : 0 <= t <= 1 -> (S k < n)%nat -> 0 <= s <= 1 ->
    t * (inject_Z (Z.of_nat n) - 1) == inject_Z (Z.of_nat k) + s ->
    exists p, curve_point dim path t = Ok p /\
      same_point p (at_time s (centre (nth k path [])) (centre (nth (S k) path []))).
  Proof.
    assert (Hn : (2 <= n)%nat) by (now apply path_long).
    apply curve_polyline; auto; try lia.
    - apply linear_corridor. lia.
    - unfold path. destruct (linear_first dim len ltac:(lia) Hl) as [m ->]. reflexivity.
    - intros i Hi. unfold path. destruct (linear_second dim len Hd Hl) as [m ->]. cbn [nth].
      destruct (Nat.eqb_spec i (dim - 1)) as [->|Ne].
      + rewrite app_nth2, repeat_length, Nat.sub_diag by (rewrite repeat_length; lia). reflexivity.
      + rewrite app_nth1 by (rewrite repeat_length; lia). apply nth_repeat_lt. lia.
    - intros i Hi. fold n.
      destruct (linear_last_two dim len Hd Hl Hx) as (m & p & E & Lp).
      assert (Ln : n = (length m + 2)%nat) by (unfold n, path; rewrite E, app_length; reflexivity).
      rewrite Ln. unfold path. rewrite E. rewrite !app_nth2 by lia.
      replace (length m + 2 - 2 - length m)%nat with 0%nat by lia. replace (length m + 2 - 1 - length m)%nat with 1%nat by lia.
      cbn [nth]. destruct (Nat.eqb_spec i (dim - 1)) as [->|Ne].
      + rewrite !app_nth2, !Lp, Nat.sub_diag by lia. reflexivity.
      + rewrite !app_nth1 by lia. lia.
  Qed.
End CurveShape.

Theorem gray_curve dim len : (2 <= dim)%nat -> (1 <= len)%nat -> (3 <= dim)%nat \/ Nat.even len = true ->
  let path := linear_list dim len in
  let n := length path in
  (* the curve walks at unit speed through the cube centres *)
  (forall t k s, 0 <= t <= 1 -> (S k < n)%nat -> 0 <= s <= 1 ->
     t * (inject_Z (Z.of_nat n) - 1) == inject_Z (Z.of_nat k) + s ->
     exists p, curve_point dim path t = Ok p /\
       same_point p (at_time s (centre (nth k path [])) (centre (nth (S k) path [])))) /\
  (* it keeps half a unit from the closed faces *)
  (forall th t, 0 <= t <= 1 -> exists p d, curve_point dim path t = Ok p /\
     distance_to_wall dim path th p = Ok d /\ at_least ((1#2) - th) d) /\
  (* it joins the start and end points, and is as long as reported *)
  (exists p, curve_point dim path 0 = Ok p /\ same_point p (start_point dim)) /\
  (exists p, curve_point dim path 1 = Ok p /\ same_point p (end_point path)) /\
  curve_arclength n == inject_Z (Z.of_nat n) - 1.
Proof.
  intros Hd Hl Hx path n. assert (Hn : (2 <= n)%nat) by (now apply path_long).
  assert (K : corridor dim path) by (apply linear_corridor; lia). pose proof K as (N & HL & HS).
  assert (C := curve_at dim len Hd Hl Hx). fold path n in C.
  split; [exact C|]. split; [|split; [|split]].
  - intros th t Ht. destruct (curve_segment n t Hn Ht) as (k & s & Hk & Hs & E).
    destruct (C t k s Ht Hk Hs E) as (p & Ep & Sp).
    assert (F : corridor_free path (1#2) p).
    { eapply corridor_free_same; [|apply (between_centres_free dim path (nth k path []) (nth (S k) path []) s K); auto].
      - destruct Sp as [A B]. split; auto. intros i Hi. symmetry. apply B. lia.
      - apply (consecutive_nth path _ _ []). exists k. auto. }
    assert (Lp : length p = dim).
    { destruct Sp as [A _]. rewrite A, at_time_length; unfold centre; rewrite !map_length; [apply HL, nth_In; fold n; lia|].
      rewrite !HL; auto; apply nth_In; fold n; lia. }
    assert (I : In (floor_cube p) path) by (now apply free_iff in F as [I _]).
    destruct (distance_to_wall_spec dim path th p K Lp I) as (d & D & A & _).
    exists p, d. split; auto. split; auto. apply A. apply free_iff. split; auto.
    apply free_iff in F as [_ F]. eapply margin_ext; [|exact F]. ring.
  - destruct (C 0 0%nat 0) as (p & Ep & Sp); try lra; [lia| |].
    { change (inject_Z (Z.of_nat 0)) with 0. ring. }
    exists p. split; auto. destruct Sp as [A B].
    assert (L0 : length (centre (nth 0 path [])) = dim) by (unfold centre; rewrite map_length; apply HL, nth_In; fold n; lia).
    assert (L1 : length (centre (nth 1 path [])) = dim) by (unfold centre; rewrite map_length; apply HL, nth_In; fold n; lia).
    rewrite at_time_length in A by congruence.
    split; [unfold start_point; rewrite repeat_length; congruence|]. intros i Hi. rewrite B by auto.
    rewrite at_time_nth by lia. unfold start_point. rewrite nth_repeat_lt by lia.
    assert (Z0 : nth 0 path [] = repeat 0%Z dim).
    { unfold path. destruct (linear_first dim len ltac:(lia) Hl) as [m ->]. reflexivity. }
    rewrite Z0. rewrite (center_nth (repeat 0%Z dim)) by (rewrite repeat_length; lia). rewrite nth_repeat_lt by lia.
    change (inject_Z 0) with 0. ring.
  - destruct (C 1 (n - 2)%nat 1) as (p & Ep & Sp); try lra; [lia| |].
    { rewrite Nat2Z.inj_sub by auto. unfold Z.sub. rewrite inject_Z_plus. change (inject_Z (- Z.of_nat 2)) with (-(2)). ring. }
    exists p. split; auto. destruct Sp as [A B]. replace (S (n - 2)) with (n - 1)%nat in * by lia.
    assert (L0 : length (centre (nth (n - 2) path [])) = dim) by (unfold centre; rewrite map_length; apply HL, nth_In; fold n; lia).
    assert (L1 : length (centre (nth (n - 1) path [])) = dim) by (unfold centre; rewrite map_length; apply HL, nth_In; fold n; lia).
    rewrite at_time_length in A by congruence. unfold end_point. rewrite last_is_nth. fold n. unfold centre in L1.
    split; [unfold center; congruence|]. intros i Hi. rewrite B by auto. rewrite at_time_nth by (unfold centre in *; lia).
    change center with centre. ring.
  - unfold curve_arclength. ring.
Qed.

Example gray_curve_case : Nat.even 2 = true /\
  (exists p, curve_point 2 (linear_list 2 2) (1#2) = Ok p /\ Forall2 Qeq p [1; 3#2]).
Proof. split; [reflexivity|]. eexists. split; [vm_compute; reflexivity|]. repeat constructor. Qed.

(** In the plane with an odd length the corridor ends at the far side, and the last half
    unit of the curve leaves it: the curve jumps off by a whole unit. *)
Theorem gray_curve_refuted : exists dim len t th d p, (2 <= dim)%nat /\ (1 <= len)%nat /\ 0 <= t <= 1 /\ 0 <= th < 1#2 /\
  curve_point dim (linear_list dim len) t = Ok p /\
  distance_to_wall dim (linear_list dim len) th p = Ok d /\ ~ at_least ((1#2) - th) d.
Proof.
  eexists 2%nat, 1%nat, (3#4), (1#10), _, _. split; [lia|]. split; [lia|]. split; [lra|]. split; [lra|].
  split; [vm_compute; reflexivity|]. split; [vm_compute; reflexivity|]. unfold at_least. lra.
Qed.

(** ** The motion check *)

(** Within one cube the check is exact. *)
Theorem gray_motion_same_cube dim len th start goal c : (2 <= dim)%nat -> in_grid dim len c ->
  cube_of start c -> cube_of goal c ->
  let path := linear_list dim len in
  exists b, is_motion_valid dim path th start goal = Ok b /\
    (b = true <-> forall t, 0 <= t <= 1 -> corridor_free path th (at_time t start goal)).
Proof.
  intros Hd G Cs Cg path. apply linear_In in G; [|lia]. destruct (linear_corridor dim len ltac:(lia)) as (_ & HL & _).
  destruct Cs as [A A'], Cg as [B B']. specialize (HL c G).
  apply (same_cube_exact dim path th (linear_corridor dim len ltac:(lia)) start goal c); auto; try congruence; split; auto.
Qed.

Example gray_motion_same_cube_case : in_grid 2 2 [0; 1]%Z /\ cube_of [2#10; 12#10] [0; 1]%Z /\ cube_of [9#10; 15#10] [0; 1]%Z /\
  is_motion_valid 2 (linear_list 2 2) (1#10) [2#10; 12#10] [9#10; 15#10] = Ok true /\
  is_motion_valid 2 (linear_list 2 2) (1#10) [2#10; 12#10] [9#10; 195#100] = Ok false.
Proof.
  split; [|split; [|split; [|split; reflexivity]]].
  - apply linear_In; [lia|]. vm_compute. auto.
  - apply floor_cube_of. reflexivity.
  - apply floor_cube_of. reflexivity.
Qed.

(** Into the next or previous cube along a positive axis direction the check is exact. *)
Theorem gray_motion_up dim len th start goal a b k : (2 <= dim)%nat ->
  let path := linear_list dim len in
  consecutive path a b \/ consecutive path b a -> nth k b 0%Z = (nth k a 0 + 1)%Z ->
  cube_of start a -> cube_of goal b ->
  exists r, is_motion_valid dim path th start goal = Ok r /\
    (r = true <-> forall t, 0 <= t <= 1 -> corridor_free path th (at_time t start goal)).
Proof.
  intros Hd path AB Up Cs Cg. assert (K : corridor dim path) by (apply linear_corridor; lia). pose proof K as (N & HL & HS).
  assert (Iab : In a path /\ In b path) by (destruct AB as [H|H]; apply consecutive_In in H; tauto). destruct Iab as [Ia Ib].
  assert (La := HL a Ia). assert (Lb := HL b Ib). assert (Cs' := Cs). assert (Cg' := Cg). destruct Cs' as [A _], Cg' as [B _].
  apply (up_exact dim path th K start goal a b); auto; try congruence.
  assert (St : one_step a b) by (destruct AB; [auto|now apply one_step_sym, HS]).
  destruct (axis_spec a b St) as (_ & _ & _ & E).
  destruct (Nat.eq_dec (where_nonzero (zsub b a)) k) as [->|Ne]; auto. rewrite (E k) in Up by auto. lia.
Qed.

Example gray_motion_up_case :
  consecutive (linear_list 2 2) [0; 0]%Z [0; 1]%Z /\ cube_of [2#10; 3#10] [0; 0]%Z /\ cube_of [8#10; 15#10] [0; 1]%Z /\
  is_motion_valid 2 (linear_list 2 2) (1#10) [2#10; 3#10] [8#10; 15#10] = Ok true /\
  cube_of [99#100; 15#10] [0; 1]%Z /\
  is_motion_valid 2 (linear_list 2 2) (1#10) [88#100; 3#10] [99#100; 15#10] = Ok false.
Proof.
  split; [exists [], [[1; 1]; [1; 0]]%Z; reflexivity|].
  split; [apply floor_cube_of; reflexivity|]. split; [apply floor_cube_of; reflexivity|].
  split; [reflexivity|]. split; [apply floor_cube_of; reflexivity|reflexivity].
Qed.

(** Along a negative axis direction only the part in the first cube and the goal are
    checked. *)
Theorem gray_motion_down_partial dim len th start goal a b k : (2 <= dim)%nat ->
  let path := linear_list dim len in
  consecutive path a b \/ consecutive path b a -> nth k b 0%Z = (nth k a 0 - 1)%Z ->
  cube_of start a -> cube_of goal b ->
  is_motion_valid dim path th start goal = Ok true ->
  (forall t, 0 <= t <= 1 -> cube_of (at_time t start goal) a -> corridor_free path th (at_time t start goal)) /\
  corridor_free path th goal.
Proof.
  intros Hd path AB Down Cs Cg. assert (K : corridor dim path) by (apply linear_corridor; lia). pose proof K as (N & HL & HS).
  assert (Iab : In a path /\ In b path) by (destruct AB as [H|H]; apply consecutive_In in H; tauto). destruct Iab as [Ia Ib].
  assert (La := HL a Ia). assert (Lb := HL b Ib). assert (Cs' := Cs). assert (Cg' := Cg). destruct Cs' as [A _], Cg' as [B _].
  apply (down_sound dim path th K start goal a b); auto; try congruence.
  assert (St : one_step a b) by (destruct AB; [auto|now apply one_step_sym, HS]).
  destruct (axis_spec a b St) as (_ & _ & _ & E).
  destruct (Nat.eq_dec (where_nonzero (zsub b a)) k) as [->|Ne]; auto. rewrite (E k) in Down by auto. lia.
Qed.

Example gray_motion_down_case :
  consecutive (linear_list 2 2) [0; 0]%Z [0; 1]%Z /\ cube_of [8#10; 15#10] [0; 1]%Z /\ cube_of [2#10; 3#10] [0; 0]%Z /\
  is_motion_valid 2 (linear_list 2 2) (1#10) [8#10; 15#10] [2#10; 3#10] = Ok true.
Proof.
  split; [exists [], [[1; 1]; [1; 0]]%Z; reflexivity|].
  split; [apply floor_cube_of; reflexivity|]. split; [apply floor_cube_of; reflexivity|reflexivity].
Qed.

(** An accepted motion between neighbouring cubes can cross a wall: its part after the
    shared face is not checked when the cubes are crossed in a negative direction. *)
Theorem gray_motion_sound_refuted : exists dim len th start goal t, (2 <= dim)%nat /\ 0 <= th < 1#2 /\ 0 <= t <= 1 /\
  consecutive (linear_list dim len) (floor_cube goal) (floor_cube start) /\
  is_motion_valid dim (linear_list dim len) th start goal = Ok true /\
  ~ corridor_free (linear_list dim len) th (at_time t start goal).
Proof.
  exists 2%nat, 2%nat, (1#10), [95#100; 105#100], [1#2; 1#2], (1#10).
  split; [lia|]. split; [lra|]. split; [lra|]. split; [exists [], [[1; 1]; [1; 0]]%Z; reflexivity|].
  split; [reflexivity|].
  set (x := at_time _ _ _). intro F.
  destruct (distance_to_wall_spec 2 (linear_list 2 2) (1#10) x) as (d & D & _ & O).
  - apply linear_corridor. lia.
  - reflexivity.
  - apply has_cube_iff. reflexivity.
  - apply O in F. vm_compute in D. injection D as <-. discriminate F.
Qed.

(** A motion over several cubes can be accepted straight through a wall: the opening is
    computed from the goal's cube instead of the next one (envs.py 676). *)
Theorem gray_motion_several_cubes_refuted : exists dim len th start goal t, (2 <= dim)%nat /\ 0 <= th < 1#2 /\ 0 <= t <= 1 /\
  corridor_free (linear_list dim len) th start /\ corridor_free (linear_list dim len) th goal /\
  is_motion_valid dim (linear_list dim len) th start goal = Ok true /\
  ~ corridor_free (linear_list dim len) th (at_time t start goal).
Proof.
  assert (W : forall x b, length x = 2%nat -> has_cube (linear_list 2 2) (floor_cube x) = true ->
     match distance_to_wall 2 (linear_list 2 2) (1#10) x with Ok d => negb (oneg d) | _ => false end = b ->
     if b then corridor_free (linear_list 2 2) (1#10) x else ~ corridor_free (linear_list 2 2) (1#10) x).
  { intros x b L I E. destruct (distance_to_wall_spec 2 (linear_list 2 2) (1#10) x) as (d & D & _ & O); auto.
    - apply linear_corridor. lia.
    - now apply has_cube_iff.
    - rewrite D in E. subst b. destruct (oneg d); simpl; [|now apply O]. intro F. apply O in F. discriminate. }
  exists 2%nat, 2%nat, (1#10), [85#100; 49#100], [115#100; 90#100], (1#2).
  split; [lia|]. split; [lra|]. split; [lra|].
  split; [apply (W _ true); reflexivity|]. split; [apply (W _ true); reflexivity|].
  split; [reflexivity|]. apply (W _ false); reflexivity.
Qed.

(** The check depends on the direction in which the motion is traversed. *)
Theorem gray_motion_symmetric_refuted : exists dim len th start goal, (2 <= dim)%nat /\ 0 <= th < 1#2 /\
  is_motion_valid dim (linear_list dim len) th start goal = Ok true /\
  is_motion_valid dim (linear_list dim len) th goal start = Ok false.
Proof.
  exists 2%nat, 2%nat, (1#10), [95#100; 105#100], [1#2; 1#2]. split; [lia|]. split; [lra|]. split; reflexivity.
Qed.

(** A collision-free motion that starts exactly on the shared face is rejected. *)
Theorem gray_motion_complete_refuted : exists dim len th start goal, (2 <= dim)%nat /\ 0 <= th < 1#2 /\
  is_motion_valid dim (linear_list dim len) th start goal = Ok false /\
  forall t, 0 <= t <= 1 -> corridor_free (linear_list dim len) th (at_time t start goal).
Proof.
  exists 2%nat, 2%nat, (1#10), [1#2; 1], [1#2; 1#2]. split; [lia|]. split; [lra|]. split; [reflexivity|].
  intros t Ht. destruct (between_centres_free 2 (linear_list 2 2) [0; 0]%Z [0; 1]%Z ((1#2) - (1#2) * t)) as (c & I & C & M); [apply linear_corridor; lia| |lra|].
  - exists [], [[1; 1]; [1; 0]]%Z. reflexivity.
  - apply (corridor_free_same _ _ (at_time ((1#2) - (1#2) * t) (centre [0; 0]%Z) (centre [0; 1]%Z))).
    + split; [reflexivity|]. intros i Hi. simpl in Hi. destruct i as [|[|i]]; [| |lia]; simpl; unfold inject_Z; lra.
    + exists c. split; auto. split; auto. intros i Hi. destruct (M i Hi) as [A B]. split; intro X; [apply A|apply B]; lra.
Qed.

(** With both ends in the corridor the loop always finishes: it returns a verdict, or the
    graph lookup of the last opening fails. *)
Theorem gray_motion_finishes dim len th start goal : (2 <= dim)%nat -> length start = dim -> length goal = dim ->
  (exists c, in_grid dim len c /\ cube_of start c) -> (exists c, in_grid dim len c /\ cube_of goal c) ->
  let r := is_motion_valid dim (linear_list dim len) th start goal in
  (exists b, r = Ok b) \/ r = Err NotInGraph.
Proof.
  intros Hd Ls Lg (c & G & C) (c' & G' & C') r.
  apply floor_cube_of in C, C'. apply linear_In in G, G'; try lia.
  apply valid_outcome; auto; try congruence. apply linear_corridor. lia.
Qed.

Example gray_motion_finishes_case :
  is_motion_valid 3 (linear_list 3 2) (1#10) (start_point 3) (end_point (linear_list 3 2)) = Ok false.
Proof. reflexivity. Qed.

(** The lookup does fail for some motions between corridor cubes. *)
Theorem gray_motion_answers_refuted : exists dim len th start goal, (2 <= dim)%nat /\ 0 <= th < 1#2 /\
  corridor_free (linear_list dim len) th start /\ In (floor_cube goal) (linear_list dim len) /\
  is_motion_valid dim (linear_list dim len) th start goal = Err NotInGraph.
Proof.
  exists 2%nat, 2%nat, (1#10), [1#8; 1#8], [1; 5#8]. split; [lia|]. split; [lra|]. split; [|split; [vm_compute; auto|reflexivity]].
  destruct (distance_to_wall_spec 2 (linear_list 2 2) (1#10) [1#8; 1#8]) as (d & D & _ & O).
  - apply linear_corridor. lia.
  - reflexivity.
  - apply has_cube_iff. reflexivity.
  - apply O. vm_compute in D. injection D as <-. reflexivity.
Qed.

Lemma ends_clear_goal dim path th p q : corridor dim path -> length q = dim -> ends_clear dim path th p q = Ok true ->
  corridor_free path th q.
Proof.
  intros K Lq. unfold ends_clear. destruct (distance_to_wall dim path th p) as [d|]; [|discriminate]. destruct (oneg d); [discriminate|].
  destruct (in_dec (list_eq_dec Z.eq_dec) (floor_cube q) path) as [I|I].
  - destruct (distance_to_wall_spec dim path th q K Lq I) as (d' & -> & _ & O). intro H. injection H as H.
    apply O. now apply negb_true_iff.
  - rewrite (distance_to_wall_err dim path th q) by auto. discriminate.
Qed.
Lemma loop_goal dim path th fuel fw gc goal : corridor dim path -> length goal = dim ->
  forall sc start, motion_loop dim path th fuel fw gc goal sc start = Ok true -> corridor_free path th goal.
Proof.
  intros K Lg. induction fuel as [|fuel IH]; intros sc start; simpl;
    (destruct (cube_eqb sc gc); [intro H; eapply ends_clear_goal; eauto|]); [discriminate|].
  destruct (next_cube path fw sc); [|discriminate].
  destruct (distance_in_cube path th sc start) as [d|]; [|discriminate].
  match goal with |- context [Qeq_bool ?e 0] => destruct (Qeq_bool e 0) end.
  - match goal with |- context [Qle_bool ?e 0] => destruct (Qle_bool e 0) end; [discriminate|].
    destruct (oneg d); [discriminate|]. destruct (cube_eqb _ gc); [discriminate|].
    destruct (next_cube path fw _); discriminate.
  - match goal with |- context [Qle_bool ?e 0] => destruct (Qle_bool e 0) end; [discriminate|].
    destruct (oneg d); [discriminate|]. destruct (distance_in_cube path th sc _) as [d'|]; [|discriminate].
    destruct (oneg d'); [discriminate|]. apply IH.
Qed.

(** Both ends of an accepted motion are free, however many cubes it spans. *)
Theorem gray_motion_ends_free dim len th start goal : (2 <= dim)%nat -> length start = dim -> length goal = dim ->
  is_motion_valid dim (linear_list dim len) th start goal = Ok true ->
  corridor_free (linear_list dim len) th start /\ corridor_free (linear_list dim len) th goal.
Proof.
  intros Hd Ls Lg V. set (path := linear_list dim len) in *. assert (K : corridor dim path) by (apply linear_corridor; lia).
  unfold is_motion_valid in V. destruct (has_cube path (floor_cube start)) eqn:I; [|discriminate]. apply has_cube_iff in I.
  split; [|eapply loop_goal; eauto]. apply free_iff. split; auto.
  assert (LP : exists f, length path = S f) by (destruct path; [destruct I|simpl; eauto]). destruct LP as [f LP]. rewrite LP in V.
  cbn [motion_loop] in V. destruct (distance_in_cube_ok dim path th (floor_cube start) start K I Ls) as (d & D & M).
  apply M. destruct (cube_eqb (floor_cube start) (floor_cube goal)).
  - unfold ends_clear, distance_to_wall in V. rewrite Ls, Nat.eqb_refl, D in V. destruct (oneg d); [discriminate|reflexivity].
  - destruct (next_cube path _ (floor_cube start)); [|discriminate]. rewrite D in V.
    destruct (oneg d); [|reflexivity]. exfalso.
    repeat match type of V with context [if ?e then _ else _] => destruct e end; discriminate.
Qed.

Example gray_motion_ends_case :
  is_motion_valid 3 (linear_list 3 2) (1#10) (start_point 3) (centre [0; 0; 1]%Z) = Ok true.
Proof. reflexivity. Qed.

Print Assumptions gray_corridor.
Print Assumptions gray_wall_distance_exact.
Print Assumptions gray_samples.
Print Assumptions gray_probabilities.
Print Assumptions gray_curve.
Print Assumptions gray_curve_refuted.
Print Assumptions gray_motion_same_cube.
Print Assumptions gray_motion_up.
Print Assumptions gray_motion_down_partial.
Print Assumptions gray_motion_sound_refuted.
Print Assumptions gray_motion_several_cubes_refuted.
Print Assumptions gray_motion_symmetric_refuted.
Print Assumptions gray_motion_complete_refuted.
Print Assumptions gray_motion_finishes.
Print Assumptions gray_motion_answers_refuted.
Print Assumptions gray_motion_ends_free.
