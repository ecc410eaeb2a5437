(** Properties of the experiment trials (Trial_Model) *)

From Coq Require Import List Bool ZArith QArith Lia.
From Verif Require Import Trial_Model Sched_Model Sched_Props.
Import ListNotations.
Local Open Scope Z_scope.

(** * C64: the critical-connection search of the narrow-passage trial *)

Section SearchProofs.
Variable kind : prm_kind.
Variable size : Z.
Variable query : setting -> option found.

(** What is queried to establish the upper end: the entry itself, or
    max_connections for the last entry. *)
Definition upper_setting (ub : Z) : setting := if ub =? size - 1 then MaxConn else At ub.

(** What the record may claim: an adjacent pair whose lower end failed (or is
    the first entry) and whose upper end worked, with the distance and length of
    that working path; or that max_connections failed. *)
Definition sound_outcome (o : outcome) : Prop :=
  (exists lb d, o_lb o = Some lb /\ o_ub o = Some (lb + 1) /\ o_thresh o = Some d /\ o_info o = NoInfo /\
     0 <= lb /\ lb + 1 <= size - 1 /\
     (lb = 0 \/ query (At lb) = None /\ In (At lb) (o_asked o)) /\
     query (upper_setting (lb + 1)) = Some d /\ In (upper_setting (lb + 1)) (o_asked o)) \/
  (o_lb o = Some (size - 1) /\ o_ub o = None /\ o_thresh o = None /\ o_info o = NoPaths /\
     query MaxConn = None /\ In MaxConn (o_asked o) /\
     (size = 2 \/ query (At (size - 2)) = None /\ In (At (size - 2)) (o_asked o))).

Lemma conn_search_sound : forall fuel lb ub thresh asked o,
  0 <= lb -> lb < ub -> ub <= size - 1 ->
  (lb = 0 \/ query (At lb) = None /\ In (At lb) asked) ->
  (ub = size - 1 /\ thresh = None \/
   ub < size - 1 /\ exists d, thresh = Some d /\ query (At ub) = Some d /\ In (At ub) asked) ->
  conn_search kind size query fuel lb ub thresh asked = Some o -> sound_outcome o.
Proof.
  induction fuel as [|fuel IH]; intros lb ub thresh asked o H0 Hlt Hub Hlb Hup E; [discriminate|].
  cbn [conn_search] in E.
  destruct (lb + 1 =? ub) eqn:E1.
  - apply Z.eqb_eq in E1. subst ub. destruct (size - 1 <=? lb + 1) eqn:E2.
    + apply Z.leb_le in E2. destruct Hup as [[U1 U2]|[U1 _]]; [|lia].
      assert (US : upper_setting (lb + 1) = MaxConn) by (unfold upper_setting; rewrite U1, Z.eqb_refl; auto).
      destruct (query MaxConn) as [d|] eqn:Q; injection E as <-.
      * left. exists lb, d. simpl. rewrite US.
        repeat split; auto; try lia.
        -- destruct Hlb as [?|[? ?]]; auto. right. split; auto. apply in_or_app; auto.
        -- apply in_or_app; simpl; auto.
      * right. simpl. subst thresh. repeat split; auto.
        -- apply in_or_app; simpl; auto.
        -- destruct Hlb as [?|[? ?]]; [left; lia|]. right.
           replace (size - 2) with lb by lia. split; auto. apply in_or_app; auto.
    + apply Z.leb_gt in E2. destruct Hup as [[U1 U2]|[U1 [d [-> [Q I]]]]]; [lia|].
      injection E as <-. left. exists lb, d. simpl.
      assert (US : upper_setting (lb + 1) = At (lb + 1)).
      { unfold upper_setting. destruct (lb + 1 =? size - 1) eqn:E3; auto. apply Z.eqb_eq in E3; lia. }
      rewrite US. repeat split; auto; lia.
  - apply Z.eqb_neq in E1. destruct (ub <=? lb) eqn:E2; [apply Z.leb_le in E2; lia|].
    set (test := (lb + ub) / 2) in *.
    assert (Ht : lb < test < ub).
    { unfold test. split; [apply Z.lt_le_trans with (lb + 1); [lia|]; apply Z.div_le_lower_bound; lia
                          | apply Z.div_lt_upper_bound; lia]. }
    destruct (query (At test)) as [d|] eqn:Q.
    + apply IH in E; auto; try lia.
      * destruct Hlb as [?|[? ?]]; auto. right. split; auto. apply in_or_app; auto.
      * right. split; [lia|]. exists d. repeat split; auto. apply in_or_app; simpl; auto.
    + apply IH in E; auto; try lia.
      * right. split; auto. apply in_or_app; simpl; auto.
      * destruct Hup as [?|[U1 [d [-> [Q' I]]]]]; auto. right. split; auto.
        exists d. repeat split; auto. apply in_or_app; auto.
Qed.

Lemma conn_search_ends : forall fuel lb ub thresh asked, (Z.to_nat (ub - lb) < fuel)%nat ->
  conn_search kind size query fuel lb ub thresh asked <> None.
Proof.
  induction fuel as [|fuel IH]; intros lb ub thresh asked Hf; [lia|].
  cbn [conn_search]. destruct (lb + 1 =? ub) eqn:E1.
  - destruct (size - 1 <=? ub); [destruct (query MaxConn)|]; discriminate.
  - destruct (ub <=? lb) eqn:E2.
    + destruct kind; [destruct (lb =? ub); [destruct (query _)|]|]; discriminate.
    + apply Z.eqb_neq in E1. apply Z.leb_gt in E2.
      assert (Ht : lb < (lb + ub) / 2 < ub).
      { split; [apply Z.lt_le_trans with (lb + 1); [lia|]; apply Z.div_le_lower_bound; lia
               | apply Z.div_lt_upper_bound; lia]. }
      destruct (query _); apply IH; lia.
Qed.

(** At most log2 queries, and one more at the end *)
Lemma conn_search_count : forall fuel lb ub thresh asked o, lb < ub ->
  conn_search kind size query fuel lb ub thresh asked = Some o ->
  Z.of_nat (length (o_asked o)) <= Z.of_nat (length asked) + Z.log2_up (ub - lb) + 1.
Proof.
  induction fuel as [|fuel IH]; intros lb ub thresh asked o Hlt E; [discriminate|].
  cbn [conn_search] in E. assert (HL := Z.log2_up_nonneg (ub - lb)).
  destruct (lb + 1 =? ub) eqn:E1.
  - destruct (size - 1 <=? ub); [destruct (query MaxConn)|]; injection E as <-; simpl;
      rewrite ?app_length; simpl length; lia.
  - apply Z.eqb_neq in E1. destruct (ub <=? lb) eqn:E2; [apply Z.leb_le in E2; lia|].
    set (test := (lb + ub) / 2) in *.
    assert (Ht : lb < test < ub).
    { unfold test. split; [apply Z.lt_le_trans with (lb + 1); [lia|]; apply Z.div_le_lower_bound; lia
                          | apply Z.div_lt_upper_bound; lia]. }
    assert (Hdiv : 2 * test <= lb + ub <= 2 * test + 1).
    { unfold test. assert (D := Z.div_mod (lb + ub) 2 ltac:(lia)).
      assert (M := Z.mod_pos_bound (lb + ub) 2 ltac:(lia)). lia. }
    assert (Hhalf : forall w, 0 < w -> 2 * w <= ub - lb + 1 -> Z.log2_up w + 1 <= Z.log2_up (ub - lb)).
    { intros w Hw Hle. set (k := Z.log2_up (ub - lb)).
      assert (Hk : ub - lb <= 2 ^ k) by (apply Z.log2_up_le_pow2; [lia|reflexivity]).
      assert (Hk1 : 1 <= k).
      { unfold k. destruct (Z_lt_le_dec (Z.log2_up (ub - lb)) 1) as [L|]; auto.
        assert (A : Z.log2_up (ub - lb) <= 0) by lia.
        apply (proj2 (Z.log2_up_le_pow2 (ub - lb) 0 ltac:(lia))) in A. simpl in A. lia. }
      enough (Z.log2_up w <= k - 1) by lia.
      apply Z.log2_up_le_pow2; auto.
      assert (P : 2 ^ k = 2 * 2 ^ (k - 1)) by (rewrite <- Z.pow_succ_r by lia; f_equal; lia).
      lia. }
    destruct (query (At test)) as [d|] eqn:Q; apply IH in E; try lia;
      rewrite app_length in E; simpl length in E.
    + specialize (Hhalf (test - lb)). lia.
    + specialize (Hhalf (ub - test)). lia.
Qed.

End SearchProofs.

Theorem narrow_search_sound : forall kind size query, 2 <= size ->
  exists o, narrow_search kind size query = Some o /\ sound_outcome size query o /\
    Z.of_nat (length (o_asked o)) <= Z.log2_up size + 1.
Proof.
  intros kind size query Hs. unfold narrow_search.
  destruct (conn_search kind size query (S (Z.to_nat size)) 0 (size - 1) None []) as [o|] eqn:E.
  - exists o. split; auto. split.
    + eapply conn_search_sound; [| | | | |exact E]; auto; try lia.
    + apply conn_search_count in E; [|lia]. simpl in E.
      assert (Z.log2_up (size - 1 - 0) <= Z.log2_up size) by (apply Z.log2_up_le_mono; lia). lia.
  - exfalso. apply conn_search_ends in E; auto. lia.
Qed.
Print Assumptions narrow_search_sound.

(** With one entry, a radius roadmap is queried with it; a knn roadmap is not
    queried and flagged. *)
Theorem narrow_search_one : forall query,
  narrow_search RadiusPrm 1 query =
    Some match query (At 0) with
         | None => {| o_lb := Some 0; o_ub := None; o_thresh := None; o_info := OneNoPath; o_asked := [At 0] |}
         | Some d => {| o_lb := None; o_ub := Some 0; o_thresh := Some d; o_info := OnePath; o_asked := [At 0] |}
         end /\
  narrow_search KnnPrm 1 query =
    Some {| o_lb := Some 0; o_ub := Some 0; o_thresh := None; o_info := WentWrong; o_asked := [] |}.
Proof. intro query. split; cbn; destruct (query (At 0)); reflexivity. Qed.
Print Assumptions narrow_search_one.

(** Where more connections never hurt, the reported pair is the critical one:
    every entry from the second up to the lower end fails, every entry from the
    upper end on works. *)
Definition more_helps (size : Z) (query : setting -> option found) : Prop :=
  (forall i j, 0 <= i <= j -> j < size -> query (At i) <> None -> query (At j) <> None) /\
  (query (At (size - 1)) <> None <-> query MaxConn <> None).

Theorem narrow_search_critical : forall kind size query, 2 <= size -> more_helps size query ->
  exists o, narrow_search kind size query = Some o /\
  match o_ub o with
  | Some ub => exists lb, o_lb o = Some lb /\ lb + 1 = ub /\
      (forall i, 1 <= i <= lb -> query (At i) = None) /\
      (forall i, ub <= i < size -> query (At i) <> None)
  | None => forall i, 0 <= i < size -> query (At i) = None
  end.
Proof.
  intros kind size query Hs [Hm HM].
  destruct (narrow_search_sound kind size query Hs) as [o [E [S _]]].
  exists o. split; auto.
  destruct S as [[lb [d [E1 [E2 [_ [_ [H0 [H1 [HL [HU _]]]]]]]]]]|[E1 [E2 [_ [_ [HQ _]]]]]]; rewrite E2.
  - exists lb. repeat split; auto.
    + intros i Hi. destruct HL as [?|[HL _]]; [lia|].
      destruct (query (At i)) eqn:Q; auto. exfalso.
      apply (Hm i lb); auto; try lia. congruence.
    + intros i Hi. apply (Hm (lb + 1) i); try lia.
      unfold upper_setting in HU. destruct (lb + 1 =? size - 1) eqn:E3; [|congruence].
      apply Z.eqb_eq in E3. rewrite E3. apply HM. congruence.
  - intros i Hi. destruct (query (At i)) eqn:Q; auto. exfalso.
    assert (query (At (size - 1)) <> None) by (apply (Hm i (size - 1)); try lia; congruence).
    apply HM in H. contradiction.
Qed.
Print Assumptions narrow_search_critical.

(** A roadmap that works from entry 5 of 9 on *)
Definition works_from (k : Z) (size : Z) (s : setting) : option found :=
  match s with
  | At i => if k <=? i then Some (1%Q, i + 2) else None
  | MaxConn => if k <=? size - 1 then Some (1%Q, size + 1) else None
  end.

Example works_from_helps : more_helps 9 (works_from 5 9).
Proof.
  split.
  - intros i j Hij Hj. unfold works_from. destruct (5 <=? i) eqn:E; [|congruence].
    apply Z.leb_le in E. destruct (5 <=? j) eqn:E'; [congruence|]. apply Z.leb_gt in E'. lia.
  - reflexivity.
Qed.

Example narrow_search_ex : narrow_search KnnPrm 9 (works_from 5 9) =
  Some {| o_lb := Some 4; o_ub := Some 5; o_thresh := Some (1%Q, 7); o_info := NoInfo;
          o_asked := [At 4; At 6; At 5] |}.
Proof. reflexivity. Qed.

(** The first entry is reported as failing although it works: it is never tried. *)
Theorem first_entry_fails_refuted : exists kind size query o,
  2 <= size /\ more_helps size query /\ narrow_search kind size query = Some o /\
  o_lb o = Some 0 /\ query (At 0) <> None.
Proof.
  exists RadiusPrm, 9, (works_from 0 9). eexists. split; [lia|]. split; [|split; [reflexivity|split; [reflexivity|discriminate]]].
  split; [|reflexivity].
  intros i j Hij Hj _. unfold works_from.
  destruct (0 <=? j) eqn:E; [discriminate|]. apply Z.leb_gt in E. lia.
Qed.
Print Assumptions first_entry_fails_refuted.

(** * C88: the rows of a trial *)

Lemma py_index_in : forall A (l : list A) i, 0 <= i < Z.of_nat (length l) ->
  exists x, py_index l i = Some x /\ nth_error l (Z.to_nat i) = Some x.
Proof.
  intros A l i Hi. unfold py_index.
  rewrite (proj2 (Z.leb_le 0 i)), (proj2 (Z.ltb_lt i _)) by lia. simpl.
  destruct (nth_error l (Z.to_nat i)) as [x|] eqn:E; eauto.
  apply nth_error_None in E. lia.
Qed.

(** A connection cell names an entry of the list, or is nan. *)
Definition names_entry (conns : list Q) (i : option Z) (c : cell) : Prop :=
  match i with
  | None => c = CNan
  | Some j => 0 <= j /\ exists q, nth_error conns (Z.to_nat j) = Some q /\ c = CConn q
  end.

Lemma conn_cell_in : forall conns i,
  (forall j, i = Some j -> 0 <= j < Z.of_nat (length conns)) ->
  exists c, conn_cell conns i = Some c /\ names_entry conns i c.
Proof.
  intros conns [j|] H; simpl.
  - specialize (H j eq_refl). destruct (py_index_in _ conns j H) as [x [E1 E2]]. rewrite E1.
    eexists. split; eauto. split; [lia|eauto].
  - eexists; eauto.
Qed.

Lemma search_indices : forall kind size query, 1 <= size ->
  exists o, narrow_search kind size query = Some o /\
  (forall j, o_lb o = Some j -> 0 <= j < size) /\ (forall j, o_ub o = Some j -> 0 <= j < size).
Proof.
  intros kind size query Hs. destruct (Z.eq_dec size 1) as [->|Hn].
  - destruct (narrow_search_one query) as [H1 H2]. destruct kind.
    + rewrite H1. eexists. split; [reflexivity|]. destruct (query (At 0)); simpl;
        split; intros j E; try discriminate; injection E as <-; lia.
    + rewrite H2. eexists. split; [reflexivity|]. simpl. split; intros j E; injection E as <-; lia.
  - destruct (narrow_search_sound kind size query ltac:(lia)) as [o [E [S _]]]. exists o. split; auto.
    destruct S as [[lb [d [E1 [E2 [_ [_ [H0 [H1 _]]]]]]]]|[E1 [E2 _]]]; rewrite E1, E2; split; intros j F;
      try discriminate; injection F as <-; lia.
Qed.

(** What the row for [n] samples holds, column by column *)
Definition good_row (kind : prm_kind) (dim : Z) (clear : Q) (seed : nat) (conns : list Q)
  (query : setting -> option found) (n : Z) (row : list cell) : Prop :=
  exists o failed succeed,
    narrow_search kind (Z.of_nat (length conns)) query = Some o /\
    names_entry conns (o_lb o) failed /\ names_entry conns (o_ub o) succeed /\
    combine columns row =
      [(ColKind, CKind kind); (ColDim, CDim dim); (ColClear, CClear clear); (ColSamples, CSamples n);
       (ColConnLb, failed); (ColConnUb, succeed);
       (ColDist, match o_thresh o with Some (d, _) => CDist d | None => CNan end);
       (ColLen, match o_thresh o with Some (_, l) => CLen l | None => CNan end);
       (ColBuild, CTime); (ColCheck, CTime); (ColInfo, CInfo (o_info o)); (ColSeed, CSeed seed)].

Lemma narrow_record_full : forall kind dim clear seed conns query n, conns n <> [] ->
  exists row, narrow_record kind dim clear seed conns query n = Some row /\ length row = 12%nat /\
    good_row kind dim clear seed (conns n) (query n) n row.
Proof.
  intros kind dim clear seed conns query n Hne. unfold narrow_record.
  assert (Hl : 1 <= Z.of_nat (length (conns n))) by (destruct (conns n); [congruence|simpl length; lia]).
  destruct (search_indices kind _ (query n) Hl) as [o [E [HL HU]]].
  destruct (conn_cell_in (conns n) (o_lb o) HL) as [f [F1 F2]].
  destruct (conn_cell_in (conns n) (o_ub o) HU) as [s [S1 S2]].
  exists (full_record kind dim clear n seed f s o). split; [|split; [reflexivity|]].
  - destruct (conns n) as [|c cs] eqn:C; [congruence|].
    destruct kind; rewrite E, F1, S1; reflexivity.
  - exists o, f, s. repeat split; auto.
Qed.

Lemma all_some_map : forall A B (f : A -> option B) (P : A -> B -> Prop) l,
  (forall a, In a l -> exists b, f a = Some b /\ P a b) ->
  exists bs, all_some (map f l) = Some bs /\ Forall2 P l bs.
Proof.
  intros A B f P. induction l as [|a l IH]; intro H; simpl; [eauto|].
  destruct (H a (or_introl eq_refl)) as [b [E HP]]. rewrite E.
  destruct IH as [bs [E2 HF]]; [intros; apply H; simpl; auto|]. rewrite E2. eauto.
Qed.

(** If every sample count gives a roadmap with connections, a trial returns one
    row per sample count, with each value in its column. *)
Theorem narrow_trial_rows : forall kind dim clear seed conns query schedule,
  (forall n, In n schedule -> conns n <> []) ->
  exists rows, narrow_trial kind dim clear seed conns query schedule = Some rows /\
  Forall2 (fun n row => length row = 12%nat /\ good_row kind dim clear seed (conns n) (query n) n row) schedule rows.
Proof.
  intros kind dim clear seed conns query schedule H. unfold narrow_trial.
  destruct (all_some_map _ _ (narrow_record kind dim clear seed conns query)
    (fun n row => length row = 12%nat /\ good_row kind dim clear seed (conns n) (query n) n row) schedule)
    as [rows [E HF]].
  { intros n Hn. apply narrow_record_full; auto. }
  exists rows. rewrite E. split; auto. unfold data_frame.
  destruct rows as [|r0 rows]; auto.
  assert (L : forall r, In r (r0 :: rows) -> length r = 12%nat).
  { clear - HF. induction HF; simpl; [contradiction|]. intros r [<-|Hr]; [tauto|auto]. }
  assert (M : list_max (map (@length cell) (r0 :: rows)) = 12%nat).
  { clear - L. revert r0 L. induction rows as [|r' l IHl]; intros r L.
    - simpl. rewrite L; simpl; auto.
    - change (list_max (map (@length cell) (r :: r' :: l))) with
        (Nat.max (length r) (list_max (map (@length cell) (r' :: l)))).
      rewrite IHl, L; simpl; auto. intros; apply L; simpl; auto. }
  rewrite M. simpl Nat.eqb. cbv iota. f_equal.
  rewrite <- map_id. apply map_ext_in. intros r Hr. unfold pad. rewrite (L r Hr). simpl. apply app_nil_r.
Qed.
Print Assumptions narrow_trial_rows.

(** So such a trial marks its rows with its seed, as Sched_Props assumes. *)
Theorem narrow_trial_marks_seed : forall kind dim clear conns query schedule,
  schedule <> [] -> (forall n, In n schedule -> conns n <> []) ->
  marks_seed (fun (_ : unit) s => match narrow_trial kind dim clear s conns query schedule with
                                  | Some rows => map seed_of rows | None => [] end) tt.
Proof.
  intros kind dim clear conns query schedule Hne H s.
  destruct (narrow_trial_rows kind dim clear s conns query schedule H) as [rows [E HF]]. rewrite E. split.
  - destruct HF; simpl; congruence.
  - intros x Hx. apply in_map_iff in Hx. destruct Hx as [row [<- Hr]].
    clear - HF Hr. induction HF as [|n r sch rows [HL HG] HF IH]; [contradiction|].
    destruct Hr as [->|Hr]; auto. clear IH.
    destruct HG as [o [f [sc [_ [_ [_ G]]]]]].
    do 12 (destruct row as [|? row]; [discriminate|]). cbn in G.
    injection G. intros. subst. reflexivity.
Qed.
Print Assumptions narrow_trial_marks_seed.

(** A radius roadmap without connections leaves a ten-field record: its seed and
    info are missing or in the wrong column... *)
Theorem short_row_refuted : exists dim clear seed conns query schedule rows row,
  narrow_trial RadiusPrm dim clear seed conns query schedule = Some rows /\ In row rows /\
  seed_of row = None /\
  nth 8 row CNan = CInfo NoConnections /\ nth 9 row CNan = CSeed seed.
Proof.
  exists 2, (1 # 4)%Q, 7%nat, (fun n => if n =? 10 then [] else [1 # 2]%Q), (fun _ _ => None), [10; 100].
  eexists. eexists. split; [reflexivity|]. split; [left; reflexivity|]. repeat split.
Qed.
Print Assumptions short_row_refuted.

(** ... and if no sample count gives a connection the trial raises, losing the
    whole task. *)
Theorem no_connections_raises : forall dim clear seed conns query schedule,
  schedule <> [] -> (forall n, In n schedule -> conns n = []) ->
  narrow_trial RadiusPrm dim clear seed conns query schedule = None.
Proof.
  intros dim clear seed conns query schedule Hne H. unfold narrow_trial.
  destruct (all_some_map _ _ (narrow_record RadiusPrm dim clear seed conns query)
    (fun n row => row = short_record RadiusPrm dim clear n seed) schedule) as [rows [E HF]].
  { intros n Hn. unfold narrow_record. rewrite H by auto. eauto. }
  rewrite E. destruct HF as [|n r schedule rows -> HF]; [congruence|].
  unfold data_frame.
  assert (M : (list_max (map (@length cell) (short_record RadiusPrm dim clear n seed :: rows)) = 10)%nat).
  { clear - HF. change (Nat.max 10 (list_max (map (@length cell) rows)) = 10)%nat.
    assert (list_max (map (@length cell) rows) <= 10)%nat; [|lia].
    apply list_max_le. apply Forall_forall. intros k Hk. apply in_map_iff in Hk. destruct Hk as [r [<- Hr]].
    clear - HF Hr. induction HF as [|a b l m E HF IH]; [contradiction|]. destruct Hr as [->|Hr]; auto.
    subst. simpl. lia. }
  rewrite M. reflexivity.
Qed.
Print Assumptions no_connections_raises.

Example narrow_trial_ex :
  option_map (map seed_of)
    (narrow_trial KnnPrm 3 (1 # 4) 7 (fun _ => knn_conns 8) (fun _ => works_from 3 7) [100; 1000]) =
  Some [Some 7; Some 7]%nat.
Proof. reflexivity. Qed.

(** The neighbour counts tried for knn_prm_max_neighbors = 254 *)
Example knn_conns_ex : knn_conns 8 = [4; 8; 16; 32; 64; 128; 256]%Q.
Proof. reflexivity. Qed.

(** * C89: the critical-radius search of the straight-line trial *)

Lemma rad_search_sound : forall check size fuel lb ub asked rlb rub wrong l,
  1 <= lb -> lb < ub -> ub <= size - 1 ->
  (lb = 1 \/ check lb = false) -> (ub = size - 1 \/ check ub = true) ->
  rad_search check fuel lb ub asked = Some (rlb, rub, wrong, l) ->
  wrong = false /\ rlb + 1 = rub /\ 1 <= rlb /\ rub <= size - 1 /\
  (rlb = 1 \/ check rlb = false) /\ (rub = size - 1 \/ check rub = true).
Proof.
  intros check size. induction fuel as [|fuel IH]; intros lb ub asked rlb rub wrong l H1 Hlt Hub Hl Hu E; [discriminate|].
  cbn [rad_search] in E. destruct (lb + 1 =? ub) eqn:E1.
  - apply Z.eqb_eq in E1. injection E as <- <- <- <-. repeat split; auto; lia.
  - apply Z.eqb_neq in E1. destruct (ub <=? lb) eqn:E2; [apply Z.leb_le in E2; lia|].
    assert (Ht : lb < (lb + ub) / 2 < ub).
    { split; [apply Z.lt_le_trans with (lb + 1); [lia|]; apply Z.div_le_lower_bound; lia
             | apply Z.div_lt_upper_bound; lia]. }
    destruct (check ((lb + ub) / 2)) eqn:C; apply IH in E; auto; lia.
Qed.

Lemma rad_search_ends : forall check fuel lb ub asked, (Z.to_nat (ub - lb) < fuel)%nat ->
  rad_search check fuel lb ub asked <> None.
Proof.
  intros check. induction fuel as [|fuel IH]; intros lb ub asked Hf; [lia|].
  cbn [rad_search]. destruct (lb + 1 =? ub) eqn:E1; [discriminate|].
  destruct (ub <=? lb) eqn:E2; [discriminate|].
  apply Z.eqb_neq in E1. apply Z.leb_gt in E2.
  assert (Ht : lb < (lb + ub) / 2 < ub).
  { split; [apply Z.lt_le_trans with (lb + 1); [lia|]; apply Z.div_le_lower_bound; lia
           | apply Z.div_lt_upper_bound; lia]. }
  destruct (check _); apply IH; lia.
Qed.

(** With at least three radii the trial reports two neighbouring entries, the
    smaller found incomplete or the second, the larger found complete or the
    last. *)
Theorem line_search_sound : forall check nn_rads, (3 <= length nn_rads)%nat ->
  exists i rlb rub asked, line_search check nn_rads = Some (rlb, rub, false, asked) /\
    (1 <= i)%nat /\ nth_error nn_rads i = Some rlb /\ nth_error nn_rads (S i) = Some rub /\
    (i = 1%nat \/ check (Z.of_nat i) = false) /\
    (S i = length nn_rads - 1 \/ check (Z.of_nat (S i)) = true)%nat.
Proof.
  intros check nn_rads H3. unfold line_search. set (size := Z.of_nat (length nn_rads)).
  assert (Hs : 3 <= size) by (unfold size; lia).
  destruct (rad_search check (S (Z.to_nat size)) 1 (size - 1) []) as [[[[lb ub] wrong] asked]|] eqn:E;
    [|apply rad_search_ends in E; [contradiction|lia]].
  apply (rad_search_sound check size) in E; auto; try lia.
  destruct E as [-> [HA [HB [HC [HD HE]]]]].
  destruct (py_index_in _ nn_rads lb) as [a [A1 A2]]; [fold size; lia|].
  destruct (py_index_in _ nn_rads ub) as [b [B1 B2]]; [fold size; lia|].
  exists (Z.to_nat lb), a, b, asked. rewrite A1, B1. subst ub.
  assert (ES : S (Z.to_nat lb) = Z.to_nat (lb + 1)) by lia.
  rewrite ES, !Z2Nat.id by lia. repeat split; auto; try lia.
  - destruct HD as [->|?]; auto.
  - destruct HE as [HE|?]; auto. left. unfold size in HE. lia.
Qed.
Print Assumptions line_search_sound.

(** With fewer radii it raises IndexError. *)
Theorem line_search_raises : forall check nn_rads, (length nn_rads <= 1)%nat ->
  line_search check nn_rads = None.
Proof. intros check [|a [|b l]] H; simpl in H; try lia; reflexivity. Qed.
Print Assumptions line_search_raises.

(** With two radii nothing is checked: the second one is reported twice and the row says that
    something went wrong. *)
Theorem line_search_two : forall check r0 r1, line_search check [r0; r1] = Some (r1, r1, true, []).
Proof. reflexivity. Qed.
Print Assumptions line_search_two.

(** Python indexing counts negative indices from the end. *)
Theorem py_index_exact : forall A (l : list A) i,
  py_index l i = if (i <? - Z.of_nat (length l)) || (Z.of_nat (length l) <=? i) then None
                 else if i <? 0 then nth_error (rev l) (Z.to_nat (- i - 1)) else nth_error l (Z.to_nat i).
Proof.
  intros A l i. unfold py_index. set (n := Z.of_nat (length l)).
  destruct (i <? - n) eqn:E1; [apply Z.ltb_lt in E1|apply Z.ltb_ge in E1]; cbn [orb].
  { replace (0 <=? i) with false by (symmetry; apply Z.leb_gt; lia). replace (0 <=? n + i) with false by (symmetry; apply Z.leb_gt; lia).
    now rewrite andb_false_r. }
  destruct (n <=? i) eqn:E2; [apply Z.leb_le in E2|apply Z.leb_gt in E2].
  { replace (i <? n) with false by (symmetry; apply Z.ltb_ge; lia). replace (i <? 0) with false by (symmetry; apply Z.ltb_ge; lia).
    now rewrite andb_false_r. }
  destruct (i <? 0) eqn:E3; [apply Z.ltb_lt in E3|apply Z.ltb_ge in E3].
  - replace (0 <=? i) with false by (symmetry; apply Z.leb_gt; lia). replace (0 <=? n + i) with true by (symmetry; apply Z.leb_le; lia).
    cbn [andb]. unfold n in *. clear n.
    assert (K : (Z.to_nat (- i - 1) < length l)%nat) by lia.
    destruct l as [|a0 l0] eqn:El; [cbn in K; lia|]. rewrite <- El in *. clear El.
    rewrite (nth_error_nth' (rev l) a0) by (rewrite rev_length; lia). rewrite rev_nth by lia.
    rewrite (nth_error_nth' l a0) by lia. do 2 f_equal. lia.
  - replace (0 <=? i) with true by (symmetry; apply Z.leb_le; lia). replace (i <? n) with true by (symmetry; apply Z.ltb_lt; lia). reflexivity.
Qed.
Print Assumptions py_index_exact.
Example py_index_ex : py_index [10; 20; 30]%nat (-1) = Some 30%nat /\ py_index [10; 20; 30]%nat (-4) = None.
Proof. split; reflexivity. Qed.

(** The larger radius is reported although no radius is complete: the last
    entry is never checked. *)
Theorem line_upper_complete_refuted : exists check nn_rads rlb rub asked,
  (forall i, check i = false) /\ line_search check nn_rads = Some (rlb, rub, false, asked).
Proof.
  exists (fun _ => false), [1; 2; 3; 4; 5]%Q. do 3 eexists. split; reflexivity.
Qed.
Print Assumptions line_upper_complete_refuted.

Example line_search_ex : line_search (fun i => 4 <=? i) [1; 2; 3; 4; 5; 6; 7; 8]%Q = Some (4%Q, 5%Q, false, [4; 2; 3]).
Proof. reflexivity. Qed.

(** * C90: the knn-radius trial *)

Fixpoint ascending (l : list Z) : Prop :=
  match l with
  | [] => True
  | x :: l' => (forall y, In y l' -> x < y) /\ ascending l'
  end.

Lemma fold_max_ge : forall l a, a <= fold_left Z.max l a /\ (forall x, In x l -> x <= fold_left Z.max l a) /\
  (fold_left Z.max l a = a \/ In (fold_left Z.max l a) l).
Proof.
  induction l as [|b l IH]; intro a; simpl.
  - split; [lia|]. split; [intros x []|auto].
  - destruct (IH (Z.max a b)) as [H1 [H2 H3]]. repeat split; try lia.
    + intros x [<-|Hx]; auto. lia.
    + destruct H3 as [H3|H3]; auto. rewrite H3. destruct (Z.max_spec a b) as [[? M]|[? M]]; rewrite M; auto.
Qed.

Lemma knn_columns_ok : forall s k eff l, ascending l -> ~ In s l -> (forall x, In x l -> 1 <= x) ->
  (forall x, In x l -> x < s -> x <= k) ->
  knn_columns s k eff l = Some (map (fun nn => (s, nn, eff (nn - 1))) (filter (fun nn => nn <? s) l)).
Proof.
  intros s k eff. induction l as [|x l IH]; intros HA HN H1 HK; [reflexivity|].
  destruct HA as [HA1 HA2]. cbn [knn_columns filter]. simpl in HN.
  destruct (s <? x) eqn:E.
  - apply Z.ltb_lt in E. rewrite (proj2 (Z.ltb_ge x s)) by lia.
    assert (F : filter (fun nn => nn <? s) l = []); [|now rewrite F].
    clear - E HA1. induction l as [|y l IH]; simpl; auto.
    rewrite (proj2 (Z.ltb_ge y s)); [apply IH; intros; apply HA1; simpl; auto|].
    specialize (HA1 y (or_introl eq_refl)). lia.
  - apply Z.ltb_ge in E. assert (x < s) by (assert (x <> s) by (intro; apply HN; auto); lia).
    rewrite (proj2 (Z.ltb_lt x s)) by lia.
    assert (Hx1 := H1 x (or_introl eq_refl)). assert (Hxk := HK x (or_introl eq_refl) H).
    rewrite (proj2 (Z.ltb_lt (x - 1) k)), (proj2 (Z.leb_le (- k) (x - 1))) by lia. simpl andb. cbv iota.
    rewrite IH; auto; [|intros; apply H1; simpl; auto|intros; apply HK; simpl; auto].
    rewrite (proj2 (Z.ltb_ge (x - 1) 0)) by lia. reflexivity.
Qed.

Definition largest_below (s : Z) (l : list Z) (k : Z) : Prop :=
  In k l /\ k < s /\ forall x, In x l -> x < s -> x <= k.

(** An ascending schedule of positive neighbour counts with, for every sample
    count s, some entry below s and none equal to it: one record per sample
    count and smaller entry, read off a graph with the largest such entry. *)
Theorem knn_trial_records : forall eff neighbors samples,
  ascending neighbors -> (forall x, In x neighbors -> 1 <= x) ->
  (forall s, In s samples -> ~ In s neighbors /\ exists x, In x neighbors /\ x < s) ->
  exists records, knn_trial eff neighbors samples = KnnRecords records /\
  forall s nn r, In (s, nn, r) records <->
    In s samples /\ In nn neighbors /\ nn < s /\
    exists k, largest_below s neighbors k /\ r = eff s k (nn - 1).
Proof.
  intros eff neighbors samples HA H1. induction samples as [|s0 samples IH]; intro HS.
  - exists []. split; auto. intros; simpl. intuition.
  - destruct IH as [rs [E HR]]; [intros; apply HS; simpl; auto|].
    destruct (HS s0 (or_introl eq_refl)) as [HN [x0 [Hx0 Hlt0]]].
    cbn [knn_trial]. destruct (filter (fun nn => nn <? s0) neighbors) as [|n0 more] eqn:F.
    { exfalso. assert (In x0 (filter (fun nn => nn <? s0) neighbors)) by (apply filter_In; split; auto; apply Z.ltb_lt; auto).
      rewrite F in H. contradiction. }
    set (k := fold_left Z.max more n0).
    assert (HK : largest_below s0 neighbors k).
    { destruct (fold_max_ge more n0) as [G1 [G2 G3]]. fold k in G1, G2, G3.
      assert (In k (filter (fun nn => nn <? s0) neighbors)) by (rewrite F; destruct G3 as [->|?]; simpl; auto).
      apply filter_In in H. destruct H as [I L]. apply Z.ltb_lt in L. repeat split; auto.
      intros x Hx Hl. assert (I' : In x (filter (fun nn => nn <? s0) neighbors)) by (apply filter_In; split; auto; apply Z.ltb_lt; auto).
      rewrite F in I'. destruct I' as [->|I']; auto. }
    rewrite knn_columns_ok; auto; [|destruct HK as [_ [_ HK]]; auto].
    rewrite E. eexists. split; [reflexivity|].
    intros s nn r. rewrite in_app_iff, HR, in_map_iff. split.
    + intros [[nn' [P1 P2]]|[I1 [I2 [I3 I4]]]].
      * injection P1 as <- <- <-. apply filter_In in P2. destruct P2 as [P2 P3].
        apply Z.ltb_lt in P3. repeat split; simpl; auto. eauto.
      * repeat split; simpl; auto.
    + intros [I1 [I2 [I3 [k' [I4 I5]]]]].
      assert (KK : s = s0 -> k' = k).
      { intros ->. destruct I4 as [J1 [J2 J3]], HK as [K1 [K2 K3]].
        specialize (J3 k K1 K2). specialize (K3 k' J1 J2). lia. }
      destruct I1 as [<-|I1].
      * left. exists nn. rewrite KK in I5 by auto. subst r. split; auto.
        apply filter_In. split; auto. apply Z.ltb_lt; auto.
      * right. repeat split; auto. eauto.
Qed.
Print Assumptions knn_trial_records.

Example knn_trial_ex : forall eff, knn_trial eff [32; 64; 128] [100; 1000] =
  KnnRecords [(100, 32, eff 100 64 31); (100, 64, eff 100 64 63);
              (1000, 32, eff 1000 128 31); (1000, 64, eff 1000 128 63); (1000, 128, eff 1000 128 127)].
Proof. reflexivity. Qed.

(** An entry equal to the sample count passes the test nn > s but has no column. *)
Theorem knn_equal_refuted : exists eff neighbors samples,
  ascending neighbors /\ (forall x, In x neighbors -> 1 <= x) /\
  (forall s, In s samples -> exists x, In x neighbors /\ x < s) /\
  knn_trial eff neighbors samples = KnnIndexError.
Proof.
  exists (fun _ _ _ => 0%Q), [32; 64; 100], [100]. repeat split; simpl; auto; try (intuition lia).
  intros s [<-|[]]. exists 32. split; auto. lia.
Qed.
Print Assumptions knn_equal_refuted.

(** A sample count below every entry raises as well. *)
Theorem knn_too_few_raises : forall eff neighbors s samples, (forall x, In x neighbors -> s <= x) ->
  knn_trial eff neighbors (s :: samples) = KnnNoNeighbors.
Proof.
  intros eff neighbors s samples H. cbn [knn_trial].
  assert (F : filter (fun nn => nn <? s) neighbors = []); [|now rewrite F].
  induction neighbors as [|y l IH]; simpl; auto.
  rewrite (proj2 (Z.ltb_ge y s)); [apply IH; intros; apply H; simpl; auto|]. apply H; simpl; auto.
Qed.
Print Assumptions knn_too_few_raises.

(** The seed of the knn trial ends up as the length of the line, and the
    environment is left unseeded. *)
Theorem knn_env_unit_line_refuted : exists dim clear seed env,
  knn_trial_env dim clear seed = Some env /\ ~ (e_length env == 1)%Q /\ e_seed env = None /\
  exists env', line_trial_env dim clear seed = Some env' /\ (e_length env' == 1)%Q /\ e_seed env' = Some seed.
Proof.
  exists 2, (1 # 2)%Q, 12%nat. eexists. split; [reflexivity|]. split; [discriminate|]. split; [reflexivity|].
  eexists. split; [reflexivity|]. split; reflexivity.
Qed.
Print Assumptions knn_env_unit_line_refuted.
