(** Properties of exps/aggregate_runtimes_for_tuning.py (C102). *)
From Coq Require Import List Bool Arith String Lia.
From Verif Require Import Agg_Model.
Import ListNotations.
Open Scope string_scope.

(** ** Specification *)
(** the table of a file; [None] if there is none of that name *)
Fixpoint table_of {row} (name : string) (d : directory row) : option (list row) :=
  match d with
  | [] => None
  | (n, r) :: d' => if String.eqb n name then Some r else table_of name d'
  end.
(** names written by the experiment scripts: "out", anything, ".csv" *)
Definition result_file (name : string) : Prop := exists s, name = "out" ++ s ++ ".csv".
(** x stands in the k-th row of a result file *)
Definition result_row {row} (d : directory row) (k : nat) (x : row) : Prop :=
  exists name rows, In (name, rows) d /\ result_file name /\ nth_error rows k = Some x.

Lemma prefix_app s t : prefix s (s ++ t) = true.
Proof. induction s as [|c s IH]; simpl; [now destruct t|]. destruct (Ascii.ascii_dec c c); congruence. Qed.
Lemma prefix_split s t : prefix s t = true -> exists u, t = s ++ u.
Proof.
  revert t. induction s as [|c s IH]; intros t H; [exists t; reflexivity|]. destruct t as [|d t]; [discriminate|].
  simpl in H. destruct (Ascii.ascii_dec c d) as [->|]; [|discriminate]. destruct (IH t H) as (u & ->). exists u. reflexivity.
Qed.
Lemma length_app s t : length (s ++ t) = length s + length t.
Proof. induction s; simpl; auto. Qed.
Lemma substring_all s : substring 0 (length s) s = s.
Proof. induction s; simpl; congruence. Qed.
Lemma substring_skip s t : substring (length s) (length t) (s ++ t) = t.
Proof. induction s; simpl; auto. apply substring_all. Qed.
Lemma substring_end s : forall k, k <= length s -> exists u, s = u ++ substring k (length s - k) s /\ length u = k.
Proof.
  induction s as [|c s IH]; intros k L; simpl in L.
  - exists "". assert (k = 0) as -> by lia. split; reflexivity.
  - destruct k as [|k].
    + exists "". split; [|reflexivity]. change (length (String c s) - 0) with (length (String c s)). now rewrite substring_all.
    + destruct (IH k ltac:(lia)) as (u & E & Lu). exists (String c u). simpl. rewrite <- E, Lu. auto.
Qed.
Lemma ends_with_iff suffix s : ends_with suffix s = true <-> exists u, s = u ++ suffix.
Proof.
  unfold ends_with. rewrite andb_true_iff, Nat.leb_le, String.eqb_eq. split.
  - intros (L & E). destruct (substring_end s (length s - length suffix) ltac:(lia)) as (u & Eu & _).
    replace (length s - (length s - length suffix)) with (length suffix) in Eu by lia. rewrite E in Eu. eauto.
  - intros (u & ->). rewrite length_app. split; [lia|]. replace (length u + length suffix - length suffix) with (length u) by lia.
    apply substring_skip.
Qed.
Theorem is_out_csv_iff name : is_out_csv name = true <-> result_file name.
Proof.
  unfold is_out_csv, result_file. rewrite andb_true_iff, ends_with_iff. split.
  - intros (P & u & E). apply prefix_split in P as (v & ->).
    destruct u as [|a [|b [|c u]]]; simpl in E; try discriminate.
    + injection E as -> -> -> E. exists u. now rewrite E.
  - intros (s & ->). split; [apply prefix_app|]. exists ("out" ++ s). simpl. reflexivity.
Qed.

Lemma table_write row name rows (d : directory row) n :
  table_of n (write_csv row name rows d) = if String.eqb n name then Some rows else table_of n d.
Proof.
  induction d as [|(m, r) d IH]; simpl.
  - rewrite (String.eqb_sym name n). reflexivity.
  - destruct (String.eqb m name) eqn:E; simpl.
    + apply String.eqb_eq in E. subst m. rewrite (String.eqb_sym name n). destruct (String.eqb n name); reflexivity.
    + destruct (String.eqb m n) eqn:E2; [|exact IH]. apply String.eqb_eq in E2. subst m. now rewrite E.
Qed.
Lemma mini_In row (d : directory row) rows : In rows (mini_out_dfs row d) <-> exists name, In (name, rows) d /\ result_file name.
Proof.
  unfold mini_out_dfs. rewrite in_map_iff. split.
  - intros ((n, r) & E & H). simpl in E. subst r. apply filter_In in H as (H1 & H2). apply is_out_csv_iff in H2. eauto.
  - intros (n & H1 & H2). exists (n, rows). split; auto. apply filter_In. split; auto. now apply is_out_csv_iff.
Qed.

(** C102.  With at least one result file the aggregated file holds exactly the rows of the
    result files, as often as they occur there, and no other file changes; without one the
    script raises. *)
Theorem aggregate_complete : forall row prefix_ out_name (d : directory row),
  ((exists name rows, In (name, rows) d /\ result_file name) -> exists d' big,
     aggregate row prefix_ out_name d = Some d' /\ table_of (agg_name prefix_ out_name) d' = Some big /\
     (forall x, In x big <-> exists k, result_row d k x) /\
     List.length big = list_sum (map (fun f => if is_out_csv (fst f) then List.length (snd f) else 0) d) /\
     forall n, n <> agg_name prefix_ out_name -> table_of n d' = table_of n d) /\
  ((forall name rows, In (name, rows) d -> ~ result_file name) -> aggregate row prefix_ out_name d = None).
Proof.
  intros row pre out d. split.
  - intros (name & rows & I & F). unfold aggregate.
    assert (M : In rows (mini_out_dfs row d)) by (apply mini_In; eauto).
    destruct (mini_out_dfs row d) as [|df dfs] eqn:E; [destruct M|]. rewrite <- E in *. clear E df dfs M.
    do 2 eexists. split; [reflexivity|]. split; [rewrite table_write, String.eqb_refl; reflexivity|]. split; [|split].
    + intro x. rewrite in_concat. split.
      * intros (r & Ir & Ix). apply mini_In in Ir as (n & In_ & Fn). apply In_nth_error in Ix as (k & Ek). exists k, n, r. auto.
      * intros (k & n & r & In_ & Fn & Ek). exists r. split; [apply mini_In; eauto|]. eapply nth_error_In; eauto.
    + unfold mini_out_dfs. clear. induction d as [|(n, r) d IH]; simpl; auto. destruct (is_out_csv n); simpl; [rewrite app_length|]; rewrite IH; reflexivity.
    + intros n Hn. rewrite table_write. apply String.eqb_neq in Hn. now rewrite Hn.
  - intros H. unfold aggregate. destruct (mini_out_dfs row d) as [|df dfs] eqn:E; auto. exfalso.
    assert (M : In df (mini_out_dfs row d)) by (rewrite E; left; reflexivity). apply mini_In in M as (n & I & F). eapply H; eauto.
Qed.
Print Assumptions aggregate_complete.

(** C102.  The time statistics see exactly the rows after the first of each result file. *)
Theorem statistics_rows : forall row (d : directory row) x,
  In x (cut_big_out row d) <-> exists k, result_row d (S k) x.
Proof.
  intros row d x. unfold cut_big_out. rewrite in_concat.
  assert (T : forall df : list row, tail_rows row (List.length df - 1) df = tl df).
  { intros [|a df]; [reflexivity|]. unfold tail_rows. simpl List.length. replace (S (List.length df) - (S (List.length df) - 1)) with 1 by lia. reflexivity. }
  split.
  - intros (r & Ir & Ix). apply in_map_iff in Ir as (df & <- & Idf). rewrite T in Ix. apply mini_In in Idf as (n & In_ & F).
    destruct df as [|a df]; [destruct Ix|]. apply In_nth_error in Ix as (k & Ek). exists k, n, (a :: df). auto.
  - intros (k & n & df & In_ & F & Ek). exists (tl df). split.
    + rewrite <- T. apply in_map_iff. exists df. split; auto. apply mini_In. eauto.
    + destruct df as [|a df]; [destruct k; discriminate|]. simpl in Ek. eapply nth_error_In; eauto.
Qed.
Print Assumptions statistics_rows.

(** C102.  Aggregating again changes nothing, unless the aggregated file is itself taken for a
    result file. *)
Theorem aggregate_again_partial : forall row prefix_ out_name (d d' : directory row), ~ result_file (agg_name prefix_ out_name) ->
  aggregate row prefix_ out_name d = Some d' -> aggregate row prefix_ out_name d' = Some d'.
Proof.
  intros row pre out d d' N E.
  assert (M : forall rows, mini_out_dfs row (write_csv row (agg_name pre out) rows d) = mini_out_dfs row d).
  { intro rows. unfold mini_out_dfs. clear E. induction d as [|(n, r) d IH]; simpl.
    - destruct (is_out_csv (agg_name pre out)) eqn:X; auto. exfalso. apply N. now apply is_out_csv_iff.
    - destruct (String.eqb n (agg_name pre out)) eqn:Y; simpl.
      + apply String.eqb_eq in Y. subst n. destruct (is_out_csv (agg_name pre out)) eqn:X; auto. exfalso. apply N. now apply is_out_csv_iff.
      + destruct (is_out_csv n); simpl; now rewrite IH. }
  assert (W : forall rows, write_csv row (agg_name pre out) rows (write_csv row (agg_name pre out) rows d) = write_csv row (agg_name pre out) rows d).
  { intro rows. clear E M. induction d as [|(n, r) d IH]; simpl; [now rewrite String.eqb_refl|].
    destruct (String.eqb n (agg_name pre out)) eqn:Y; simpl; rewrite Y; [reflexivity|]. now rewrite IH. }
  unfold aggregate in *. destruct (mini_out_dfs row d) as [|df dfs] eqn:X; [discriminate|]. injection E as <-. rewrite M. now rewrite W.
Qed.
Print Assumptions aggregate_again_partial.

(** with the default name of an experiment *)
Example aggregate_ex : exists d', aggregate nat "straight_line" None [("out_0.csv", [1; 2; 3]); ("config.yaml", []); ("out_1.csv", [4; 5])] = Some d' /\
  table_of "straight_line_agg_out.csv" d' = Some [1; 2; 3; 4; 5] /\ aggregate nat "straight_line" None d' = Some d' /\
  cut_big_out nat d' = [2; 3; 5].
Proof. eexists. split; [reflexivity|]. repeat split. Qed.

Theorem aggregate_again_refuted : exists out_name (d d' d'' : directory nat),
  aggregate nat "straight_line" (Some out_name) d = Some d' /\ aggregate nat "straight_line" (Some out_name) d' = Some d'' /\
  table_of (agg_name "straight_line" (Some out_name)) d' = Some [1; 2; 3] /\
  table_of (agg_name "straight_line" (Some out_name)) d'' = Some [1; 2; 3; 1; 2; 3].
Proof.
  exists "out", [("out_0.csv", [1; 2]); ("out_1.csv", [3])]. do 2 eexists. repeat split; reflexivity.
Qed.
Print Assumptions aggregate_again_refuted.
