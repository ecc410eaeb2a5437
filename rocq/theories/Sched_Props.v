(** Properties of the scheduling and resuming code (Sched_Model) *)

From Coq Require Import List Arith Lia Bool ZArith String Permutation.
From Verif Require Import Sched_Model.
Import ListNotations.
Local Open Scope list_scope.
Local Open Scope nat_scope.

Notation length := List.length.

(** * C61: the slices partition the work *)

(** The slice is Python's: its k-th entry is entry task_id + k * num_tasks. *)
Theorem slice_entries : forall A (l : list A) n t k, 1 <= n ->
  nth_error (every n t l) k = nth_error l (t + k * n).
Proof.
  induction l as [|x l IH]; intros n t k Hn; simpl.
  - rewrite !(proj2 (nth_error_None _ _)); simpl; auto; lia.
  - destruct t as [|t]; [|simpl; apply IH; lia].
    destruct k as [|k]; [reflexivity|].
    change (nth_error (x :: every n (n - 1) l) (S k)) with (nth_error (every n (n - 1) l) k).
    rewrite IH by lia.
    replace (0 + S k * n) with (S (n - 1 + k * n)) by (simpl; lia). reflexivity.
Qed.
Print Assumptions slice_entries.

Lemma every_partition : forall A (l : list A) n, 1 <= n ->
  Permutation (flat_map (fun t => every n t l) (seq 0 n)) l.
Proof.
  induction l as [|x l IH]; intros n Hn.
  - assert (E : flat_map (fun t => every n t (@nil A)) (seq 0 n) = []).
    { clear. induction (seq 0 n); simpl; auto. }
    rewrite E. constructor.
  - destruct n as [|n]; [lia|]. cbn [seq flat_map every].
    replace (S n - 1) with n by lia.
    rewrite <- seq_shift, flat_map_concat_map, map_map.
    simpl. constructor. rewrite <- flat_map_concat_map.
    rewrite <- (IH (S n)) at 2 by lia. rewrite seq_S. simpl.
    rewrite flat_map_app. simpl. rewrite app_nil_r. apply Permutation_app_comm.
Qed.

Theorem slices_partition : forall A (exp_combos : list A) num_tasks, 1 <= num_tasks ->
  exists slices,
    map (fun task_id => my_tasks exp_combos task_id num_tasks) (seq 0 num_tasks) = map Some slices /\
    length slices = num_tasks /\
    Permutation (List.concat slices) exp_combos.
Proof.
  intros A l n Hn. exists (map (fun t => every n t l) (seq 0 n)). repeat split.
  - rewrite map_map. apply map_ext. intro t. unfold my_tasks. destruct n; [lia|reflexivity].
  - now rewrite map_length, seq_length.
  - rewrite <- flat_map_concat_map. now apply every_partition.
Qed.
Print Assumptions slices_partition.

Example slices_partition_ex :
  map (fun t => my_tasks [10; 11; 12; 13; 14; 15; 16] t 3) (seq 0 3) =
  [Some [10; 13; 16]; Some [11; 14]; Some [12; 15]].
Proof. reflexivity. Qed.

(** The list of experiments holds every combination of the settings once. *)
Lemma in_product2 : forall A B (l : list A) (m : list B) a b,
  In (a, b) (product2 l m) <-> In a l /\ In b m.
Proof.
  intros A B l m a b. unfold product2. rewrite in_flat_map. split.
  - intros [x [Hx H]]. apply in_map_iff in H. destruct H as [y [E Hy]]. inversion E; subst; auto.
  - intros [Ha Hb]. exists a. split; auto. apply in_map_iff. eauto.
Qed.

Lemma NoDup_app' : forall A (l m : list A), NoDup l -> NoDup m ->
  (forall x, In x l -> ~ In x m) -> NoDup (l ++ m).
Proof.
  induction l as [|x l IH]; intros m Hl Hm Hd; simpl; auto.
  inversion Hl; subst. constructor.
  - rewrite in_app_iff. intros [?|?]; [contradiction|]. apply (Hd x); simpl; auto.
  - apply IH; auto. intros y Hy. apply Hd. now right.
Qed.

Lemma NoDup_map_inj : forall A B (f : A -> B) l, (forall x y, f x = f y -> x = y) ->
  NoDup l -> NoDup (map f l).
Proof.
  intros A B f l Hf. induction 1; simpl; constructor; auto.
  rewrite in_map_iff. intros [y [E Hy]]. apply Hf in E. now subst.
Qed.

Lemma nodup_product2 : forall A B (l : list A) (m : list B),
  NoDup l -> NoDup m -> NoDup (product2 l m).
Proof.
  intros A B l m Hl Hm. induction Hl as [|x l Hx Hl IH]; simpl; [constructor|].
  apply NoDup_app'; auto.
  - apply NoDup_map_inj; auto. congruence.
  - intros [a b] H1 H2. apply in_map_iff in H1. destruct H1 as [y [E _]]. inversion E; subst.
    apply in_product2 in H2. tauto.
Qed.

Theorem line_combos_exact : forall D (dims : list D) n_trials,
  (forall d t, In (d, t) (line_combos dims n_trials) <-> In d dims /\ t < n_trials) /\
  (NoDup dims -> NoDup (line_combos dims n_trials)).
Proof.
  intros D dims n. split.
  - intros d t. unfold line_combos. rewrite in_product2, in_seq. intuition lia.
  - intro H. apply nodup_product2; auto. apply seq_NoDup.
Qed.
Print Assumptions line_combos_exact.

Theorem narrow_combos_exact : forall C D (deltas : list C) (rdims kdims : list D) n_trials,
  (forall ty c d t, In (ty, (c, (d, t))) (narrow_combos deltas rdims kdims n_trials) <->
     In c deltas /\ In d (match ty with Radius => rdims | Knn => kdims end) /\ t < n_trials) /\
  (NoDup deltas -> NoDup rdims -> NoDup kdims -> NoDup (narrow_combos deltas rdims kdims n_trials)).
Proof.
  intros C D deltas rd kd n. unfold narrow_combos. split.
  - intros ty c d t. rewrite in_app_iff, !in_product2, in_seq. simpl.
    destruct ty; intuition (try discriminate; lia).
  - intros H1 H2 H3. apply NoDup_app';
      try (repeat apply nodup_product2; auto; try apply seq_NoDup;
           repeat constructor; simpl; tauto).
    intros [ty x] Ha Hb. apply in_product2 in Ha, Hb. simpl in *. intuition congruence.
Qed.
Print Assumptions narrow_combos_exact.

Example narrow_combos_ex :
  narrow_combos [1] [2; 3] [2] 2 =
  [(Radius, (1, (2, 0))); (Radius, (1, (2, 1))); (Radius, (1, (3, 0))); (Radius, (1, (3, 1)));
   (Knn, (1, (2, 0))); (Knn, (1, (2, 1)))].
Proof. reflexivity. Qed.

(** * C62: resuming by counting rows *)

Lemma skipn_skipn : forall A x y (l : list A), skipn x (skipn y l) = skipn (x + y) l.
Proof.
  intros A x y. induction y as [|y IH]; intro l; simpl.
  - now rewrite Nat.add_0_r.
  - rewrite Nat.add_succ_r. destruct l as [|a l]; simpl; [now rewrite !skipn_nil | apply IH].
Qed.

Section RowProofs.
Context {A : Type}.
Variable rows : A -> nat.

Lemma run_until_prefix : forall lim (l : list A), exists c, run_until lim l = firstn c l /\ c <= length l.
Proof.
  intros [n|] l; simpl.
  - exists (min n (length l)). split; [|lia].
    destruct (le_lt_dec n (length l)); [now rewrite Nat.min_l|].
    rewrite Nat.min_r by lia. now rewrite firstn_all, firstn_all2 by lia.
  - exists (length l). now rewrite firstn_all.
Qed.

Lemma rows_of_one : forall l, (forall a, In a l -> rows a = 1) -> rows_of rows l = length l.
Proof.
  unfold rows_of. induction l as [|a l IH]; intro H; simpl; auto.
  rewrite H by (simpl; auto). rewrite IH by (intros; apply H; simpl; auto). reflexivity.
Qed.

Lemma rows_of_ge : forall l, (forall a, In a l -> 1 <= rows a) -> length l <= rows_of rows l.
Proof.
  unfold rows_of. induction l as [|a l IH]; intro H; simpl; auto.
  specialize (H a (or_introl eq_refl)) as H1.
  assert (length l <= list_sum (map rows l)) by (apply IH; intros; apply H; simpl; auto). lia.
Qed.

(** A file that is absent behaves like one with no rows. *)
Lemma row_sessions_none : forall tasks limits,
  row_sessions rows tasks None limits = row_sessions rows tasks (Some 0) limits.
Proof.
  induction limits as [|lim limits IH]; simpl; auto.
  destruct (run_until lim tasks) as [|x l] eqn:E; f_equal; auto.
Qed.

Lemma row_sessions_step : forall tasks n lim limits, exists c,
  c <= length (skipn n tasks) /\ (lim = None -> c = length (skipn n tasks)) /\
  row_sessions rows tasks (Some n) (lim :: limits) =
  firstn c (skipn n tasks) ::
  row_sessions rows tasks (Some (n + rows_of rows (firstn c (skipn n tasks)))) limits.
Proof.
  intros tasks n lim limits.
  assert (H : exists c, run_until lim (skipn n tasks) = firstn c (skipn n tasks) /\
              c <= length (skipn n tasks) /\ (lim = None -> c = length (skipn n tasks))).
  { destruct lim as [m|].
    - destruct (run_until_prefix (Some m) (skipn n tasks)) as [c [E Hc]]. exists c. repeat split; auto; discriminate.
    - exists (length (skipn n tasks)). rewrite firstn_all. auto. }
  destruct H as [c [E [Hc HN]]]. exists c. repeat split; auto.
  simpl. rewrite E. f_equal.
  destruct (firstn c (skipn n tasks)) as [|x l]; [|reflexivity].
  unfold rows_of. simpl. now rewrite Nat.add_0_r.
Qed.

Lemma firstn_skipn_skipn : forall n c (l : list A), c <= length (skipn n l) ->
  firstn c (skipn n l) ++ skipn (n + c) l = skipn n l.
Proof.
  intros n c l Hc. rewrite <- (firstn_skipn c (skipn n l)) at 2. f_equal.
  rewrite skipn_skipn. f_equal. lia.
Qed.

Lemma in_firstn : forall n (l : list A) x, In x (firstn n l) -> In x l.
Proof. intros n l x H. rewrite <- (firstn_skipn n l). apply in_or_app; auto. Qed.
Lemma in_skipn : forall n (l : list A) x, In x (skipn n l) -> In x l.
Proof. intros n l x H. rewrite <- (firstn_skipn n l). apply in_or_app; auto. Qed.

(** With one row per experiment every experiment is run exactly once, in
    order, however often the script is killed and restarted. *)
Theorem row_resume_exact : forall tasks limits,
  (forall a, In a tasks -> rows a = 1) ->
  List.concat (row_sessions rows tasks None (limits ++ [None])) = tasks.
Proof.
  intros tasks limits H1. rewrite row_sessions_none.
  enough (G : forall n, List.concat (row_sessions rows tasks (Some n) (limits ++ [None])) = skipn n tasks)
    by apply (G 0).
  induction limits as [|lim limits IH]; intro n; simpl app.
  - destruct (row_sessions_step tasks n None []) as [c [Hc [HN E]]]. rewrite E. simpl.
    rewrite app_nil_r, HN by auto. apply firstn_all.
  - destruct (row_sessions_step tasks n lim (limits ++ [None])) as [c [Hc [_ E]]]. rewrite E. simpl.
    rewrite IH, rows_of_one.
    + rewrite firstn_length_le by auto. now apply firstn_skipn_skipn.
    + intros a Ha. apply H1. eauto using in_firstn, in_skipn.
Qed.

(** In general the restarts never repeat an experiment... *)
Theorem row_resume_no_repeat : forall tasks limits,
  NoDup tasks -> (forall a, In a tasks -> 1 <= rows a) ->
  NoDup (List.concat (row_sessions rows tasks None limits)) /\
  incl (List.concat (row_sessions rows tasks None limits)) tasks.
Proof.
  intros tasks limits HD H1. rewrite row_sessions_none.
  enough (G : forall n, NoDup (List.concat (row_sessions rows tasks (Some n) limits)) /\
     incl (List.concat (row_sessions rows tasks (Some n) limits)) (skipn n tasks)) by apply (G 0).
  induction limits as [|lim limits IH]; intro n.
  - split; [constructor | intros x []].
  - destruct (row_sessions_step tasks n lim limits) as [c [Hc [_ E]]]. rewrite E. cbn [List.concat].
    set (r := rows_of rows (firstn c (skipn n tasks))).
    assert (Hr : c <= r).
    { unfold r. rewrite <- (firstn_length_le (skipn n tasks) Hc) at 1.
      apply rows_of_ge. intros a Ha. apply H1. eauto using in_firstn, in_skipn. }
    destruct (IH (n + r)) as [I1 I2].
    assert (Hsub : incl (skipn (n + r) tasks) (skipn (n + c) tasks)).
    { replace (n + r) with ((r - c) + (n + c)) by lia. rewrite <- skipn_skipn.
      intros x. apply in_skipn. }
    assert (HD' : NoDup (firstn c (skipn n tasks) ++ skipn (n + c) tasks)).
    { rewrite firstn_skipn_skipn by auto.
      rewrite <- (firstn_skipn n tasks) in HD.
      clear - HD. induction (firstn n tasks); simpl in *; auto. inversion HD; auto. }
    split.
    + apply NoDup_app'; auto.
      * clear - HD'. induction (firstn c (skipn n tasks)) as [|x l IHl]; [constructor|].
        inversion HD'; subst. constructor; [rewrite in_app_iff in *; tauto | auto].
      * intros x Hx Hy. apply I2, Hsub in Hy. clear - HD' Hx Hy.
        induction (firstn c (skipn n tasks)) as [|y l IHl]; [contradiction|].
        inversion HD' as [|? ? N1 N2]; subst. rewrite in_app_iff in N1.
        destruct Hx as [->|Hx]; [tauto|auto].
    + intros x Hx. apply in_app_or in Hx. destruct Hx as [Hx|Hx].
      * eauto using in_firstn.
      * apply I2, Hsub in Hx. replace (n + c) with (c + n) in Hx by lia.
        rewrite <- skipn_skipn in Hx. eauto using in_skipn.
Qed.

(** ... but with r rows each, a crash after c experiments loses the next
    c * (r - 1) ones. *)
Theorem row_resume_gap : forall tasks c r, 1 <= c <= length tasks ->
  (forall a, In a tasks -> rows a = r) ->
  row_sessions rows tasks None [Some c; None] = [firstn c tasks; skipn (c * r) tasks].
Proof.
  intros tasks c r Hc Hr.
  assert (E : rows_of rows (firstn c tasks) = c * r).
  { unfold rows_of. clear - Hc Hr. revert tasks Hc Hr. induction c as [|c IH]; intros tasks Hc Hr; [lia|].
    destruct tasks as [|a tasks]; simpl in *; [lia|].
    rewrite Hr by auto. f_equal. destruct c as [|c]; [reflexivity|].
    apply IH; [lia|]. intros; apply Hr; auto. }
  simpl. destruct (firstn c tasks) as [|x l] eqn:F.
  - destruct tasks; destruct c; simpl in *; try lia; discriminate.
  - rewrite E. reflexivity.
Qed.

Theorem row_resume_loses : forall tasks c r a, 2 <= r -> 1 <= c -> NoDup tasks ->
  (forall a, In a tasks -> rows a = r) ->
  nth_error tasks c = Some a ->
  ~ In a (List.concat (row_sessions rows tasks None [Some c; None])).
Proof.
  intros tasks c r a Hr Hc HD Hrows Ha.
  assert (Hlt : c < length tasks) by (apply nth_error_Some; congruence).
  rewrite (row_resume_gap _ _ r) by (auto; lia). simpl. rewrite app_nil_r.
  destruct (nth_error_split _ _ Ha) as [l1 [l2 [-> Hl1]]].
  rewrite in_app_iff. intros [H|H].
  - rewrite <- Hl1, firstn_app, Nat.sub_diag, firstn_all, firstn_O, app_nil_r in H.
    apply NoDup_remove_2 in HD. apply HD, in_or_app; auto.
  - apply NoDup_remove_2 in HD. apply HD, in_or_app. right.
    assert (E : c * r = (c * r - S c) + S c) by nia. rewrite E, <- skipn_skipn in H.
    apply in_skipn in H. rewrite <- Hl1 in H.
    replace (skipn (S (length l1)) (l1 ++ a :: l2)) with l2 in H; auto.
    rewrite skipn_app, skipn_all2 by lia.
    replace (S (length l1) - length l1) with 1 by lia. reflexivity.
Qed.
End RowProofs.
Print Assumptions row_resume_exact.
Print Assumptions row_resume_no_repeat.
Print Assumptions row_resume_gap.
Print Assumptions row_resume_loses.

(** exps/config/narrow... are read by the narrow script; for the line script a
    schedule of three sample counts gives three rows per experiment. *)
Theorem row_resume_refuted : exists (tasks : list (nat * nat)) rows limits a,
  tasks = line_combos [2; 3] 3 /\ (forall x, In x tasks -> rows x = 3) /\
  In a tasks /\
  ~ In a (List.concat (row_sessions rows tasks None (limits ++ [None]))).
Proof.
  exists (line_combos [2; 3] 3), (fun _ => 3), [Some 1], (2, 1).
  repeat split; auto.
  - simpl. auto.
  - cbv. intuition discriminate.
Qed.
Print Assumptions row_resume_refuted.

Example row_resume_exact_ex :
  row_sessions (fun _ => 1) [7; 8; 9; 10] None ([Some 1; Some 0; Some 2] ++ [None]) =
  [[7]; []; [8; 9]; [10]].
Proof. reflexivity. Qed.

Example row_resume_gap_ex :
  row_sessions (fun _ => 3) [5; 6; 7; 8; 9; 10; 11; 12] None [Some 2; None] =
  [[5; 6]; [11; 12]].
Proof. reflexivity. Qed.

(** * C63: resuming by counting seeds *)

Section SeedProofs.
Context {A : Type}.
Variable draw : nat -> nat.
Variable trial_rows : A -> nat -> list (option nat).

(** A trial that always leaves its seed: at least one row and no row without. *)
Definition marks_seed (a : A) := forall s,
  trial_rows a s <> [] /\ forall x, In x (trial_rows a s) -> x = Some s.

(** The file holds exactly the first m seeds. *)
Definition holds_seeds (m : nat) (f : list (option nat)) :=
  forall x, In x f <-> exists k, k < m /\ x = Some (draw k).

Lemma n_seeds_holds : forall m f,
  (forall i j, i < m -> j < m -> draw i = draw j -> i = j) ->
  holds_seeds m f -> n_seeds f = m.
Proof.
  intros m f Hinj Hf. unfold n_seeds.
  transitivity (length (map (fun k => Some (draw k)) (seq 0 m)));
    [|now rewrite map_length, seq_length].
  apply Permutation_length, NoDup_Permutation.
  - apply NoDup_nodup.
  - clear Hf. assert (G : forall l, NoDup l -> (forall k, In k l -> k < m) ->
      NoDup (map (fun k => Some (draw k)) l)).
    { induction 1 as [|k l Hk Hl IH]; intro Hm; simpl; constructor.
      - rewrite in_map_iff. intros [j [E Hj]]. injection E as E.
        apply Hinj in E; [subst; contradiction | apply Hm; simpl; auto | apply Hm; simpl; auto].
      - apply IH. intros; apply Hm; simpl; auto. }
    apply G; [apply seq_NoDup|]. intros k Hk. apply in_seq in Hk. lia.
  - intro x. rewrite nodup_In, (Hf x), in_map_iff. split.
    + intros [k [Hk ->]]. exists k. rewrite in_seq. split; auto. lia.
    + intros [k [<- Hk]]. apply in_seq in Hk. exists k. split; auto. lia.
Qed.

Lemma run_seeded_fst : forall (l : list A) k, map fst (run_seeded draw k l) = l.
Proof. induction l; intro k; simpl; congruence. Qed.

Lemma run_seeded_nth : forall (l : list A) k i,
  nth_error (run_seeded draw k l) i =
  match nth_error l i with Some a => Some (a, draw (k + i)) | None => None end.
Proof.
  induction l as [|a l IH]; intros k [|i]; simpl; auto.
  - now rewrite Nat.add_0_r.
  - rewrite IH. replace (k + S i) with (S k + i) by lia. reflexivity.
Qed.

Lemma rows_hold : forall l, (forall a, In a l -> marks_seed a) ->
  holds_seeds (length l) (flat_map (fun p => trial_rows (fst p) (snd p)) (run_seeded draw 0 l)).
Proof.
  intros l Hl x. rewrite in_flat_map. split.
  - intros [[a s] [Hp Hx]]. apply In_nth_error in Hp. destruct Hp as [i Hi].
    rewrite run_seeded_nth in Hi. destruct (nth_error l i) as [b|] eqn:E; [|discriminate].
    injection Hi as -> <-. exists i. split; [apply nth_error_Some; congruence|].
    apply (Hl a); auto. eapply nth_error_In; eauto.
  - intros [k [Hk ->]]. destruct (nth_error l k) as [a|] eqn:E; [|apply nth_error_None in E; lia].
    exists (a, draw k). split.
    + apply nth_error_In with k. now rewrite run_seeded_nth, E.
    + assert (Ha : marks_seed a) by (apply Hl; eapply nth_error_In; eauto).
      destruct (Ha (draw k)) as [Hne Hall]. simpl.
      destruct (trial_rows a (draw k)) as [|y ys]; [congruence|].
      left. apply Hall. simpl; auto.
Qed.

Lemma holds_app : forall m1 m2 f1 f2, holds_seeds m1 f1 -> holds_seeds m2 f2 ->
  holds_seeds (max m1 m2) (f1 ++ f2).
Proof.
  intros m1 m2 f1 f2 H1 H2 x. rewrite in_app_iff, (H1 x), (H2 x). split.
  - intros [[k [Hk E]]|[k [Hk E]]]; exists k; split; auto; lia.
  - intros [k [Hk E]]. destruct (Nat.max_spec m1 m2) as [[? M]|[? M]]; rewrite M in Hk; eauto.
Qed.

(** The file as the script sees it: absent or present, it stands for m seeds. *)
Definition file_seeds (m : nat) (file : option (list (option nat))) :=
  match file with
  | None => m = 0
  | Some f => holds_seeds m f
  end.

Lemma seed_session_step : forall tasks m file lim limits,
  (forall i j, i < length tasks -> j < length tasks -> draw i = draw j -> i = j) ->
  (forall a, In a tasks -> marks_seed a) ->
  m <= length tasks -> file_seeds m file -> exists c file',
  c <= length (skipn m tasks) /\ (lim = None -> c = length (skipn m tasks)) /\
  (forall n, lim = Some n -> c = min n (length (skipn m tasks))) /\
  file_seeds (max m c) file' /\
  seed_sessions draw trial_rows tasks file (lim :: limits) =
  run_seeded draw 0 (firstn c (skipn m tasks)) :: seed_sessions draw trial_rows tasks file' limits.
Proof.
  intros tasks m file lim limits Hinj Hmark Hm Hfile.
  assert (H : exists c, run_until lim (skipn m tasks) = firstn c (skipn m tasks) /\
     c <= length (skipn m tasks) /\ (lim = None -> c = length (skipn m tasks)) /\
     (forall n, lim = Some n -> c = min n (length (skipn m tasks)))).
  { destruct lim as [n|]; simpl.
    - exists (min n (length (skipn m tasks))). split; [|split; [lia|split; [discriminate|congruence]]].
      destruct (le_lt_dec n (length (skipn m tasks))); [now rewrite Nat.min_l|].
      rewrite Nat.min_r by lia. now rewrite firstn_all, firstn_all2 by lia.
    - exists (length (skipn m tasks)). rewrite firstn_all. repeat split; auto; discriminate. }
  destruct H as [c [E [Hc [HN HS]]]].
  assert (Etodo : match file with Some f => skipn (n_seeds f) tasks | None => tasks end = skipn m tasks).
  { destruct file as [f|]; simpl in Hfile; [|now subst].
    rewrite (n_seeds_holds m f); auto. intros i j Hi Hj. apply Hinj; lia. }
  assert (Hlen : length (firstn c (skipn m tasks)) = c) by (now apply firstn_length_le).
  assert (Hrows := rows_hold (firstn c (skipn m tasks))).
  rewrite Hlen in Hrows.
  assert (Hrows' := Hrows ltac:(intros a Ha; apply Hmark; eauto using in_firstn, in_skipn)).
  exists c. eexists. split; [exact Hc|]. split; [exact HN|]. split; [exact HS|].
  split; [|cbn [seed_sessions seed_session]; rewrite Etodo, E; reflexivity].
  destruct (run_seeded draw 0 (firstn c (skipn m tasks))) as [|p ps] eqn:F.
  - assert (c = 0) by (rewrite <- Hlen, <- (run_seeded_fst (firstn c (skipn m tasks)) 0), F; reflexivity).
    subst c. now rewrite Nat.max_0_r.
  - destruct file as [f|]; simpl in Hfile |- *.
    + now apply holds_app.
    + subst m. simpl. exact Hrows'.
Qed.


(** One crash: every experiment is run exactly once, in order. *)
Theorem seed_resume_once : forall tasks c,
  (forall i j, i < length tasks -> j < length tasks -> draw i = draw j -> i = j) ->
  (forall a, In a tasks -> marks_seed a) ->
  map fst (List.concat (seed_sessions draw trial_rows tasks None [Some c; None])) = tasks.
Proof.
  intros tasks n Hinj Hmark.
  destruct (seed_session_step tasks 0 None (Some n) [None] Hinj Hmark (Nat.le_0_l _) eq_refl)
    as [c [f' [Hc [_ [_ [Hf E]]]]]].
  rewrite E. cbn [List.concat]. rewrite map_app, run_seeded_fst. simpl skipn in *.
  destruct (seed_session_step tasks (max 0 c) f' None []) as [c2 [f2 [Hc2 [HN [_ [_ E2]]]]]]; auto.
  rewrite E2. cbn [List.concat seed_sessions]. rewrite app_nil_r, run_seeded_fst, HN by auto.
  rewrite firstn_all. simpl. apply firstn_skipn.
Qed.

(** Any number of crashes: no experiment is left out once a session completes. *)
Theorem seed_resume_complete : forall tasks limits,
  (forall i j, i < length tasks -> j < length tasks -> draw i = draw j -> i = j) ->
  (forall a, In a tasks -> marks_seed a) ->
  incl tasks (map fst (List.concat (seed_sessions draw trial_rows tasks None (limits ++ [None])))).
Proof.
  intros tasks limits Hinj Hmark.
  enough (G : forall limits m file, m <= length tasks -> file_seeds m file ->
    incl (skipn m tasks)
      (map fst (List.concat (seed_sessions draw trial_rows tasks file (limits ++ [None]))))).
  { apply (G limits 0 None); simpl; auto; lia. }
  clear limits. induction limits as [|lim limits IH]; intros m file Hm Hfile; simpl app.
  - destruct (seed_session_step tasks m file None []) as [c [f' [Hc [HN [_ [Hf E]]]]]]; auto.
    rewrite E. cbn [List.concat seed_sessions]. rewrite app_nil_r, run_seeded_fst, HN, firstn_all by auto.
    apply incl_refl.
  - destruct (seed_session_step tasks m file lim (limits ++ [None])) as [c [f' [Hc [HN [_ [Hf E]]]]]]; auto.
    rewrite E. cbn [List.concat]. rewrite map_app, run_seeded_fst.
    assert (HI := IH (max m c) f'). rewrite skipn_length in Hc.
    specialize (HI ltac:(lia) Hf).
    intros x Hx. rewrite <- (firstn_skipn c (skipn m tasks)) in Hx.
    apply in_app_or in Hx. apply in_or_app. destruct Hx as [Hx|Hx]; auto.
    right. apply HI. rewrite skipn_skipn in Hx.
    destruct (Nat.max_spec m c) as [[? M]|[? M]]; rewrite M.
    + replace (c + m) with (m + c) in Hx by lia. rewrite <- skipn_skipn in Hx. eauto using in_skipn.
    + rewrite <- skipn_skipn in Hx. eauto using in_skipn.
Qed.

(** Every session hands out the seeds from the start again. *)
Theorem seed_restarts : forall tasks file limits i session k a s,
  nth_error (seed_sessions draw trial_rows tasks file limits) i = Some session ->
  nth_error session k = Some (a, s) -> s = draw k.
Proof.
  intros tasks file limits. revert file. induction limits as [|lim limits IH]; intros file i session k a s Hi Hk.
  - destruct i; discriminate.
  - cbn [seed_sessions] in Hi. unfold seed_session in Hi.
    destruct i as [|i]; simpl in Hi; [|eapply IH; eauto].
    injection Hi as <-. rewrite run_seeded_nth in Hk.
    destruct (nth_error _ k); [|discriminate]. injection Hk as _ <-. reflexivity.
Qed.

(** Killed after c trials every time, the script never gets past experiment 2c. *)
Theorem seed_resume_stalls : forall tasks c restarts,
  (forall i j, i < length tasks -> j < length tasks -> draw i = draw j -> i = j) ->
  (forall a, In a tasks -> marks_seed a) ->
  incl (map fst (List.concat (seed_sessions draw trial_rows tasks None (repeat (Some c) restarts))))
       (firstn (2 * c) tasks).
Proof.
  intros tasks c restarts Hinj Hmark.
  enough (G : forall restarts m file, m <= length tasks -> m <= c -> file_seeds m file ->
    incl (map fst (List.concat (seed_sessions draw trial_rows tasks file (repeat (Some c) restarts))))
       (firstn (2 * c) tasks)) by (apply (G restarts 0 None); simpl; auto; lia).
  clear restarts. induction restarts as [|n IH]; intros m file Hm Hmc Hfile.
  - intros x [].
  - cbn [repeat].
    destruct (seed_session_step tasks m file (Some c) (repeat (Some c) n)) as [d [f' [Hd [_ [HS [Hf E]]]]]]; auto.
    rewrite E. cbn [List.concat]. rewrite map_app, run_seeded_fst.
    assert (Hdc : d <= c) by (rewrite (HS c eq_refl); lia).
    intros x Hx. apply in_app_or in Hx. destruct Hx as [Hx|Hx].
    + rewrite skipn_length in Hd.
      rewrite <- (firstn_skipn m tasks), firstn_app.
      rewrite firstn_length_le by lia. apply in_or_app. right.
      replace (2 * c - m) with (d + (2 * c - m - d)) by lia.
      rewrite <- (firstn_skipn d (skipn m tasks)).
      rewrite firstn_app. apply in_or_app. left.
      rewrite firstn_all2; auto. rewrite firstn_length. lia.
    + rewrite skipn_length in Hd. apply (IH (max m d) f'); auto; lia.
Qed.

End SeedProofs.
Print Assumptions seed_resume_once.
Print Assumptions seed_resume_complete.
Print Assumptions seed_restarts.
Print Assumptions seed_resume_stalls.

(** Rows as the script writes them: one per entry of the sample schedule. *)
Definition plain_rows (n : nat) (_ : nat) (s : nat) : list (option nat) := repeat (Some s) n.

Example plain_rows_mark : marks_seed (plain_rows 3) 5.
Proof.
  intro s. split; [discriminate|]. simpl. intros x H. repeat destruct H as [<-|H]; auto. contradiction.
Qed.

Example seed_resume_once_ex :
  seed_sessions (fun k => 100 + k) (plain_rows 2) [7; 8; 9; 10] None [Some 3; None] =
  [[(7, 100); (8, 101); (9, 102)]; [(10, 100)]].
Proof. reflexivity. Qed.

Example seed_resume_stalls_ex :
  map (map fst) (seed_sessions (fun k => 100 + k) (plain_rows 2) [1; 2; 3; 4; 5; 6; 7] None (repeat (Some 2) 5)) =
  [[1; 2]; [3; 4]; [3; 4]; [3; 4]; [3; 4]].
Proof. reflexivity. Qed.

(** After one crash two experiments share a seed, so their environments and
    roadmaps are drawn from the same random numbers. *)
Theorem seed_fresh_refuted : exists draw (tasks : list nat) limits a b s,
  (forall i j, draw i = draw j -> i = j) /\ (forall x, marks_seed (plain_rows 2) x) /\ NoDup tasks /\
  a <> b /\
  In (a, s) (List.concat (seed_sessions draw (plain_rows 2) tasks None (limits ++ [None]))) /\
  In (b, s) (List.concat (seed_sessions draw (plain_rows 2) tasks None (limits ++ [None]))).
Proof.
  exists (fun k => 100 + k), [7; 8; 9; 10], [Some 3], 7, 10, 100. repeat split; try discriminate.
  - intros; lia.
  - simpl. intros y H. repeat destruct H as [<-|H]; auto; contradiction.
  - repeat constructor; simpl; lia.
  - simpl. auto.
  - simpl. auto.
Qed.
Print Assumptions seed_fresh_refuted.

(** After two crashes experiments are run again. *)
Theorem seed_repeat_refuted : exists draw (tasks : list nat) limits,
  (forall i j, draw i = draw j -> i = j) /\ (forall x, marks_seed (plain_rows 2) x) /\ NoDup tasks /\
  ~ NoDup (map fst (List.concat (seed_sessions draw (plain_rows 2) tasks None (limits ++ [None])))).
Proof.
  exists (fun k => 100 + k), [7; 8; 9; 10], [Some 2; Some 1]. repeat split; try discriminate.
  - intros; lia.
  - simpl. intros y H. repeat destruct H as [<-|H]; auto; contradiction.
  - repeat constructor; simpl; lia.
  - simpl. intro H. inversion_clear H as [|? ? _ H1]. inversion_clear H1 as [|? ? _ H2].
    inversion_clear H2 as [|? ? N _]. simpl in N. tauto.
Qed.
Print Assumptions seed_repeat_refuted.

(** A trial with a ten-field record (Trial_Model) leaves a missing seed, which
    counts as one more seed: the resumed run skips an experiment. *)
Theorem seed_missing_refuted : exists draw (tasks : list nat) c a rows,
  (forall i j, draw i = draw j -> i = j) /\ NoDup tasks /\
  (forall x s, rows x s = [None; Some s]) /\
  In a tasks /\
  ~ In a (map fst (List.concat (seed_sessions draw rows tasks None [Some c; None]))).
Proof.
  exists (fun k => 100 + k), [7; 8; 9], 1, 8, (fun _ s => [None; Some s]). repeat split.
  - intros; lia.
  - repeat constructor; simpl; lia.
  - simpl. auto.
  - simpl. intuition discriminate.
Qed.
Print Assumptions seed_missing_refuted.
