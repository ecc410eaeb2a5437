(** Properties of the deployment and resume scripts (second half of Sched_Model) *)

From Coq Require Import List Arith Lia Bool ZArith QArith Qround String Permutation.
From Verif Require Import Sched_Model Sched_Props Anytime_Model Anytime_Props.
Import ListNotations.
Local Open Scope list_scope.
Local Open Scope nat_scope.

(** * C84: every queued experiment is submitted once *)

Theorem deploy_each_once : forall A (queue : list A), exists batches,
  (forall fuel, length queue <= fuel -> deploy_batches fuel queue = Some batches) /\
  List.concat batches = queue /\
  (forall b, In b batches -> 1 <= length b <= 50).
Proof.
  intros A.
  enough (G : forall n (queue : list A), length queue <= n -> exists batches,
    (forall fuel, length queue <= fuel -> deploy_batches fuel queue = Some batches) /\
    List.concat batches = queue /\ (forall b, In b batches -> 1 <= length b <= 50))
    by (intro q; apply (G (length q) q); lia).
  induction n as [|n IH]; intros queue Hq.
  - destruct queue as [|x q]; simpl in *; [|lia]. exists []. repeat split; auto.
    + intros fuel _. destruct fuel; reflexivity.
    + destruct H.
    + destruct H.
  - destruct queue as [|x q].
    + exists []. repeat split; auto; try (intros []; fail); try contradiction.
      intros fuel _. destruct fuel; reflexivity.
    + destruct (IH (skipn 50 (x :: q))) as [bs [H1 [H2 H3]]].
      { rewrite skipn_length. simpl in *. lia. }
      exists (firstn 50 (x :: q) :: bs). split; [|split].
      * intros [|fuel] Hf; [simpl in Hf; lia|]. cbn [deploy_batches].
        rewrite H1; auto. rewrite skipn_length. cbn [length] in *. lia.
      * cbn [List.concat]. rewrite H2. apply firstn_skipn.
      * intros b [<-|Hb]; auto. rewrite firstn_length. cbn [length]. lia.
Qed.
Print Assumptions deploy_each_once.

Lemma count_repeat_list : forall A (dec : forall x y : A, {x = y} + {x <> y}) n l a,
  count_occ dec (repeat_list n l) a = n * count_occ dec l a.
Proof.
  induction n as [|n IH]; intros l a; simpl; auto. now rewrite count_occ_app, IH.
Qed.

(** Whatever the shuffle, each arg set is submitted fifty times. *)
Theorem deploy_counts : forall A (dec : forall x y : A, {x = y} + {x <> y}) sets queue batches fuel a,
  Permutation queue (repeat_list 50 sets) -> length queue <= fuel ->
  deploy_batches fuel queue = Some batches ->
  count_occ dec (List.concat batches) a = 50 * count_occ dec sets a.
Proof.
  intros A dec sets queue batches fuel a HP Hf HB.
  destruct (deploy_each_once A queue) as [bs [H1 [H2 _]]].
  rewrite H1 in HB by auto. injection HB as <-. rewrite H2.
  rewrite (proj1 (Permutation_count_occ dec _ _) HP). apply count_repeat_list.
Qed.
Print Assumptions deploy_counts.

Example deploy_counts_ex : option_map (map (@length nat)) (deploy_batches 123 (repeat_list 41 [1; 2; 3])) =
  Some [50; 50; 23].
Proof. reflexivity. Qed.

(** * C85: what the deployed arg sets make the planner try *)

Definition fixed_size (n : Z) : Z * Z * Z := (n - 1, n, 0)%Z.

(** The fixed-size arg set (n - 1, n, 0) with the default factor 1.1 makes one
    attempt, with n - 1 samples, for every drawn n. *)
Theorem fixed_size_attempt : forall min_min ns n, (100 <= min_min)%Z ->
  (forall n, In n ns -> (min_min + 1 <= n)%Z) -> In n ns ->
  In (fixed_size n) (arg_sets min_min ns) /\
  forall P (query : list Z -> list P) fuel, 2 <= fuel ->
  loop P query n (11 # 10) fuel (inject_Z (n - 1)) [] = Stopped [(n - 1)%Z] (query [(n - 1)%Z]).
Proof.
  intros mm ns n Hmm Hns Hn. split.
  - right. apply in_flat_map. exists n. split; auto. simpl. auto.
  - intros P query fuel Hf. specialize (Hns n Hn).
    destruct fuel as [|[|fuel]]; try lia. cbn [loop].
    assert (E1 : Qlt_bool (inject_Z (n - 1)) (inject_Z (n + 1)) = true)
      by (apply Qlt_bool_iff; rewrite <- Zlt_Qlt; lia).
    assert (E2 : Qint (inject_Z (n - 1)) = (n - 1)%Z).
    { rewrite Qint_pos; [apply Qfloor_Z|]. change 0%Q with (inject_Z 0). rewrite <- Zle_Qle. lia. }
    assert (E3 : Qlt_bool (inject_Z (n - 1) * (11 # 10)) (inject_Z (n + 1)) = false).
    { destruct (Qlt_bool (inject_Z (n - 1) * (11 # 10)) (inject_Z (n + 1))) eqn:E; auto.
      apply Qlt_bool_iff in E. unfold Qlt, inject_Z, Qmult in E. simpl in E. lia. }
    rewrite E1, E2, E3. simpl app. destruct (query [(n - 1)%Z]); reflexivity.
Qed.
Print Assumptions fixed_size_attempt.

(** So the drawn size itself is never tried. *)
Theorem fixed_size_tries_n_refuted : exists (query : list Z -> list nat) n sizes,
  In (fixed_size n) (arg_sets 100 [n]) /\ query [n] <> [] /\
  loop nat query n (11 # 10) 5 (inject_Z (n - 1)) [] = Stopped sizes [] /\ ~ In n sizes.
Proof.
  exists (fun l => if Z.leb 250 (last l 0%Z) then [1] else []), 250%Z, [249%Z].
  repeat split; try discriminate; simpl; auto. intuition discriminate.
Qed.
Print Assumptions fixed_size_tries_n_refuted.

(** The sweep (min_min - 1, n, 0) never asks the roadmap for a size it already has. *)
Theorem sweep_never_raises : forall min_min n, (100 <= min_min)%Z ->
  forall P (query : list Z -> list P) fuel sizes,
  loop P query n (11 # 10) fuel (inject_Z (min_min - 1)) [] <> GrowError sizes.
Proof.
  intros mm n Hmm P query fuel sizes E.
  assert (H := anytime_growth P query n (11 # 10) (inject_Z (mm - 1)) fuel).
  rewrite E in H. apply H.
  - change 1%Q with (inject_Z 1). rewrite <- Zle_Qle. lia.
  - unfold Qle, Qminus, Qmult, Qplus, Qopp, inject_Z. simpl. lia.
Qed.
Print Assumptions sweep_never_raises.

Example sweep_ex : loop nat (fun l => if Z.leb 200 (last l 0%Z) then [1] else []) 300 (11 # 10) 20 (inject_Z 99) [] =
  Stopped [99; 108; 119; 131; 144; 159; 175; 192; 212]%Z [1].
Proof. reflexivity. Qed.

(** The deployed argument sets: the adaptive one, and for every drawn n a sweep that starts one
    below the smallest size and a single size. *)
Theorem deployed_sets : forall min_min ns lo hi adaptive,
  (In (lo, hi, adaptive) (arg_sets min_min ns) <->
   (lo = 0 /\ hi = 0 /\ adaptive = 1)%Z \/
   (adaptive = 0%Z /\ In hi ns /\ (lo + 1 = min_min \/ lo + 1 = hi)%Z)) /\
  List.length (arg_sets min_min ns) = 1 + 2 * List.length ns.
Proof.
  intros m ns lo hi ad. unfold arg_sets. split.
  - cbn [In]. rewrite in_flat_map. split.
    + intros [E|(n & Hn & [E|[E|[]]])]; injection E as <- <- <-; [left; auto|right|right]; repeat split; auto; [left|right]; lia.
    + intros [(-> & -> & ->)|(-> & Hn & [E|E])]; [left; reflexivity| |]; right; exists hi; split; auto; [left|right; left]; repeat f_equal; lia.
  - simpl. f_equal. induction ns as [|n ns IH]; simpl; auto. rewrite IH. lia.
Qed.
Print Assumptions deployed_sets.
Example deployed_sets_ex : arg_sets 100 [150; 400]%Z = [(0, 0, 1); (99, 150, 0); (149, 150, 0); (99, 400, 0); (399, 400, 0)]%Z.
Proof. reflexivity. Qed.

(** * C86: seeds of the deployed runs *)

Lemma array_job_seeds_ok : forall t, 1 <= t <= 200 -> array_job_seeds t = [t].
Proof.
  intros t Ht.
  assert (A : forallb (fun t => match array_job_seeds t with [s] => Nat.eqb s t | _ => false end) (seq 1 200) = true)
    by (vm_compute; reflexivity).
  rewrite forallb_forall in A. specialize (A t ltac:(apply in_seq; lia)).
  destruct (array_job_seeds t) as [|s [|]]; try discriminate. apply Nat.eqb_eq in A. now subst.
Qed.

Lemma array_job_seeds_beyond : forall t, t = 0 \/ 200 < t -> array_job_seeds t = [].
Proof.
  intros t Ht. unfold array_job_seeds.
  assert (E : filter (fun p => fst p =? t) (combine (seq 1 200) (seq 1 200)) = []); [|now rewrite E].
  destruct (filter _ _) as [|p l] eqn:F; auto. exfalso.
  assert (In p (filter (fun p => fst p =? t) (combine (seq 1 200) (seq 1 200)))) by (rewrite F; simpl; auto).
  apply filter_In in H. destruct H as [H1 H2]. destruct p as [a b]. apply in_combine_l in H1.
  apply in_seq in H1. apply Nat.eqb_eq in H2. simpl in H2. lia.
Qed.

(** A job of the array runs the seed with its own number, if that is 1..200. *)
Theorem array_jobs : forall t s, In s (array_job_seeds t) <-> s = t /\ 1 <= t <= 200.
Proof.
  intros t s. split.
  - intro H. destruct (le_lt_dec t 0); [rewrite array_job_seeds_beyond in H by lia; contradiction|].
    destruct (le_lt_dec t 200); [|rewrite array_job_seeds_beyond in H by lia; contradiction].
    rewrite array_job_seeds_ok in H by lia. simpl in H. intuition lia.
  - intros [-> H]. rewrite array_job_seeds_ok by lia. simpl. auto.
Qed.
Print Assumptions array_jobs.

(** Turtlebot: every arg set is run with each of the seeds 1..50, once. *)
Theorem turtle_runs : forall A (sets : list A),
  (forall e s, In (e, s) (submission_runs turtle_submission_seeds sets) <-> In e sets /\ 1 <= s <= 50) /\
  (NoDup sets -> NoDup (submission_runs turtle_submission_seeds sets)).
Proof.
  intros A sets.
  assert (E : turtle_submission_seeds = seq 1 50) by (vm_compute; reflexivity).
  rewrite E. split.
  - intros e s. unfold submission_runs. rewrite in_product2, in_seq. intuition lia.
  - intro H. apply nodup_product2; auto. apply seq_NoDup.
Qed.
Print Assumptions turtle_runs.

(** Kuka: every submission runs seed 1, so the fifty repetitions of an arg set
    are the same run. *)
Theorem kuka_runs : forall A (queue : list A),
  submission_runs kuka_submission_seeds queue = map (fun e => (e, 1)) queue.
Proof.
  intros A queue. unfold submission_runs, product2.
  assert (E : kuka_submission_seeds = [1]) by reflexivity. rewrite E.
  induction queue as [|e q IH]; [reflexivity|]. cbn [flat_map map app] in *. now rewrite IH.
Qed.
Print Assumptions kuka_runs.

Theorem kuka_runs_distinct_refuted : exists queue,
  queue = repeat_list 50 (arg_sets 500 [1000%Z]) /\
  ~ NoDup (submission_runs kuka_submission_seeds queue).
Proof.
  eexists. split; [reflexivity|]. rewrite kuka_runs. intro H.
  cbn [repeat_list arg_sets flat_map app map] in H.
  inversion H as [|x l N _]. apply N. simpl. auto.
Qed.
Print Assumptions kuka_runs_distinct_refuted.

(** * C87: which experiment is resumed *)

Lemma insert_perm : forall d l, Permutation (insert_by_mtime d l) (d :: l).
Proof.
  induction l as [|e l IH]; simpl; auto. destruct (snd d <? snd e); auto.
  rewrite IH. apply perm_swap.
Qed.

Lemma sort_perm : forall l, Permutation (sort_by_mtime l) l.
Proof.
  intro l. unfold sort_by_mtime.
  enough (G : forall acc, Permutation (fold_left (fun acc d => insert_by_mtime d acc) l acc) (l ++ acc))
    by (rewrite (G []), app_nil_r; auto).
  induction l as [|d l IH]; intro acc; simpl; auto.
  rewrite IH, insert_perm. symmetry. apply Permutation_middle.
Qed.

Definition by_time (d e : dir_entry) := snd d <= snd e.

Inductive ordered : list dir_entry -> Prop :=
| ordered_nil : ordered []
| ordered_cons : forall d l, (forall e, In e l -> by_time d e) -> ordered l -> ordered (d :: l).

Lemma insert_ordered : forall d l, ordered l -> ordered (insert_by_mtime d l).
Proof.
  intros d l H. induction H as [|e l He Hl IH]; simpl.
  - constructor; [intros ? [] | constructor].
  - destruct (snd d <? snd e) eqn:E.
    + apply Nat.ltb_lt in E. constructor; [|constructor; auto].
      intros x [<-|Hx]; unfold by_time in *; [lia|]. specialize (He x Hx). lia.
    + apply Nat.ltb_ge in E. constructor; auto. intros x Hx.
      apply (Permutation_in _ (insert_perm d l)) in Hx.
      destruct Hx as [<-|Hx]; unfold by_time in *; auto.
Qed.

Lemma sort_ordered : forall l, ordered (sort_by_mtime l).
Proof.
  intro l. unfold sort_by_mtime.
  enough (G : forall acc, ordered acc -> ordered (fold_left (fun acc d => insert_by_mtime d acc) l acc))
    by (apply G; constructor).
  induction l as [|d l IH]; intros acc H; simpl; auto. apply IH, insert_ordered, H.
Qed.

Lemma ordered_last : forall l d, ordered (l ++ [d]) -> forall e, In e (l ++ [d]) -> snd e <= snd d.
Proof.
  induction l as [|x l IH]; simpl; intros d H e He.
  - destruct He as [<-|[]]; auto.
  - inversion H as [|? ? Hx Hl]; subst. destruct He as [<-|He]; auto.
    apply Hx. apply in_or_app; simpl; auto.
Qed.

Lemma rev_cons_last : forall A (l : list A) d r, rev l = d :: r -> l = rev r ++ [d].
Proof. intros A l d r H. rewrite <- (rev_involutive l), H. reflexivity. Qed.

(** The latest directory whose name starts with the given name *)
Theorem resume_dir_latest : forall name results,
  match resume_dir name results with
  | Some d => In d results /\ String.prefix name (fst d) = true /\
      forall e, In e results -> String.prefix name (fst e) = true -> snd e <= snd d
  | None => forall e, In e results -> String.prefix name (fst e) = false
  end.
Proof.
  intros name results. unfold resume_dir.
  set (F := filter (fun d => String.prefix name (fst d)) results).
  assert (HF : forall e, In e (sort_by_mtime F) <-> In e results /\ String.prefix name (fst e) = true).
  { intro e. rewrite <- (filter_In (fun d : dir_entry => String.prefix name (fst d)) e results). fold F.
    split; apply Permutation_in; [apply sort_perm | symmetry; apply sort_perm]. }
  assert (HO := sort_ordered F).
  destruct (rev (sort_by_mtime F)) as [|d r] eqn:E.
  - intros e He. destruct (String.prefix name (fst e)) eqn:P; auto. exfalso.
    assert (H : In e (sort_by_mtime F)) by (apply HF; auto).
    apply in_rev in H. rewrite E in H. contradiction.
  - apply rev_cons_last in E.
    assert (Hd : In d (sort_by_mtime F)) by (rewrite E; apply in_or_app; simpl; auto).
    apply HF in Hd. destruct Hd as [H1 H2]. repeat split; auto.
    intros e He Pe. rewrite E in HO. apply (ordered_last _ _ HO). rewrite <- E. apply HF; auto.
Qed.
Print Assumptions resume_dir_latest.

(** A later experiment whose name extends the given one is resumed instead. *)
Theorem resume_same_name_refuted : exists name other stamp1 stamp2,
  let results := [(exp_dir name stamp1, 10); (exp_dir other stamp2, 20)] in
  name <> other /\
  resume_dir name results = Some (exp_dir other stamp2, 20).
Proof.
  exists "narrow"%string, "narrow_big"%string, "20240101-120000"%string, "20240102-120000"%string.
  split; [discriminate|]. reflexivity.
Qed.
Print Assumptions resume_same_name_refuted.

Example resume_ex :
  resume_dir "line" [("line_20240103-120000", 30); ("knn_20240101-120000", 40); ("line_20240102-120000", 20)]%string =
  Some ("line_20240103-120000"%string, 30).
Proof. reflexivity. Qed.
