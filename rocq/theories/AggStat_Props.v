(** Property C161: the statistics of the aggregation script. *)
From Coq Require Import List Bool Arith Reals String Permutation Lia Lra.
From Verif Require Import Sched_Model Deploy_Props Agg_Model Agg_Props AggStat_Model.
Import ListNotations.
Open Scope string_scope.

(** ** Specification *)
(** the result files of a folder *)
Definition results (d : folder) : list frame := map snd (filter (fun x => is_out_csv (fst x)) d).
(** a column of a file, without the row of the first record *)
Definition later (c : string) (f : frame) : list cell := if in_dec string_dec c (cols f) then map (fun r => r c) (tl (rows f)) else [].
Definition nums (l : list cell) : list R := flat_map (fun v => match v with Num x => [x] | _ => [] end) l.
(** the numbers of a column over all result files, without the first rows *)
Definition measured (c : string) (d : folder) : list R := nums (flat_map (later c) (results d)).
(** a file in which this column is numeric *)
Definition numeric (c : string) (f : frame) : Prop := forall r, In r (rows f) -> r c <> Text.
Definition sum (l : list R) : R := fold_right Rplus 0%R l.
(** the mean of at least one number, and the standard deviation of at least two, by the differences of all pairs *)
Definition is_mean (l : list R) (m : option R) : Prop :=
  match m with Some m => l <> [] /\ (INR (List.length l) * m = sum l)%R | None => l = [] end.
Definition is_std (l : list R) (s : option R) : Prop :=
  match s with
  | Some s => (2 <= List.length l)%nat /\ (0 <= s)%R /\
      (2 * INR (List.length l) * INR (List.length l - 1) * (s * s) = sum (map (fun p => (fst p - snd p) * (fst p - snd p))%R (list_prod l l)))%R
  | None => (List.length l <= 1)%nat
  end.

(** ** Mean and standard deviation *)
Lemma mean_ok l : is_mean l (mean l).
Proof.
  unfold mean. destruct l as [|x l]; [reflexivity|]. cbn [is_mean]. split; [discriminate|]. change (sum (x :: l)) with (total (x :: l)).
  assert (INR (List.length (x :: l)) <> 0%R) by (apply not_0_INR; discriminate). field. auto.
Qed.
Lemma sum_app a b : sum (a ++ b) = (sum a + sum b)%R.
Proof. induction a as [|x a IH]; [unfold sum; cbn; lra|]. change (x + sum (a ++ b) = x + sum a + sum b)%R. lra. Qed.
Lemma sum_row x l : sum (map (fun y => (x - y) * (x - y))%R l) = (INR (List.length l) * (x * x) - 2 * x * sum l + sum (map (fun y => y * y) l))%R.
Proof.
  induction l as [|y l IH]; [cbn; lra|]. cbn [map List.length]. rewrite S_INR. unfold sum in *. cbn [fold_right]. rewrite IH. lra.
Qed.
Lemma sum_pairs l k : sum (map (fun p => (fst p - snd p) * (fst p - snd p))%R (list_prod k l)) =
  (INR (List.length l) * sum (map (fun y => y * y) k) - 2 * sum k * sum l + INR (List.length k) * sum (map (fun y => y * y) l))%R.
Proof.
  induction k as [|x k IH]; [cbn; lra|]. cbn [list_prod]. rewrite map_app, sum_app, IH, map_map. cbn [fst snd]. rewrite sum_row. cbn [List.length map]. rewrite S_INR.
  unfold sum. cbn [fold_right]. fold (sum k). fold (sum l). lra.
Qed.
Lemma sum_centred m l : sum (map (fun x => (x - m) * (x - m))%R l) = (sum (map (fun y => y * y) l) - 2 * m * sum l + INR (List.length l) * (m * m))%R.
Proof. induction l as [|y l IH]; [cbn; lra|]. cbn [map List.length]. rewrite S_INR. unfold sum in *. cbn [fold_right]. rewrite IH. lra. Qed.
Lemma sum_nonneg l : (forall x, In x l -> 0 <= x)%R -> (0 <= sum l)%R.
Proof. induction l as [|x l IH]; intros H; [cbn; lra|]. unfold sum in *. cbn [fold_right]. pose proof (H x (or_introl eq_refl)). specialize (IH (fun y I => H y (or_intror I))). lra. Qed.
Lemma centred_nonneg m l : (0 <= sum (map (fun x => (x - m) * (x - m))%R l))%R.
Proof. apply sum_nonneg. intros x I. apply in_map_iff in I as (y & <- & _). apply Rle_0_sqr. Qed.
Lemma std_ok l : is_std l (std l).
Proof.
  unfold std. destruct l as [|x [|y l']]; [cbn; lia..|]. pose proof (mean_ok (x :: y :: l')) as M. set (l := x :: y :: l') in *. destruct (mean l) as [m|]; [|discriminate]. cbn [is_mean] in M. destruct M as [_ M].
  cbn [is_std]. assert (L : (2 <= List.length l)%nat) by (cbn; lia). split; [exact L|].
  pose proof (centred_nonneg m l) as C. change (total (map (fun x => (x - m) * (x - m))%R l)) with (sum (map (fun x => (x - m) * (x - m))%R l)).
  assert (P : (0 < INR (List.length l - 1))%R) by (apply lt_0_INR; lia). assert (Q : (0 < INR (List.length l))%R) by (apply lt_0_INR; lia).
  split; [apply sqrt_pos|]. rewrite sqrt_sqrt by (apply Rmult_le_pos; [exact C|left; now apply Rinv_0_lt_compat]).
  rewrite sum_pairs, sum_centred, <- M. field. lra.
Qed.
(** The specification determines the two values. *)
Theorem stats_unique l m m' s s' : is_mean l m -> is_mean l m' -> is_std l s -> is_std l s' -> m = m' /\ s = s'.
Proof.
  intros M M' S S'. split.
  - destruct m as [m|], m' as [m'|]; cbn in *; try (exfalso; intuition congruence); auto. destruct M as [N M], M' as [_ M']. f_equal.
    assert (P : (0 < INR (List.length l))%R) by (apply lt_0_INR; destruct l; [congruence|cbn; lia]). apply (Rmult_eq_reg_l (INR (List.length l))); lra.
  - destruct s as [s|], s' as [s'|]; cbn in *; try lia; auto. destruct S as (L & P & S), S' as (_ & P' & S'). f_equal.
    assert (A : (0 < INR (List.length l - 1))%R) by (apply lt_0_INR; lia). assert (B : (0 < INR (List.length l))%R) by (apply lt_0_INR; lia).
    rewrite <- S' in S. assert (C : (0 < INR (List.length l) * INR (List.length l - 1))%R) by (apply Rmult_lt_0_compat; auto).
    assert (E : (s * s = s' * s')%R) by (apply (Rmult_eq_reg_l (2 * (INR (List.length l) * INR (List.length l - 1)))); lra).
    apply Rsqr_inj; auto.
Qed.
Print Assumptions stats_unique.
(** The mean lies between the values; the deviation is zero exactly if all are equal. *)
Theorem stats_meaning l lo hi : (forall x, In x l -> lo <= x <= hi)%R ->
  (forall m, is_mean l (Some m) -> (lo <= m <= hi)%R) /\
  (forall s, is_std l (Some s) -> (s = 0%R <-> forall x y, In x l -> In y l -> x = y)).
Proof.
  intros H. split.
  - intros m [N M]. assert (P : (0 < INR (List.length l))%R) by (apply lt_0_INR; destruct l; [congruence|cbn; lia]).
    assert (B : (INR (List.length l) * lo <= sum l <= INR (List.length l) * hi)%R).
    { clear M N P. induction l as [|x l IH]; [cbn; lra|]. cbn [List.length]. rewrite S_INR. unfold sum in *. cbn [fold_right]. pose proof (H x (or_introl eq_refl)). specialize (IH (fun y I => H y (or_intror I))). lra. }
    rewrite <- M in B. split; apply (Rmult_le_reg_l (INR (List.length l))); lra.
  - intros s (L & P & S). assert (A : (0 < INR (List.length l - 1))%R) by (apply lt_0_INR; lia). assert (B : (0 < INR (List.length l))%R) by (apply lt_0_INR; lia). split.
    + intros -> x y Ix Iy. assert (Z : sum (map (fun p => (fst p - snd p) * (fst p - snd p))%R (list_prod l l)) = 0%R) by lra.
      assert (G : forall k : list R, (forall z, In z k -> 0 <= z)%R -> sum k = 0%R -> forall z, In z k -> z = 0%R).
      { clear. induction k as [|a k IH]; intros N Z z I; [destruct I|]. unfold sum in Z. cbn [fold_right] in Z. fold (sum k) in Z.
        pose proof (N a (or_introl eq_refl)). pose proof (sum_nonneg k (fun y J => N y (or_intror J))). destruct I as [<-|I]; [lra|]. apply IH; auto; [intros; apply N; now right|lra]. }
      assert (Q : ((x - y) * (x - y) = 0)%R).
      { apply (G _) with (z := ((x - y) * (x - y))%R) in Z; auto.
        - intros z I. apply in_map_iff in I as (p & <- & _). apply Rle_0_sqr.
        - apply in_map_iff. exists (x, y). split; auto. now apply in_prod. }
      apply Rsqr_0_uniq in Q. lra.
    + intros E. assert (Z : sum (map (fun p => (fst p - snd p) * (fst p - snd p))%R (list_prod l l)) = 0%R).
      { assert (K : forall p, In p (list_prod l l) -> ((fst p - snd p) * (fst p - snd p) = 0)%R) by (intros [x y] I; apply in_prod_iff in I as [I J]; cbn; rewrite (E x y I J); lra).
        clear - K. induction (list_prod l l) as [|p k IH]; [reflexivity|]. cbn [map]. unfold sum in *. cbn [fold_right]. rewrite IH by (intros; apply K; now right). rewrite K by now left. lra. }
      rewrite Z in S. assert (T : (s * s = 0)%R). { assert (C : (0 < INR (List.length l) * INR (List.length l - 1))%R) by (apply Rmult_lt_0_compat; auto). apply (Rmult_eq_reg_l (2 * (INR (List.length l) * INR (List.length l - 1)))); lra. }
      now apply Rsqr_0_uniq.
Qed.
Print Assumptions stats_meaning.

(** ** The columns *)
Definition some_file_has (c : string) (fs : list frame) : Prop := exists f, In f fs /\ In c (cols f).
(** text anywhere in the column of a file turns its other cells into text as well *)
Definition spoils (c : string) (f : frame) : Prop := In c (cols f) /\ (exists r, In r (rows f) /\ r c = Text) /\ exists r, In r (tl (rows f)) /\ r c <> Missing.

Lemma has_col_iff c f : has_col c f = true <-> In c (cols f).
Proof. unfold has_col. rewrite existsb_exists. split; [intros (x & I & E); apply String.eqb_eq in E; now subst|intros I; exists c; split; auto; apply String.eqb_refl]. Qed.
Lemma cut_tl f : rows (cut_first f) = tl (rows f).
Proof. unfold cut_first. cbn [rows]. destruct (rows f) as [|r l]; [reflexivity|]. cbn [List.length tl]. replace (S (List.length l) - (S (List.length l) - 1))%nat with 1%nat by lia. reflexivity. Qed.
Definition read_cell (f : frame) (c : string) (v : cell) : cell := match v with Missing => Missing | v => if existsb (fun r' => is_text (r' c)) (rows f) then Text else v end.
Definition kept (c : string) (f : frame) : list cell := map (fun r => if has_col c f then read_cell f c (r c) else Missing) (tl (rows f)).
Lemma tl_map {A B} (g : A -> B) l : tl (map g l) = map g (tl l).
Proof. destruct l; reflexivity. Qed.
Lemma column_cells c fs : map (fun r => r c) (rows (concat_frames (map cut_first (map read_csv fs)))) = flat_map (kept c) fs.
Proof.
  unfold concat_frames. cbn [rows]. induction fs as [|f fs IH]; [reflexivity|]. cbn [map flat_map]. rewrite map_app, IH. f_equal.
  rewrite map_map, cut_tl. cbn [read_csv rows]. rewrite tl_map, map_map. unfold kept. apply map_ext. intros r.
  change (has_col c (cut_first (read_csv f))) with (has_col c f). unfold read_cell. destruct (r c); reflexivity.
Qed.
Lemma column_present c fs : has_col c (concat_frames (map cut_first (map read_csv fs))) = true <-> some_file_has c fs.
Proof.
  rewrite has_col_iff. unfold concat_frames. cbn [cols]. rewrite nodup_In, in_flat_map. unfold some_file_has. split.
  - intros (g & I & C). apply in_map_iff in I as (h & <- & I). apply in_map_iff in I as (f & <- & I). exists f. auto.
  - intros (f & I & C). exists (cut_first (read_csv f)). split; auto. apply in_map_iff. exists (read_csv f). split; auto. now apply in_map.
Qed.
Lemma numbers_app a b : numbers (a ++ b) = match numbers a, numbers b with Some x, Some y => Some (x ++ y)%list | _, _ => None end.
Proof.
  induction a as [|v a IH]; cbn [app numbers]; [destruct (numbers b); reflexivity|]. destruct v; auto. rewrite IH. destruct (numbers a), (numbers b); reflexivity.
Qed.
Lemma numbers_none l : numbers l = None <-> In Text l.
Proof.
  induction l as [|v l IH]; cbn [numbers In]; [intuition discriminate|]. destruct v as [x| |].
  - destruct (numbers l); cbn [option_map]; split; try discriminate; intros H; [destruct H as [H|H]; [discriminate|]; apply IH in H; discriminate|right; now apply IH|reflexivity].
  - split; auto.
  - rewrite IH. intuition discriminate.
Qed.
Lemma numbers_some l : ~ In Text l -> numbers l = Some (nums l).
Proof.
  induction l as [|v l IH]; intros N; [reflexivity|]. cbn [In] in N. cbn [numbers nums flat_map]. fold (nums l). destruct v; [|exfalso; auto|apply IH; auto]. rewrite IH by auto. reflexivity.
Qed.
Lemma text_in_column c f : existsb (fun r' => is_text (r' c)) (rows f) = true <-> exists r, In r (rows f) /\ r c = Text.
Proof. rewrite existsb_exists. split; intros (r & I & E); exists r; split; auto; [destruct (r c); discriminate || reflexivity|now rewrite E]. Qed.
Lemma tl_in {A} (x : A) l : In x (tl l) -> In x l.
Proof. destruct l; [auto|now right]. Qed.
Lemma kept_text c f : In Text (kept c f) <-> spoils c f.
Proof.
  unfold kept, spoils. rewrite in_map_iff. split.
  - intros (r & E & I). destruct (has_col c f) eqn:H; [|discriminate]. apply has_col_iff in H. unfold read_cell in E.
    destruct (r c) eqn:V; [destruct (existsb _ _) eqn:X; [|discriminate]| |discriminate].
    + apply text_in_column in X. repeat split; auto. exists r. split; auto. congruence.
    + repeat split; auto; exists r; split; auto; try congruence. now apply tl_in.
  - intros (C & T & r & I & N). exists r. split; auto. apply has_col_iff in C. rewrite C. unfold read_cell. apply text_in_column in T. rewrite T. destruct (r c); congruence.
Qed.
Lemma kept_nums c f : ~ spoils c f -> nums (kept c f) = nums (later c f).
Proof.
  intros N. unfold kept, later. destruct (in_dec string_dec c (cols f)) as [C|C].
  - pose proof C as C'. apply has_col_iff in C'. rewrite C'. destruct (existsb (fun r' => is_text (r' c)) (rows f)) eqn:X.
    + apply text_in_column in X. assert (M : forall r, In r (tl (rows f)) -> r c = Missing).
      { intros r I. destruct (r c) eqn:V; auto; exfalso; apply N; repeat split; auto; exists r; split; auto; congruence. }
      clear N C C' X. induction (tl (rows f)) as [|r l IH]; [reflexivity|]. cbn [map nums flat_map]. unfold nums in IH. rewrite IH by (intros; apply M; now right). unfold read_cell. rewrite M by now left. reflexivity.
    + f_equal. apply map_ext. intros r. unfold read_cell. rewrite X. destruct (r c); reflexivity.
  - assert (H : has_col c f = false) by (apply not_true_iff_false; intros H; apply C; now apply has_col_iff). rewrite H. clear. induction (tl (rows f)) as [|r l IH]; [reflexivity|exact IH].
Qed.
(** What one column gives. *)
Lemma column_exact c fs :
  match column_stat c (concat_frames (map cut_first (map read_csv fs))) with
  | inr (m, s) => some_file_has c fs /\ (forall f, In f fs -> ~ spoils c f) /\ is_mean (nums (flat_map (later c) fs)) m /\ is_std (nums (flat_map (later c) fs)) s
  | inl (NoColumn c') => c' = c /\ ~ some_file_has c fs
  | inl (NotNumbers c') => c' = c /\ exists f, In f fs /\ spoils c f
  | inl _ => False
  end.
Proof.
  unfold column_stat. destruct (has_col c _) eqn:H.
  - apply column_present in H. rewrite column_cells. destruct (numbers (flat_map (kept c) fs)) as [l|] eqn:N.
    + assert (T : ~ In Text (flat_map (kept c) fs)) by (intros T; apply numbers_none in T; congruence).
      rewrite numbers_some in N by auto. injection N as <-.
      assert (S : forall f, In f fs -> ~ spoils c f) by (intros f I S; apply T, in_flat_map; exists f; split; auto; now apply kept_text).
      assert (E : nums (flat_map (kept c) fs) = nums (flat_map (later c) fs)).
      { clear - S. unfold nums. induction fs as [|f fs IH]; [reflexivity|]. cbn [flat_map]. rewrite !flat_map_app. rewrite IH by (intros; apply S; now right). f_equal. apply kept_nums. apply S. now left. }
      rewrite E. repeat split; auto; [apply mean_ok|apply std_ok].
    + apply numbers_none, in_flat_map in N as (f & I & T). split; auto. exists f. split; auto. now apply kept_text.
  - split; auto. intros S. apply column_present in S. congruence.
Qed.

(** ** The script *)
Lemma list_eq_nil {A} (l : list A) : {l = []} + {l <> []}.
Proof. destruct l; [now left|right; discriminate]. Qed.
Lemma outcome_of name_prefix out dirs files dir t : resume_dir name_prefix dirs = Some (dir, t) ->
  fst (aggregate_main name_prefix out dirs files) = if list_eq_nil (results (files dir)) then NoFiles else statistics (map read_csv (results (files dir))).
Proof.
  intros R. unfold aggregate_main. rewrite R. replace (map (fun x => read_csv (snd x)) (filter (fun x => is_out_csv (fst x)) (files dir))) with (map read_csv (results (files dir))) by (unfold results; now rewrite map_map).
  destruct (results (files dir)) as [|f l]; [destruct (list_eq_nil []); [reflexivity|congruence]|]. destruct (list_eq_nil (f :: l)); [discriminate|reflexivity].
Qed.
(** For the newest directory with the given name: either the two pairs of statistics of the rows after the first of every
    result file are reported, or there is no result file, or no file has the column, or a column of a file holds text. *)
Theorem report_exact name_prefix out dirs files dir t : resume_dir name_prefix dirs = Some (dir, t) ->
  let fs := results (files dir) in
  match fst (aggregate_main name_prefix out dirs files) with
  | Report bm bs cm cs => fs <> [] /\ some_file_has "build_time" fs /\ some_file_has "check_time" fs /\
      is_mean (measured "build_time" (files dir)) bm /\ is_std (measured "build_time" (files dir)) bs /\
      is_mean (measured "check_time" (files dir)) cm /\ is_std (measured "check_time" (files dir)) cs
  | NoFiles => fs = []
  | NoColumn c => fs <> [] /\ (c = "build_time" \/ c = "check_time") /\ ~ some_file_has c fs
  | NotNumbers c => (c = "build_time" \/ c = "check_time") /\ exists f, In f fs /\ spoils c f
  | NoDirectory => False
  end.
Proof.
  intros R fs. rewrite (outcome_of _ _ _ _ _ _ R). fold fs. destruct (list_eq_nil fs) as [E|N]; [exact E|].
  unfold statistics. cbv zeta. pose proof (column_exact "build_time" fs) as B. pose proof (column_exact "check_time" fs) as C. unfold measured. fold fs.
  destruct (column_stat "build_time" _) as [e|[bm bs]]; [destruct e; try contradiction; destruct B as [-> B]; split; auto|].
  destruct B as (B1 & _ & B2 & B3). destruct (column_stat "check_time" _) as [e|[cm cs]]; [destruct e; try contradiction; destruct C as [-> C]; split; auto|].
  destruct C as (C1 & _ & C2 & C3). repeat split; auto.
Qed.
Print Assumptions report_exact.
(** Without a directory of that name nothing is read or written. *)
Theorem no_directory name_prefix out dirs files : resume_dir name_prefix dirs = None -> aggregate_main name_prefix out dirs files = (NoDirectory, files).
Proof. intros R. unfold aggregate_main. now rewrite R. Qed.

Definition knn_like (fs : list frame) : Prop := forall f, In f fs -> cols f = knn_cols.
(** Tables of the other two trial scripts whose two columns are numbers are always reported. *)
Theorem trial_tables_report name_prefix out dirs files dir t : resume_dir name_prefix dirs = Some (dir, t) -> results (files dir) <> [] ->
  (forall f, In f (results (files dir)) -> (cols f = narrow_cols \/ cols f = line_cols) /\ numeric "build_time" f /\ numeric "check_time" f) ->
  exists bm bs cm cs, fst (aggregate_main name_prefix out dirs files) = Report bm bs cm cs.
Proof.
  intros R N H. pose proof (report_exact name_prefix out dirs files dir t R) as E. cbv zeta in E. destruct (fst (aggregate_main _ _ _ _)) as [bm bs cm cs| | |c|c]; try contradiction.
  - eauto.
  - destruct E as (_ & C & M). exfalso. apply M. destruct (results (files dir)) as [|f l]; [congruence|]. exists f. split; [now left|].
    destruct (H f (or_introl eq_refl)) as ([-> | ->] & _); destruct C as [-> | ->]; cbn; tauto.
  - destruct E as (C & f & I & _ & (r & Ir & T) & _). destruct (H f I) as (_ & B & K). exfalso. destruct C as [-> | ->]; [now apply (B r)|now apply (K r)].
Qed.
Print Assumptions trial_tables_report.
(** Tables of the neighbour trial: the script raises, after it wrote the aggregated table. *)
Theorem knn_tables_raise name_prefix out dirs files dir t : resume_dir name_prefix dirs = Some (dir, t) -> results (files dir) <> [] -> knn_like (results (files dir)) ->
  (forall f, In f (results (files dir)) -> numeric "build_time" f) ->
  fst (aggregate_main name_prefix out dirs files) = NoColumn "check_time" /\
  exists g, find (fun x => String.eqb (fst x) (agg_name name_prefix out)) (snd (aggregate_main name_prefix out dirs files) dir) = Some (agg_name name_prefix out, g) /\
    List.length (rows g) = list_sum (map (fun f => List.length (rows f)) (results (files dir))).
Proof.
  intros R N K B. split.
  - pose proof (report_exact name_prefix out dirs files dir t R) as E. cbv zeta in E.
    assert (NC : ~ some_file_has "check_time" (results (files dir))) by (intros (f & I & C); rewrite (K f I) in C; cbn in C; intuition discriminate).
    assert (HB : some_file_has "build_time" (results (files dir))) .
    { destruct (results (files dir)) as [|f l]; [congruence|]. exists f. split; [now left|]. rewrite (K f (or_introl eq_refl)). cbn. tauto. }
    destruct (fst (aggregate_main _ _ _ _)) as [bm bs cm cs| | |c|c]; try contradiction; try (exfalso; tauto).
    + destruct E as (_ & [-> | ->] & M); [contradiction|reflexivity].
    + destruct E as (C & f & I & (Cc & (r & Ir & T) & _)). exfalso. destruct C as [-> | ->]; [now apply (B f I r)|]. apply NC. exists f. auto.
  - unfold aggregate_main. rewrite R. replace (map (fun x => read_csv (snd x)) (filter (fun x => is_out_csv (fst x)) (files dir))) with (map read_csv (results (files dir))) by (unfold results; now rewrite map_map).
    set (fs := results (files dir)) in *. destruct (map read_csv fs) as [|g gs] eqn:M; [destruct fs; [congruence|discriminate]|]. rewrite <- M. cbn [snd]. rewrite String.eqb_refl.
    exists (concat_frames (map read_csv fs)). split.
    + set (nm := agg_name name_prefix out). set (h := concat_frames (map read_csv fs)). generalize (files dir). intros d. induction d as [|[m k] d IH]; cbn [write_file find fst]; [now rewrite String.eqb_refl|].
      destruct (String.eqb m nm) eqn:E; cbn [find fst]; rewrite E; [apply String.eqb_eq in E; now subst m|exact IH].
    + unfold concat_frames. cbn [rows]. clear. induction fs as [|f fs IH]; [reflexivity|]. cbn [map flat_map list_sum fold_right]. rewrite app_length, IH, map_length. cbn [read_csv rows]. rewrite map_length. reflexivity.
Qed.
Print Assumptions knn_tables_raise.
(** Text in a column (the short records of C88 put some there) makes the script raise. *)
Theorem text_raises name_prefix out dirs files dir t c : resume_dir name_prefix dirs = Some (dir, t) -> (c = "build_time" \/ c = "check_time") ->
  (exists f, In f (results (files dir)) /\ spoils c f) -> forall bm bs cm cs, fst (aggregate_main name_prefix out dirs files) <> Report bm bs cm cs.
Proof.
  intros R C (f & I & S) bm bs cm cs. unfold aggregate_main. rewrite R. replace (map (fun x => read_csv (snd x)) (filter (fun x => is_out_csv (fst x)) (files dir))) with (map read_csv (results (files dir))) by (unfold results; now rewrite map_map).
  set (fs := results (files dir)) in *. destruct (map read_csv fs) as [|g gs] eqn:M; [discriminate|]. rewrite <- M. cbn [fst]. unfold statistics. cbv zeta.
  pose proof (column_exact "build_time" fs) as B. pose proof (column_exact "check_time" fs) as K.
  destruct (column_stat "build_time" _) as [e|[x y]]; [destruct e; try contradiction; discriminate|]. destruct (column_stat "check_time" _) as [e|[u v]]; [destruct e; try contradiction; discriminate|].
  destruct C as [-> | ->]; [destruct B as (_ & B & _); now destruct (B f I)|destruct K as (_ & K & _); now destruct (K f I)].
Qed.
Print Assumptions text_raises.

(** ** The order in which glob lists the files does not matter *)
Lemma sum_perm l l' : Permutation l l' -> sum l = sum l'.
Proof. induction 1; unfold sum in *; cbn [fold_right]; lra. Qed.
Lemma mean_perm l l' m : Permutation l l' -> is_mean l m -> is_mean l' m.
Proof.
  intros P H. destruct m as [m|]; cbn in *.
  - destruct H as [N H]. split; [intros ->; apply N; now apply Permutation_nil, Permutation_sym|]. now rewrite <- (Permutation_length P), <- (sum_perm _ _ P).
  - subst. now apply Permutation_nil.
Qed.
Lemma std_perm l l' s : Permutation l l' -> is_std l s -> is_std l' s.
Proof.
  intros P H. destruct s as [s|]; cbn in *; [|now rewrite <- (Permutation_length P)].
  destruct H as (L & N & H). rewrite <- (Permutation_length P). repeat split; auto. rewrite H, !sum_pairs, (Permutation_length P), (sum_perm _ _ P).
  now rewrite (sum_perm _ _ (Permutation_map (fun y => y * y)%R P)).
Qed.
Lemma column_perm c fs fs' : Permutation fs fs' -> column_stat c (concat_frames (map cut_first (map read_csv fs))) = column_stat c (concat_frames (map cut_first (map read_csv fs'))).
Proof.
  intros P. pose proof (column_exact c fs) as A. pose proof (column_exact c fs') as B.
  assert (I : forall f, In f fs <-> In f fs') by (intros f; split; apply Permutation_in; [|apply Permutation_sym]; auto).
  assert (S : some_file_has c fs <-> some_file_has c fs') by (unfold some_file_has; split; intros (f & J & K); exists f; split; auto; now apply I).
  assert (N : (exists f, In f fs /\ spoils c f) <-> (exists f, In f fs' /\ spoils c f)) by (split; intros (f & J & K); exists f; split; auto; now apply I).
  assert (Q : Permutation (nums (flat_map (later c) fs)) (nums (flat_map (later c) fs'))) by (unfold nums; do 2 apply Permutation_flat_map; exact P).
  destruct (column_stat c (concat_frames (map cut_first (map read_csv fs)))) as [e|[m s]], (column_stat c (concat_frames (map cut_first (map read_csv fs')))) as [e'|[m' s']].
  - destruct e; try contradiction; destruct e'; try contradiction; destruct A as [-> A], B as [-> B]; try reflexivity; exfalso.
    + (* left lacks the column, right has text *) destruct B as (f & J & (K & _)). apply A. exists f. split; auto. now apply I.
    + destruct A as (f & J & (K & _)). apply B. exists f. split; auto. now apply I.
  - exfalso. destruct B as (B1 & B2 & _). destruct e; try contradiction; destruct A as [_ A]; [tauto|]. apply N in A as (f & J & K). now apply (B2 f).
  - exfalso. destruct A as (A1 & A2 & _). destruct e'; try contradiction; destruct B as [_ B]; [tauto|]. apply N in B as (f & J & K). now apply (A2 f).
  - destruct A as (_ & _ & A1 & A2), B as (_ & _ & B1 & B2). destruct (stats_unique _ m m' s s' A1 (mean_perm _ _ _ (Permutation_sym Q) B1) A2 (std_perm _ _ _ (Permutation_sym Q) B2)). congruence.
Qed.
Theorem file_order_irrelevant name_prefix out dirs files files' : (forall d, Permutation (files d) (files' d)) ->
  fst (aggregate_main name_prefix out dirs files) = fst (aggregate_main name_prefix out dirs files').
Proof.
  intros P. unfold aggregate_main. destruct (resume_dir name_prefix dirs) as [[dir t]|]; [|reflexivity].
  replace (map (fun x => read_csv (snd x)) (filter (fun x => is_out_csv (fst x)) (files dir))) with (map read_csv (results (files dir))) by (unfold results; now rewrite map_map).
  replace (map (fun x => read_csv (snd x)) (filter (fun x => is_out_csv (fst x)) (files' dir))) with (map read_csv (results (files' dir))) by (unfold results; now rewrite map_map).
  assert (Q : Permutation (results (files dir)) (results (files' dir))).
  { unfold results. apply Permutation_map. specialize (P dir). induction P as [|x l l' P IH|x y l|l l' l'' P IH P' IH']; cbn [filter]; auto.
    - destruct (is_out_csv (fst x)); auto.
    - destruct (is_out_csv (fst x)), (is_out_csv (fst y)); auto. apply perm_swap.
    - now transitivity (filter (fun x => is_out_csv (fst x)) l'). }
  set (fs := results (files dir)) in *. set (fs' := results (files' dir)) in *.
  assert (E : statistics (map read_csv fs) = statistics (map read_csv fs')) by (unfold statistics; now rewrite (column_perm "build_time" _ _ Q), (column_perm "check_time" _ _ Q)).
  destruct fs as [|f l] eqn:F; [apply Permutation_nil in Q; now rewrite Q|]. destruct fs' as [|f' l'] eqn:F'; [apply Permutation_sym, Permutation_nil in Q; discriminate|].
  cbn [map fst] in *. exact E.
Qed.
Print Assumptions file_order_irrelevant.

(** ** Refuted and examples *)
Definition cells (l : list (string * cell)) : string -> cell := fun c => match find (fun x => String.eqb (fst x) c) l with Some x => snd x | None => Missing end.
Definition one_dir (f : list (string * frame)) : string -> folder := fun d => if String.eqb d "a_1" then f else [].
Definition knn_table : frame := mkFrame knn_cols [cells [("dim", Num 2); ("build_time", Num 3); ("seed", Num 1)]; cells [("dim", Num 2); ("build_time", Num 1); ("seed", Num 1)]].
(** Refuted: the statistics of an experiment are reported.  The neighbour trial has no column check_time. *)
Theorem statistics_reported_refuted : exists files, knn_like (results (files "a_1")) /\ results (files "a_1") <> [] /\
  fst (aggregate_main "a" None [("a_1", 5)] files) = NoColumn "check_time".
Proof.
  exists (one_dir [("out0.csv", knn_table)]). split; [|split; [cbn; discriminate|]].
  - intros f I. cbn in I. destruct I as [<-|[]]. reflexivity.
  - apply (knn_tables_raise "a" None [("a_1", 5)] (one_dir [("out0.csv", knn_table)]) "a_1" 5); [reflexivity|cbn; discriminate| |].
    + intros f I. cbn in I. destruct I as [<-|[]]. reflexivity.
    + intros f I. cbn in I. destruct I as [<-|[]]. intros r J. cbn in J. destruct J as [<-|[<-|[]]]; discriminate.
Qed.
Print Assumptions statistics_reported_refuted.
(** Refuted: the first run is left out.  Only its first row is; a run writes one row for every number of samples. *)
Definition timed (b s : R) : string -> cell := cells [("build_time", Num b); ("check_time", Num 1); ("seed", Num s)].
Theorem first_run_left_out_refuted : exists r0 r1 r2 bm bs cm cs, r0 "seed" = r1 "seed" /\ r2 "seed" <> r0 "seed" /\
  fst (aggregate_main "a" None [("a_1", 5)] (one_dir [("out0.csv", mkFrame line_cols [r0; r1; r2])])) = Report bm bs cm cs /\
  ~ is_mean (nums [r2 "build_time"]) bm.
Proof.
  exists (timed 9 0), (timed 5 0), (timed 1 1).
  destruct (trial_tables_report "a" None [("a_1", 5)] (one_dir [("out0.csv", mkFrame line_cols [timed 9 0; timed 5 0; timed 1 1])]) "a_1" 5) as (bm & bs & cm & cs & E).
  - reflexivity.
  - cbn. discriminate.
  - intros f I. cbn in I. destruct I as [<-|[]]. split; [now right|]. split; intros r J; cbn in J; destruct J as [<-|[<-|[<-|[]]]]; discriminate.
  - exists bm, bs, cm, cs. split; [reflexivity|]. split; [cbn; intros X; injection X; lra|]. split; [exact E|].
    pose proof (report_exact "a" None [("a_1", 5)] (one_dir [("out0.csv", mkFrame line_cols [timed 9 0; timed 5 0; timed 1 1])]) "a_1" 5 eq_refl) as H. cbv zeta in H. rewrite E in H.
    destruct H as (_ & _ & _ & M & _). change (measured "build_time" (one_dir [("out0.csv", mkFrame line_cols [timed 9 0; timed 5 0; timed 1 1])] "a_1")) with [5; 1]%R in M.
    cbn [timed cells find fst snd String.eqb nums flat_map app] in *. intros K. destruct bm as [m|]; cbn in M, K; [|discriminate]. destruct M as [_ M], K as [_ K]. lra.
Qed.
Print Assumptions first_run_left_out_refuted.

Example stats_ex : is_mean [5; 1]%R (Some 3%R) /\ is_std [5; 1; 3]%R (Some 2%R) /\ is_std [5]%R None.
Proof.
  split; [|split].
  - split; [discriminate|]. unfold sum. cbn [List.length fold_right]. rewrite !S_INR. cbn. lra.
  - cbn [is_std]. split; [cbn; lia|]. split; [lra|]. unfold sum. cbn [List.length list_prod map app fold_right fst snd Nat.sub]. rewrite !S_INR. cbn [INR]. lra.
  - cbn. lia.
Qed.
(** text in one row of a file spoils the file, if a later row is not empty *)
Example text_raises_ex : spoils "build_time" (mkFrame narrow_cols [cells [("build_time", Text)]; timed 5 0]) /\ ~ spoils "build_time" (mkFrame narrow_cols [cells [("build_time", Text)]]).
Proof.
  split.
  - split; [cbn; tauto|]. split; [exists (cells [("build_time", Text)]); split; [now left|reflexivity]|]. exists (timed 5 0). split; [now left|discriminate].
  - intros (_ & _ & r & I & _). destruct I.
Qed.
Example no_directory_ex : aggregate_main "b" None [("a_1", 5)] (one_dir []) = (NoDirectory, one_dir []) /\ fst (aggregate_main "a" None [("a_1", 5)] (one_dir [])) = NoFiles.
Proof. split; reflexivity. Qed.
Example file_order_ex : forall f g : frame, @Permutation (string * frame) [("out0.csv", f); ("out1.csv", g)] [("out1.csv", g); ("out0.csv", f)].
Proof. intros. apply perm_swap. Qed.
