(** C159: the experiments that a job runs for its configuration *)
From Coq Require Import List Bool Arith ZArith QArith Lia String Ascii DecimalString DecimalZ Permutation.
From Verif Require Import Log_Model Sched_Model Sched_Props Submit_Model Submit_Props Job_Model.
Import ListNotations.
Open Scope string_scope.

(** ** Specification *)

(** the configuration has the value [v] under the key [k] *)
Definition has (config : dict) (k : string) (v : json) : Prop := dget k config = Some v.
Definition number (v : json) : Prop := match v with JInt _ | JFloat _ | JBool _ => True | _ => False end.
(** the keys that the scripts read *)
Definition required (k : kind) : list string :=
  match k with
  | Knn => ["dims_to_test"; "n_trials"; "delta"; "sample_schedule"; "neighbor_schedule"]
  | Line => ["dims_to_test"; "n_trials"; "delta"; "sample_schedule"; "n_samples_per_check_round"; "ed_check_timeout"; "area_tol"; "prm_max_k_neighbors"]
  | Narrow => ["deltas"; "radius_dims_to_test"; "knn_dims_to_test"; "n_trials"; "radius_sample_schedule"; "knn_sample_schedule"; "radius_prm_max_radius"; "knn_prm_max_neighbors"]
  end.

(** the i-th element of the products *)
Definition dim_exp (dims : list json) (n i : nat) (dim : json) (t : nat) : Prop :=
  (i < List.length dims * n)%nat /\ nth_error dims (i / n) = Some dim /\ t = (i mod n)%nat.
Definition narrow_exp (deltas rdims kdims : list json) (n i : nat) (type : prm_type) (clearance dim : json) (t : nat) : Prop :=
  let r := (List.length deltas * (List.length rdims * n))%nat in
  match type with
  | Radius => (i < r)%nat /\ nth_error deltas (i / (List.length rdims * n)) = Some clearance /\ dim_exp rdims n (i mod (List.length rdims * n)) dim t
  | Sched_Model.Knn => (r <= i)%nat /\ (i - r < List.length deltas * (List.length kdims * n))%nat /\
      nth_error deltas ((i - r) / (List.length kdims * n)) = Some clearance /\ dim_exp kdims n ((i - r) mod (List.length kdims * n)) dim t
  end.

(** the experiments that a configuration asks for, in order: type and clearance (narrow passage only),
    dimension and trial number *)
Definition experiment := (option (prm_type * json) * (json * nat))%type.
Definition asks (k : kind) (config : dict) (l : list experiment) : Prop :=
  match k with
  | Narrow => exists deltas rdims kdims n, has config "deltas" (JList deltas) /\ has config "radius_dims_to_test" (JList rdims) /\ has config "knn_dims_to_test" (JList kdims) /\
      Forall number rdims /\ Forall number kdims /\ has config "n_trials" (JInt (Z.of_nat n)) /\
      l = (map (fun x => (Some (Radius, fst x), snd x)) (list_prod deltas (list_prod rdims (seq 0 n))) ++
           map (fun x => (Some (Sched_Model.Knn, fst x), snd x)) (list_prod deltas (list_prod kdims (seq 0 n))))%list
  | _ => exists dims n, has config "dims_to_test" (JList dims) /\ Forall number dims /\ has config "n_trials" (JInt (Z.of_nat n)) /\
      l = map (fun x => (None, x)) (list_prod dims (seq 0 n))
  end.
Definition complete (k : kind) (config : dict) (l : list experiment) : Prop :=
  (forall key, In key (required k) -> exists v, has config key v) /\ asks k config l.
(** the experiment of a call and the number under which it is recorded *)
Definition exp_of (c : call * nat) : experiment :=
  match fst c with
  | KnnTrial _ dim _ _ _ => (None, (dim, snd c))
  | LineTrial _ dim _ _ _ _ _ _ => (None, (dim, snd c))
  | NarrowTrial cl dim _ _ ty _ => (Some (ty, cl), (dim, snd c))
  end.
(** the keys that are read for one experiment *)
Definition needs (k : kind) (x : experiment) : list string :=
  match k, fst x with
  | Knn, _ => ["delta"; "sample_schedule"; "neighbor_schedule"]
  | Line, _ => ["delta"; "sample_schedule"; "n_samples_per_check_round"; "ed_check_timeout"; "area_tol"; "prm_max_k_neighbors"]
  | Narrow, Some (Radius, _) => ["radius_sample_schedule"; "radius_prm_max_radius"]
  | Narrow, Some (Sched_Model.Knn, _) => ["knn_sample_schedule"; "knn_prm_max_neighbors"]
  | Narrow, None => []
  end.
Definition schedule_keys (k : kind) : list string :=
  match k with Narrow => ["deltas"; "radius_dims_to_test"; "knn_dims_to_test"; "n_trials"] | _ => ["dims_to_test"; "n_trials"] end.

(** ** Lists *)
Lemma nth_product2 {A B} (l : list A) (m : list B) : forall i,
  nth_error (product2 l m) i = if (i <? List.length l * List.length m)%nat
    then match nth_error l (i / List.length m), nth_error m (i mod List.length m) with Some a, Some b => Some (a, b) | _, _ => None end else None.
Proof.
  induction l as [|a l IH]; intros i; [destruct i; reflexivity|].
  change (product2 (a :: l) m) with (map (fun b => (a, b)) m ++ product2 l m)%list.
  destruct (Nat.ltb_spec i (List.length m)) as [L|G].
  - rewrite nth_error_app1 by (rewrite map_length; auto). rewrite Nat.div_small, Nat.mod_small by auto.
    replace (i <? List.length (a :: l) * List.length m)%nat with true by (symmetry; apply Nat.ltb_lt; cbn; lia).
    cbn [nth_error]. rewrite nth_error_map. destruct (nth_error m i); reflexivity.
  - rewrite nth_error_app2 by (rewrite map_length; auto). rewrite map_length, IH.
    destruct (Nat.eq_dec (List.length m) 0) as [Z|NZ].
    { rewrite Z, !Nat.mul_0_r. reflexivity. }
    assert (E : i = (i - List.length m) + 1 * List.length m) by lia.
    assert (DV : (i / List.length m)%nat = S ((i - List.length m) / List.length m)) by (rewrite E at 1; rewrite Nat.div_add by auto; lia).
    assert (MD : (i mod List.length m)%nat = ((i - List.length m) mod List.length m)%nat) by (rewrite E at 1; rewrite Nat.mod_add by auto; reflexivity).
    rewrite DV, MD. cbn [nth_error List.length].
    replace (i <? S (List.length l) * List.length m)%nat with (i - List.length m <? List.length l * List.length m)%nat; [reflexivity|].
    apply eq_true_iff_eq. rewrite !Nat.ltb_lt. cbn. lia.
Qed.
Lemma length_product2 {A B} (l : list A) (m : list B) : List.length (product2 l m) = (List.length l * List.length m)%nat.
Proof. induction l as [|a l IH]; [reflexivity|]. cbn. rewrite app_length, map_length. fold (product2 l m). rewrite IH. reflexivity. Qed.
Lemma dim_exp_nth dims n i dim t : nth_error (line_combos dims n) i = Some (dim, t) <-> dim_exp dims n i dim t.
Proof.
  unfold line_combos, dim_exp. rewrite nth_product2, seq_length.
  destruct (Nat.ltb_spec i (List.length dims * n)) as [L|G]; [|split; [discriminate|lia]].
  assert (N : n <> 0) by (intros ->; lia).
  assert (M : nth_error (seq 0 n) (i mod n) = Some (i mod n)).
  { pose proof (Nat.mod_upper_bound i n N) as U. rewrite (nth_error_nth' _ 0) by (rewrite seq_length; auto). rewrite seq_nth by auto. reflexivity. }
  rewrite M. destruct (nth_error dims (i / n)) as [d|]; split; try discriminate.
  - intros [= <- <-]. auto.
  - intros (_ & [= <-] & ->). reflexivity.
  - intros (_ & H & _). discriminate.
Qed.
Lemma narrow_exp_nth deltas rdims kdims n i type cl dim t :
  nth_error (narrow_combos deltas rdims kdims n) i = Some (type, (cl, (dim, t))) <-> narrow_exp deltas rdims kdims n i type cl dim t.
Proof.
  unfold narrow_combos. set (R := product2 deltas (product2 rdims (seq 0 n))). set (K := product2 deltas (product2 kdims (seq 0 n))).
  assert (Q : forall (ty : prm_type) (l : list (json * (json * nat))), product2 [ty] l = map (fun b => (ty, b)) l) by (intros; unfold product2; cbn; apply app_nil_r).
  rewrite !Q. assert (LR : List.length R = (List.length deltas * (List.length rdims * n))%nat) by (unfold R; rewrite !length_product2, seq_length; reflexivity).
  assert (P : forall dd j, nth_error (product2 deltas (product2 dd (seq 0 n))) j = Some (cl, (dim, t)) <->
    (j < List.length deltas * (List.length dd * n))%nat /\ nth_error deltas (j / (List.length dd * n)) = Some cl /\ dim_exp dd n (j mod (List.length dd * n)) dim t).
  { intros dd j. rewrite nth_product2, length_product2, seq_length. fold (line_combos dd n).
    destruct (Nat.ltb_spec j (List.length deltas * (List.length dd * n))) as [L|G]; [|split; [discriminate|lia]].
    rewrite <- dim_exp_nth. destruct (nth_error deltas _) as [x|]; [|split; [discriminate|intros (_ & H & _); discriminate]].
    destruct (nth_error (line_combos dd n) _) as [y|]; [|split; [discriminate|intros (_ & _ & H); discriminate]].
    split; [intros [= <- ->]; auto|intros (_ & [= <-] & [= ->]); reflexivity]. }
  destruct (Nat.ltb_spec i (List.length R)) as [L|G].
  - rewrite nth_error_app1 by (rewrite map_length; auto). rewrite nth_error_map. unfold narrow_exp. rewrite <- LR.
    destruct type.
    + rewrite LR, <- P. fold R. destruct (nth_error R i); cbn; split; congruence.
    + split; [destruct (nth_error R i); cbn; discriminate|lia].
  - rewrite nth_error_app2 by (rewrite map_length; auto). rewrite map_length, nth_error_map. unfold narrow_exp. rewrite <- LR.
    destruct type.
    + split; [destruct (nth_error K _); cbn; discriminate|lia].
    + rewrite <- P. fold K. split; [intros H; split; auto; destruct (nth_error K _); cbn in *; congruence|]. intros [_ H]. rewrite H. reflexivity.
Qed.

(** ** The loop *)
Section Loop.
Variable trial : call -> bool.
Hypothesis trials : forall c, trial c = true.
Lemma loop_ok {E} (body : E -> nat -> res (call * nat)) seeds : forall tasks k, (forall e s, In e tasks -> exists c, body e s = Ok c) ->
  snd (loop trial body seeds k tasks) = Finished /\
  forall i, match nth_error tasks i with
            | Some e => exists c, nth_error (fst (loop trial body seeds k tasks)) i = Some c /\ body e (seeds (k + i)%nat) = Ok c
            | None => nth_error (fst (loop trial body seeds k tasks)) i = None
            end.
Proof.
  induction tasks as [|e tasks IH]; intros k H; cbn [loop].
  - split; [reflexivity|]. intros [|i]; reflexivity.
  - destruct (H e (seeds k) (or_introl eq_refl)) as (c & B). rewrite B, trials. destruct (loop trial body seeds (S k) tasks) as [cs f] eqn:L.
    destruct (IH (S k)) as [F N]; [intros; apply H; now right|]. rewrite L in F, N. cbn [fst snd] in *. split; auto.
    intros [|i]; cbn [nth_error].
    + exists c. rewrite Nat.add_0_r. auto.
    + replace (k + S i)%nat with (S k + i)%nat by lia. apply N.
Qed.
End Loop.
Lemma loop_sound trial {E} (body : E -> nat -> res (call * nat)) seeds : forall tasks k c, In c (fst (loop trial body seeds k tasks)) ->
  exists e j, In e tasks /\ body e (seeds j) = Ok c.
Proof.
  induction tasks as [|e tasks IH]; intros k c; cbn [loop]; [intros []|].
  destruct (body e (seeds k)) as [c0|x] eqn:B; [|intros []].
  assert (Q : In c [c0] -> exists e0 j, In e0 (e :: tasks) /\ body e0 (seeds j) = Ok c) by (intros [<-|[]]; exists e, k; split; [now left|auto]).
  destruct (trial (fst c0)); [|exact Q]. destruct (loop trial body seeds (S k) tasks) as [cs f] eqn:L. cbn [fst]. intros [<-|I]; [apply Q; now left|].
  destruct (IH (S k) c) as (e0 & j & I0 & B0); [rewrite L; exact I|]. exists e0, j. split; [now right|auto].
Qed.
Lemma loop_fails trial {E} (body : E -> nat -> res (call * nat)) seeds : forall tasks k e, In e tasks -> (forall s, exists x, body e s = Err x) ->
  snd (loop trial body seeds k tasks) <> Finished.
Proof.
  induction tasks as [|e0 tasks IH]; [intros k e []|]; intros k e [I|I] H; cbn [loop].
  - subst e0. destruct (H (seeds k)) as (x & ->). discriminate.
  - destruct (body e0 (seeds k)); [|discriminate]. destruct (trial _); [|discriminate].
    destruct (loop trial body seeds (S k) tasks) as [cs f] eqn:L. cbn [snd]. pose proof (IH (S k) e I H) as Q. rewrite L in Q. exact Q.
Qed.
Lemma loop_ext trial {E} (b1 b2 : E -> nat -> res (call * nat)) seeds : (forall e s, b1 e s = b2 e s) -> forall tasks k, loop trial b1 seeds k tasks = loop trial b2 seeds k tasks.
Proof. intros H. induction tasks as [|e tasks IH]; intros k; [reflexivity|]. cbn [loop]. rewrite H. destruct (b2 e (seeds k)); [|reflexivity]. rewrite IH. reflexivity. Qed.

Section Props.
Variable trial : call -> bool.
Variable draw : Z -> nat -> nat.
Variable skip : string -> option nat.
Notation sched := (schedule trial draw skip).
Definition skipped (rank : nat) (save : string) : nat := match skip (join save ("out" ++ show (Z.of_nat rank) ++ ".csv")) with Some n => n | None => 0%nat end.

Lemma work_tasks {E} (body : E -> nat -> res (call * nat)) combos rank size save : (1 <= size)%nat ->
  work trial draw skip body combos (Z.of_nat rank) (Z.of_nat size) save = loop trial body (draw (Z.of_nat rank)) 0 (skipn (skipped rank save) (every size rank combos)).
Proof.
  intros S. unfold work, skipped. destruct (Z.eqb_spec (Z.of_nat size) 0); [lia|]. destruct (Z.ltb_spec (Z.of_nat rank) 0); [lia|]. destruct (Z.ltb_spec (Z.of_nat size) 0); [lia|].
  rewrite !Nat2Z.id. destruct (skip _); [reflexivity|]. rewrite skipn_O. reflexivity.
Qed.
Lemma nth_tasks {E} (combos : list E) rank size m k : (1 <= size)%nat -> nth_error (skipn m (every size rank combos)) k = nth_error combos (rank + (m + k) * size).
Proof.
  intros S. rewrite <- (slice_entries _ combos size rank (m + k)%nat S). clear. revert k. generalize (every size rank combos) as l. induction m as [|m IH]; intros l k; [reflexivity|].
  destruct l as [|x l]; [cbn; destruct k; reflexivity|]. cbn. apply IH.
Qed.
Hypothesis trials : forall c, trial c = true.
Lemma work_ok {E} (body : E -> nat -> res (call * nat)) combos rank size save : (1 <= size)%nat -> (forall e s, In e combos -> exists c, body e s = Ok c) ->
  let (cs, f) := work trial draw skip body combos (Z.of_nat rank) (Z.of_nat size) save in
  f = Finished /\ forall k c, nth_error cs k = Some c <-> exists e, nth_error combos (rank + (skipped rank save + k) * size) = Some e /\ body e (draw (Z.of_nat rank) k) = Ok c.
Proof.
  intros S H. rewrite work_tasks by auto. set (m := skipped rank save).
  destruct (loop_ok trial trials body (draw (Z.of_nat rank)) (skipn m (every size rank combos)) 0) as [F N].
  { intros e s I. apply H. apply In_nth_error in I as (j & I). rewrite nth_tasks in I by auto. eapply nth_error_In; eauto. }
  destruct (loop _ _ _ _ _) as [cs f]. cbn [fst snd] in *. split; auto. intros k c. specialize (N k). rewrite nth_tasks in N by auto.
  destruct (nth_error combos (rank + (m + k) * size)) as [e|].
  - destruct N as (c0 & N & B). cbn in B. rewrite N. split; [intros [= <-]; eauto|]. intros (e' & [= <-] & B'). congruence.
  - rewrite N. split; [discriminate|]. intros (e & H0 & _). discriminate.
Qed.
Lemma number_f v : number v -> percent_f v = Ok tt.
Proof. destruct v; cbn; tauto. Qed.

(** The straight-line script on a configuration with all its keys: process [rank] of [size] finishes,
    and its k-th trial is the experiment number rank + (skipped + k) * size of the product of the
    dimensions and the trial numbers, with the values of the configuration and the k-th draw. *)
Theorem line_job config dims n delta ss nc tm ar mk rank size save :
  has config "dims_to_test" (JList dims) -> Forall number dims -> has config "n_trials" (JInt (Z.of_nat n)) ->
  has config "delta" delta -> has config "sample_schedule" ss -> has config "n_samples_per_check_round" nc -> has config "ed_check_timeout" tm ->
  has config "area_tol" ar -> has config "prm_max_k_neighbors" mk -> (1 <= size)%nat ->
  let (cs, f) := sched Line config (Z.of_nat rank) (Z.of_nat size) save in
  f = Finished /\
  forall k c t, nth_error cs k = Some (c, t) <->
    exists dim, dim_exp dims n (rank + (skipped rank save + k) * size) dim t /\ c = LineTrial delta dim (draw (Z.of_nat rank) k) ss nc tm ar mk.
Proof.
  intros D ND N A1 A2 A3 A4 A5 A6 S. unfold has in *. unfold schedule, dim_combos, key. rewrite D, N. cbn [bind range iter]. rewrite Nat2Z.id.
  assert (B : forall e s, In e (line_combos dims n) -> line_body config e s = Ok (LineTrial delta (fst e) s ss nc tm ar mk, snd e)).
  { intros [dim t] s I. apply line_combos_exact in I as [I _]. unfold line_body, key. rewrite Forall_forall in ND. rewrite (number_f _ (ND _ I)), A1, A2, A3, A4, A5, A6. reflexivity. }
  pose proof (work_ok (line_body config) (line_combos dims n) rank size save S (fun e s I => ex_intro _ _ (B e s I))) as W.
  destruct (work _ _ _ _ _ _ _ _) as [cs f]. destruct W as [F W]. split; auto. intros k c t. rewrite W. split.
  - intros ([dim t'] & E & X). rewrite B in X by (eapply nth_error_In; eauto). injection X as <- <-. exists dim. split; [apply dim_exp_nth; auto|reflexivity].
  - intros (dim & E & ->). apply dim_exp_nth in E. exists (dim, t). split; auto. rewrite B by (eapply nth_error_In; eauto). reflexivity.
Qed.

(** The same for the knn script. *)
Theorem knn_job config dims n delta ss ns rank size save :
  has config "dims_to_test" (JList dims) -> Forall number dims -> has config "n_trials" (JInt (Z.of_nat n)) ->
  has config "delta" delta -> has config "sample_schedule" ss -> has config "neighbor_schedule" ns -> (1 <= size)%nat ->
  let (cs, f) := sched Knn config (Z.of_nat rank) (Z.of_nat size) save in
  f = Finished /\
  forall k c t, nth_error cs k = Some (c, t) <->
    exists dim, dim_exp dims n (rank + (skipped rank save + k) * size) dim t /\ c = KnnTrial delta dim (draw (Z.of_nat rank) k) ss ns.
Proof.
  intros D ND N A1 A2 A3 S. unfold has in *. unfold schedule, dim_combos, key. rewrite D, N. cbn [bind range iter]. rewrite Nat2Z.id.
  assert (B : forall e s, In e (line_combos dims n) -> knn_body config e s = Ok (KnnTrial delta (fst e) s ss ns, snd e)).
  { intros [dim t] s I. apply line_combos_exact in I as [I _]. unfold knn_body, key. rewrite Forall_forall in ND. rewrite (number_f _ (ND _ I)), A1, A2, A3. reflexivity. }
  pose proof (work_ok (knn_body config) (line_combos dims n) rank size save S (fun e s I => ex_intro _ _ (B e s I))) as W.
  destruct (work _ _ _ _ _ _ _ _) as [cs f]. destruct W as [F W]. split; auto. intros k c t. rewrite W. split.
  - intros ([dim t'] & E & X). rewrite B in X by (eapply nth_error_In; eauto). injection X as <- <-. exists dim. split; [apply dim_exp_nth; auto|reflexivity].
  - intros (dim & E & ->). apply dim_exp_nth in E. exists (dim, t). split; auto. rewrite B by (eapply nth_error_In; eauto). reflexivity.
Qed.

(** The same for the narrow-passage script, where the experiments with a radius come before those with
    a number of neighbours. *)
Theorem narrow_job config deltas rdims kdims n rs ks rm km rank size save :
  has config "deltas" (JList deltas) -> has config "radius_dims_to_test" (JList rdims) -> has config "knn_dims_to_test" (JList kdims) ->
  Forall number rdims -> Forall number kdims -> has config "n_trials" (JInt (Z.of_nat n)) ->
  has config "radius_sample_schedule" rs -> has config "knn_sample_schedule" ks -> has config "radius_prm_max_radius" rm -> has config "knn_prm_max_neighbors" km -> (1 <= size)%nat ->
  let (cs, f) := sched Narrow config (Z.of_nat rank) (Z.of_nat size) save in
  f = Finished /\
  forall k c t, nth_error cs k = Some (c, t) <->
    exists type clearance dim, narrow_exp deltas rdims kdims n (rank + (skipped rank save + k) * size) type clearance dim t /\
      c = match type with
          | Radius => NarrowTrial clearance dim (draw (Z.of_nat rank) k) rs Radius rm
          | Sched_Model.Knn => NarrowTrial clearance dim (draw (Z.of_nat rank) k) ks Sched_Model.Knn km
          end.
Proof.
  intros DL RD KD NR NK N A1 A2 A3 A4 S. unfold has in *. unfold schedule, type_combos, narrow_product, key. rewrite DL, RD, KD, N. cbn [bind range iter fst snd]. rewrite Nat2Z.id.
  assert (B : forall ty cl dim t s, In (ty, (cl, (dim, t))) (narrow_combos deltas rdims kdims n) -> narrow_body config (ty, (cl, (dim, t))) s =
     Ok (match ty with Radius => NarrowTrial cl dim s rs Radius rm | Sched_Model.Knn => NarrowTrial cl dim s ks Sched_Model.Knn km end, t)).
  { intros ty cl dim t s I. apply narrow_combos_exact in I as (_ & I & _). unfold narrow_body, key. rewrite Forall_forall in NR, NK.
    destruct ty; rewrite (number_f dim) by auto; cbn [bind]; rewrite ?A1, ?A2, ?A3, ?A4; reflexivity. }
  assert (W := work_ok (narrow_body config) (narrow_combos deltas rdims kdims n) rank size save S).
  destruct (work _ _ _ _ _ _ _ _) as [cs f]. destruct W as [F W]. { intros [ty [cl [dim t]]] s I. eexists. apply B, I. }
  split; auto. intros k c t. rewrite W. split.
  - intros ([ty [cl [dim t']]] & E & X). rewrite B in X by (eapply nth_error_In; eauto). injection X as <- <-. exists ty, cl, dim. split; [apply narrow_exp_nth; auto|reflexivity].
  - intros (ty & cl & dim & E & ->). apply narrow_exp_nth in E. exists (ty, (cl, (dim, t))). split; auto. rewrite B by (eapply nth_error_In; eauto). reflexivity.
Qed.

(** ** All processes together *)
Lemma list_prod_product2 {A B} (l : list A) (m : list B) : list_prod l m = product2 l m.
Proof. induction l as [|a l IH]; [reflexivity|]. cbn. rewrite IH. reflexivity. Qed.
Lemma loop_map {E X} (body : E -> nat -> res (call * nat)) (f : call * nat -> X) (g : E -> X) seeds : forall tasks k,
  (forall e s, In e tasks -> exists c, body e s = Ok c /\ f c = g e) ->
  map f (fst (loop trial body seeds k tasks)) = map g tasks /\ snd (loop trial body seeds k tasks) = Finished.
Proof.
  induction tasks as [|e tasks IH]; intros k H; [split; reflexivity|]. cbn [loop].
  destruct (H e (seeds k) (or_introl eq_refl)) as (c & B & F). rewrite B, trials.
  destruct (IH (S k)) as [M G]; [intros; apply H; now right|]. destruct (loop trial body seeds (S k) tasks) as [cs f']. cbn [fst snd map] in *. rewrite M, F. auto.
Qed.
Lemma work_cover {E} (body : E -> nat -> res (call * nat)) (g : E -> experiment) combos size save : (1 <= size)%nat ->
  (forall r, (r < size)%nat -> skipped r save = 0%nat) ->
  (forall e s, In e combos -> exists c, body e s = Ok c /\ exp_of c = g e) ->
  Permutation (flat_map (fun r => map exp_of (fst (work trial draw skip body combos (Z.of_nat r) (Z.of_nat size) save))) (seq 0 size)) (map g combos) /\
  forall r, snd (work trial draw skip body combos (Z.of_nat r) (Z.of_nat size) save) = Finished.
Proof.
  intros S N H.
  assert (L : forall r m e s, In e (skipn m (every size r combos)) -> exists c, body e s = Ok c /\ exp_of c = g e).
  { intros r m e s I. apply H. apply In_nth_error in I as (j & I). rewrite nth_tasks in I by auto. eapply nth_error_In; eauto. }
  split.
  - rewrite (flat_map_ext _ (fun r => map g (skipn (skipped r save) (every size r combos)))).
    2: { intros r. rewrite work_tasks by auto. apply loop_map. apply L. }
    apply perm_trans with (flat_map (fun r => map g (every size r combos)) (seq 0 size)).
    + assert (Q : forall l, (forall r, In r l -> (r < size)%nat) -> flat_map (fun r => map g (skipn (skipped r save) (every size r combos))) l = flat_map (fun r => map g (every size r combos)) l).
      { induction l as [|r l IH]; intros B; [reflexivity|]. cbn. rewrite N by (apply B; now left). rewrite IH by (intros; apply B; now right). reflexivity. }
      rewrite Q; [reflexivity|]. intros r I. apply in_seq in I. lia.
    + rewrite (flat_map_concat_map (fun r => map g (every size r combos))). rewrite <- (map_map (fun r => every size r combos) (map g)). rewrite <- concat_map. apply Permutation_map. rewrite <- flat_map_concat_map.
      apply every_partition. auto.
  - intros r. rewrite work_tasks by auto. apply (loop_map body exp_of g). apply L.
Qed.

(** A configuration with all the keys of the script: every process finishes, and the processes together
    run each experiment that the configuration asks for once. *)
Theorem job_covers k config l size save : complete k config l -> (1 <= size)%nat -> (forall r, (r < size)%nat -> skipped r save = 0%nat) ->
  Permutation (flat_map (fun r => map exp_of (fst (sched k config (Z.of_nat r) (Z.of_nat size) save))) (seq 0 size)) l /\
  forall r, snd (sched k config (Z.of_nat r) (Z.of_nat size) save) = Finished.
Proof.
  intros [R A] S N. unfold has in *. destruct k; cbn [asks required] in *; unfold schedule.
  - destruct A as (deltas & rdims & kdims & n & DL & RD & KD & NR & NK & T & ->). unfold has in *. unfold type_combos, narrow_product, key. rewrite DL, RD, KD, T. cbn [bind range iter fst snd]. rewrite Nat2Z.id.
    assert (G : map (fun e : prm_type * (json * (json * nat)) => (Some (fst e, fst (snd e)), snd (snd e))) (narrow_combos deltas rdims kdims n) =
      (map (fun x => (Some (Radius, fst x), snd x)) (list_prod deltas (list_prod rdims (seq 0 n))) ++ map (fun x => (Some (Sched_Model.Knn, fst x), snd x)) (list_prod deltas (list_prod kdims (seq 0 n))))%list).
    { unfold narrow_combos. rewrite !list_prod_product2. cbn [product2 flat_map]. rewrite !app_nil_r, map_app, !map_map. reflexivity. }
    rewrite <- G. apply work_cover; auto.
    intros [ty [cl [dim t]]] s I. apply narrow_combos_exact in I as (_ & I & _). rewrite Forall_forall in NR, NK.
    destruct (R "radius_sample_schedule") as (v1 & E1); [cbn; tauto|]. destruct (R "knn_sample_schedule") as (v2 & E2); [cbn; tauto|].
    destruct (R "radius_prm_max_radius") as (v3 & E3); [cbn; tauto|]. destruct (R "knn_prm_max_neighbors") as (v4 & E4); [cbn; tauto|].
    unfold narrow_body, key. destruct ty; rewrite (number_f dim) by auto; cbn [bind]; [rewrite E1, E3|rewrite E2, E4]; eexists; split; reflexivity.
  - destruct A as (dims & n & D & ND & T & ->). unfold has in *. unfold dim_combos, key. rewrite D, T. cbn [bind range iter]. rewrite Nat2Z.id, list_prod_product2. apply work_cover; auto.
    intros [dim t] s I. apply line_combos_exact in I as [I _]. rewrite Forall_forall in ND.
    destruct (R "delta") as (v1 & E1); [cbn; tauto|]. destruct (R "sample_schedule") as (v2 & E2); [cbn; tauto|]. destruct (R "n_samples_per_check_round") as (v3 & E3); [cbn; tauto|].
    destruct (R "ed_check_timeout") as (v4 & E4); [cbn; tauto|]. destruct (R "area_tol") as (v5 & E5); [cbn; tauto|]. destruct (R "prm_max_k_neighbors") as (v6 & E6); [cbn; tauto|].
    unfold line_body, key. rewrite (number_f dim) by auto. rewrite E1, E2, E3, E4, E5, E6. eexists. split; reflexivity.
  - destruct A as (dims & n & D & ND & T & ->). unfold has in *. unfold dim_combos, key. rewrite D, T. cbn [bind range iter]. rewrite Nat2Z.id, list_prod_product2. apply work_cover; auto.
    intros [dim t] s I. apply line_combos_exact in I as [I _]. rewrite Forall_forall in ND.
    destruct (R "delta") as (v1 & E1); [cbn; tauto|]. destruct (R "sample_schedule") as (v2 & E2); [cbn; tauto|]. destruct (R "neighbor_schedule") as (v3 & E3); [cbn; tauto|].
    unfold knn_body, key. rewrite (number_f dim) by auto. rewrite E1, E2, E3. eexists. split; reflexivity.
Qed.
End Props.
Print Assumptions line_job.
Print Assumptions knn_job.
Print Assumptions narrow_job.
Print Assumptions job_covers.

(** ** Keys *)
Lemma work_in trial draw skip {E} (body : E -> nat -> res (call * nat)) combos id num save c :
  In c (fst (work trial draw skip body combos id num save)) -> exists e j, body e (draw id j) = Ok c.
Proof.
  unfold work. destruct (num =? 0)%Z; [intros []|]. destruct (id <? 0)%Z; [intros []|]. intros I. apply loop_sound in I as (e & j & _ & B). eauto.
Qed.
Lemma bind_ok {A B} (x : res A) (f : A -> res B) b : bind x f = Ok b -> exists a, x = Ok a /\ f a = Ok b.
Proof. destruct x; [eauto|discriminate]. Qed.
Lemma key_ok config k v : key config k = Ok v -> has config k v.
Proof. unfold key, has. destruct (dget k config); [|discriminate]. now intros [= ->]. Qed.

(** Whatever the configuration holds and whatever happens: a trial is only called with the values that
    the configuration has under the keys of its script, and with a draw of its process. *)
Theorem call_values trial draw skip k config id num save c t : In (c, t) (fst (schedule trial draw skip k config id num save)) ->
  match c with
  | KnnTrial delta _ seed ss ns => k = Knn /\ has config "delta" delta /\ has config "sample_schedule" ss /\ has config "neighbor_schedule" ns /\ exists j, seed = draw id j
  | LineTrial delta _ seed ss nc tm ar mk => k = Line /\ has config "delta" delta /\ has config "sample_schedule" ss /\ has config "n_samples_per_check_round" nc /\
      has config "ed_check_timeout" tm /\ has config "area_tol" ar /\ has config "prm_max_k_neighbors" mk /\ exists j, seed = draw id j
  | NarrowTrial _ _ seed ss ty mc => k = Narrow /\ match ty with
      | Radius => has config "radius_sample_schedule" ss /\ has config "radius_prm_max_radius" mc
      | Sched_Model.Knn => has config "knn_sample_schedule" ss /\ has config "knn_prm_max_neighbors" mc end /\ exists j, seed = draw id j
  end.
Proof.
  unfold schedule. destruct k.
  - destruct (type_combos config) as [l|e]; [|intros []]. intros I. apply work_in in I as ([ty [cl [dim t']]] & j & B). unfold narrow_body in B.
    do 3 (apply bind_ok in B as (? & ? & B)). injection B as <- <-. destruct ty; repeat split; eauto using key_ok.
  - destruct (dim_combos config) as [l|e]; [|intros []]. intros I. apply work_in in I as ([dim t'] & j & B). unfold line_body in B.
    do 7 (apply bind_ok in B as (? & ? & B)). injection B as <- <-. repeat split; eauto using key_ok.
  - destruct (dim_combos config) as [l|e]; [|intros []]. intros I. apply work_in in I as ([dim t'] & j & B). unfold knn_body in B.
    do 4 (apply bind_ok in B as (? & ? & B)). injection B as <- <-. repeat split; eauto using key_ok.
Qed.
Print Assumptions call_values.

(** Without one of the keys that the product needs no trial is run and the script raises; without a key
    that one of the process's experiments needs it does not finish. *)
Theorem missing_key trial draw skip k config name : dget name config = None ->
  (forall id num save, In name (schedule_keys k) -> exists e, schedule trial draw skip k config id num save = ([], Raised e)) /\
  (forall rank size save l j x, (1 <= size)%nat -> asks k config l -> nth_error l (rank + (skipped skip rank save + j) * size) = Some x -> In name (needs k x) ->
    snd (schedule trial draw skip k config (Z.of_nat rank) (Z.of_nat size) save) <> Finished).
Proof.
  intros M. split.
  - intros id num save I. unfold schedule. destruct k; cbn in I.
    + assert (P : forall d, name = "deltas" \/ name = d \/ name = "n_trials" -> exists e, narrow_product config d = Err e).
      { intros d [E|[E|E]]; subst; unfold narrow_product, key; rewrite M; cbn [bind]; eauto; destruct (dget "deltas" config); cbn [bind]; eauto. destruct (dget d config); cbn [bind]; eauto. }
      assert (exists e, type_combos config = Err e) as (e & ->); [|eauto]. unfold type_combos.
      destruct I as [<-|[<-|[<-|[<-|[]]]]]; try (destruct (P "radius_dims_to_test") as (e & ->); [tauto|]; cbn [bind]; eauto; fail).
      destruct (narrow_product config "radius_dims_to_test"); cbn [bind]; eauto. destruct (P "knn_dims_to_test") as (e & ->); [tauto|]. cbn [bind]. eauto.
    + assert (exists e, dim_combos config = Err e) as (e & ->); [|eauto]. unfold dim_combos, key. destruct I as [<-|[<-|[]]]; rewrite M; cbn [bind]; eauto.
      destruct (dget "dims_to_test" config); cbn [bind]; eauto.
    + assert (exists e, dim_combos config = Err e) as (e & ->); [|eauto]. unfold dim_combos, key. destruct I as [<-|[<-|[]]]; rewrite M; cbn [bind]; eauto.
      destruct (dget "dims_to_test" config); cbn [bind]; eauto.
  - intros rank size save l j x S A X I.
    assert (F : forall {E} (body : E -> nat -> res (call * nat)) combos e, nth_error combos (rank + (skipped skip rank save + j) * size) = Some e -> (forall s, exists y, body e s = Err y) ->
      snd (work trial draw skip body combos (Z.of_nat rank) (Z.of_nat size) save) <> Finished).
    { intros E body combos e Ne B. rewrite work_tasks by auto. apply loop_fails with e; auto. rewrite <- nth_tasks in Ne by auto. eapply nth_error_In; eauto. }
    unfold schedule. destruct k; cbn [asks] in A.
    + destruct A as (deltas & rdims & kdims & n & DL & RD & KD & NR & NK & T & ->). unfold has in *. unfold type_combos, narrow_product, key. rewrite DL, RD, KD, T. cbn [bind range iter fst snd]. rewrite Nat2Z.id.
      assert (G : (map (fun x => (Some (Radius, fst x), snd x)) (list_prod deltas (list_prod rdims (seq 0 n))) ++ map (fun x => (Some (Sched_Model.Knn, fst x), snd x)) (list_prod deltas (list_prod kdims (seq 0 n))))%list =
         map (fun e : prm_type * (json * (json * nat)) => (Some (fst e, fst (snd e)), snd (snd e))) (narrow_combos deltas rdims kdims n)).
      { unfold narrow_combos. rewrite !list_prod_product2. cbn [product2 flat_map]. rewrite !app_nil_r, map_app, !map_map. reflexivity. }
      rewrite G, nth_error_map in X. destruct (nth_error (narrow_combos deltas rdims kdims n) _) as [[ty [cl [dim t]]]|] eqn:Q; [|discriminate]. injection X as <-.
      apply F with (ty, (cl, (dim, t))); auto. intros s. unfold narrow_body, key. destruct (percent_f dim); cbn [bind]; eauto.
      destruct ty; cbn in I; destruct I as [<-|[<-|[]]]; rewrite M; cbn [bind]; eauto; match goal with |- exists y, bind (match dget ?z config with _ => _ end) _ = Err y => destruct (dget z config) end; cbn [bind]; eauto.
    + destruct A as (dims & n & D & ND & T & ->). unfold has in *. unfold dim_combos, key. rewrite D, T. cbn [bind range iter]. rewrite Nat2Z.id.
      rewrite list_prod_product2, nth_error_map in X. fold (line_combos dims n) in X. destruct (nth_error (line_combos dims n) _) as [[dim t]|] eqn:Q; [|discriminate]. injection X as <-.
      apply F with (dim, t); auto. intros s. unfold line_body, key. destruct (percent_f dim); cbn [bind]; eauto.
      cbn in I. repeat (destruct I as [<-|I]; [rewrite M; cbn [bind]; repeat (match goal with |- exists y, bind (match dget ?z config with _ => _ end) _ = Err y => destruct (dget z config) end; cbn [bind]; eauto); eauto|]). destruct I.
    + destruct A as (dims & n & D & ND & T & ->). unfold has in *. unfold dim_combos, key. rewrite D, T. cbn [bind range iter]. rewrite Nat2Z.id.
      rewrite list_prod_product2, nth_error_map in X. fold (line_combos dims n) in X. destruct (nth_error (line_combos dims n) _) as [[dim t]|] eqn:Q; [|discriminate]. injection X as <-.
      apply F with (dim, t); auto. intros s. unfold knn_body, key. destruct (percent_f dim); cbn [bind]; eauto.
      cbn in I. repeat (destruct I as [<-|I]; [rewrite M; cbn [bind]; repeat (match goal with |- exists y, bind (match dget ?z config with _ => _ end) _ = Err y => destruct (dget z config) end; cbn [bind]; eauto); eauto|]). destruct I.
Qed.
Print Assumptions missing_key.

(** Other keys do not matter. *)
Theorem other_keys trial draw skip k c1 c2 id num save : (forall name, In name (required k) -> dget name c1 = dget name c2) ->
  schedule trial draw skip k c1 id num save = schedule trial draw skip k c2 id num save.
Proof.
  intros H.
  assert (W : forall {E} (b1 b2 : E -> nat -> res (call * nat)) l, (forall e s, b1 e s = b2 e s) -> work trial draw skip b1 l id num save = work trial draw skip b2 l id num save).
  { intros E b1 b2 l Eq. unfold work. destruct (num =? 0)%Z; auto. destruct (id <? 0)%Z; auto. apply loop_ext. exact Eq. }
  destruct k; cbn [schedule]; cbn [required] in H.
  - assert (T : type_combos c1 = type_combos c2) by (unfold type_combos, narrow_product, key; rewrite !H by (cbn; tauto); reflexivity). rewrite T.
    destruct (type_combos c2); auto. apply W. intros [ty [cl [dim t]]] s. unfold narrow_body, key. destruct ty; rewrite !H by (cbn; tauto); reflexivity.
  - assert (T : dim_combos c1 = dim_combos c2) by (unfold dim_combos, key; rewrite !H by (cbn; tauto); reflexivity). rewrite T.
    destruct (dim_combos c2); auto. apply W. intros [dim t] s. unfold line_body, key. rewrite !H by (cbn; tauto). reflexivity.
  - assert (T : dim_combos c1 = dim_combos c2) by (unfold dim_combos, key; rewrite !H by (cbn; tauto); reflexivity). rewrite T.
    destruct (dim_combos c2); auto. apply W. intros [dim t] s. unfold knn_body, key. rewrite !H by (cbn; tauto). reflexivity.
Qed.
Print Assumptions other_keys.

(** ** The configurations in exps/config *)
Definition ints (l : list Z) : json := JList (map JInt l).
Definition shipped : list (string * kind * dict) := [
  ("knn_small_test_run.json", Knn, [("delta", JFloat (1 # 2)); ("dims_to_test", ints [2; 3]); ("sample_schedule", ints [100; 1000]); ("neighbor_schedule", ints [32; 64; 128]); ("n_trials", JInt 5)]);
  ("line_hang_debug.json", Line, [("delta", JFloat (1 # 2)); ("sample_schedule", ints [1000; 10000; 100000]); ("dims_to_test", ints [10; 20]); ("n_samples_per_check_round", JInt 100); ("ed_check_timeout", JFloat 60); ("area_tol", JFloat (1 # 100000000)); ("prm_max_k_neighbors", JInt 4096); ("n_trials", JInt 5)]);
  ("line_medium_large_run.json", Line, [("delta", JFloat (1 # 2)); ("sample_schedule", ints [100; 1000; 10000; 100000]); ("dims_to_test", ints [3; 6; 7; 10; 20]); ("n_samples_per_check_round", JInt 100); ("ed_check_timeout", JFloat 60); ("area_tol", JFloat (1 # 100000000)); ("prm_max_k_neighbors", JInt 4096); ("n_trials", JInt 100)]);
  ("line_medium_run.json", Line, [("delta", JFloat (1 # 2)); ("sample_schedule", ints [100; 1000; 10000]); ("dims_to_test", ints [2; 3; 6; 7; 10; 23]); ("n_samples_per_check_round", JInt 100); ("ed_check_timeout", JFloat 60); ("area_tol", JFloat (1 # 100000000)); ("prm_max_k_neighbors", JInt 2048); ("n_trials", JInt 100)]);
  ("line_micro_test_run.json", Line, [("delta", JFloat (1 # 2)); ("sample_schedule", ints [10; 100]); ("dims_to_test", ints [2; 3]); ("n_samples_per_check_round", JInt 100); ("ed_check_timeout", JFloat 60); ("area_tol", JFloat (1 # 100000000)); ("prm_max_k_neighbors", JInt 4); ("n_trials", JInt 5)]);
  ("line_small_test_run.json", Line, [("delta", JFloat (1 # 2)); ("sample_schedule", ints [10; 100; 1000]); ("dims_to_test", ints [2; 3]); ("n_samples_per_check_round", JInt 100); ("ed_check_timeout", JFloat 60); ("area_tol", JFloat (1 # 100000000)); ("prm_max_k_neighbors", JInt 16); ("n_trials", JInt 5)]);
  ("line_triples_tune_run.json", Line, [("delta", JFloat (1 # 2)); ("sample_schedule", ints [1000000]); ("dims_to_test", ints [10]); ("n_samples_per_check_round", JInt 100); ("ed_check_timeout", JFloat 300); ("area_tol", JFloat (1 # 100000000)); ("prm_max_k_neighbors", JInt 256); ("n_trials", JInt 48)]);
  ("narrow_full_run.json", Narrow, [("deltas", JList [JFloat (499 # 1000); JFloat (1 # 4); JFloat (1 # 8); JFloat (1 # 16)]); ("radius_dims_to_test", ints [2; 3; 4; 5; 6]); ("radius_sample_schedule", ints [100; 1000]); ("radius_prm_max_radius", JFloat 1); ("knn_dims_to_test", ints [2; 3; 6; 7; 10; 14; 20]); ("knn_sample_schedule", ints [1000; 10000; 100000; 1000000]); ("knn_prm_max_neighbors", JInt 254); ("n_trials", JInt 100)]);
  ("narrow_micro_test_run.json", Narrow, [("deltas", JList [JFloat (1 # 10); JFloat (1 # 5)]); ("radius_sample_schedule", ints [10; 100]); ("knn_sample_schedule", ints [100; 1000]); ("dims_to_test", ints [2; 3]); ("knn_prm_max_neighbors", JInt 8); ("radius_prm_max_radius", JFloat (1 # 2)); ("n_trials", JInt 5)])
]%Z.

(** Every file but one asks for experiments and has all the keys for them, so that [job_covers] applies. *)
Theorem shipped_complete name k config : In (name, k, config) shipped -> name <> "narrow_micro_test_run.json" -> exists l, complete k config l /\ l <> [].
Proof.
  intros I N. cbn [shipped In] in I.
  assert (Q : forall zs, Forall number (map JInt zs)) by (induction zs; cbn; constructor; cbn; auto).
  assert (KEYS : forall names, (forallb (fun s => match dget s config with Some _ => true | None => false end) names = true) -> forall s, In s names -> exists v, has config s v).
  { intros names H s Is. rewrite forallb_forall in H. specialize (H s Is). unfold has. destruct (dget s config); [eauto|discriminate]. }
  assert (T : forall n, Z.of_nat (Z.to_nat n) = n \/ (n < 0)%Z) by lia.
  repeat match type of I with _ \/ _ => destruct I as [I|I] end; try contradiction; injection I as <- <- <-.
  all: try (exfalso; apply N; reflexivity).
  1: exists (map (fun x => (None, x)) (list_prod (map JInt [2; 3]%Z) (seq 0 5))).
  2: exists (map (fun x => (None, x)) (list_prod (map JInt [10; 20]%Z) (seq 0 5))).
  3: exists (map (fun x => (None, x)) (list_prod (map JInt [3; 6; 7; 10; 20]%Z) (seq 0 100))).
  4: exists (map (fun x => (None, x)) (list_prod (map JInt [2; 3; 6; 7; 10; 23]%Z) (seq 0 100))).
  5: exists (map (fun x => (None, x)) (list_prod (map JInt [2; 3]%Z) (seq 0 5))).
  6: exists (map (fun x => (None, x)) (list_prod (map JInt [2; 3]%Z) (seq 0 5))).
  7: exists (map (fun x => (None, x)) (list_prod (map JInt [10]%Z) (seq 0 48))).
  1-7: split; [split; [apply KEYS; reflexivity|]|discriminate]; eexists; eexists; split; [reflexivity|]; split; [apply Q|]; split; [|reflexivity]; reflexivity.
  eexists. split; [split; [apply KEYS; reflexivity|]|].
  - exists [JFloat (499 # 1000); JFloat (1 # 4); JFloat (1 # 8); JFloat (1 # 16)], (map JInt [2; 3; 4; 5; 6]%Z), (map JInt [2; 3; 6; 7; 10; 14; 20]%Z), 100%nat.
    repeat (split; [reflexivity || apply Q|]). reflexivity.
  - discriminate.
Qed.
Print Assumptions shipped_complete.

(** The remaining one still has the key of an older version of its script, so that no process of its job
    runs any trial. *)
Theorem shipped_all_refuted : exists name k config, In (name, k, config) shipped /\ forall trial draw skip id num save, schedule trial draw skip k config id num save = ([], Raised NoKey).
Proof.
  exists "narrow_micro_test_run.json", Narrow. eexists. split; [do 8 right; left; reflexivity|]. intros. reflexivity.
Qed.
Print Assumptions shipped_all_refuted.

(** ** From the submission to the processes *)
Lemma more_show n d : forall acc, more_digits (Zpos acc) n (NilEmpty.string_of_uint d) = (Zpos (Pos.of_uint_acc d acc), (n + Decimal.nb_digits d)%nat, "").
Proof.
  revert n. induction d; intros k acc; cbn [NilEmpty.string_of_uint more_digits Decimal.nb_digits Pos.of_uint_acc]; [rewrite Nat.add_0_r; reflexivity|..].
  all: match goal with |- context [digit ?c] => let v := eval compute in (digit c) in change (digit c) with v end; cbn iota beta.
  all: match goal with |- more_digits ?v _ _ = (Zpos (Pos.of_uint_acc _ ?a), _, _) => replace v with (Zpos a) by lia end; rewrite IHd; f_equal; f_equal; lia.
Qed.
Lemma more_show0 d : forall n, more_digits 0 n (NilEmpty.string_of_uint d) = (Z.of_N (Pos.of_uint d), (n + Decimal.nb_digits d)%nat, "").
Proof.
  induction d; intros k; cbn [NilEmpty.string_of_uint more_digits Decimal.nb_digits Pos.of_uint]; [rewrite Nat.add_0_r; reflexivity|..].
  all: match goal with |- context [digit ?c] => let v := eval compute in (digit c) in change (digit c) with v end; cbn iota beta.
  1: { change (10 * 0 + 0)%Z with 0%Z. rewrite IHd. f_equal. f_equal. lia. }
  all: match goal with |- more_digits ?v _ _ = _ => let w := eval compute in v in change v with w end; rewrite more_show; f_equal; f_equal; lia.
Qed.
Lemma show_digits n : exists d, show (Z.of_nat n) = NilEmpty.string_of_uint d /\ d <> Decimal.Nil /\ Z.of_N (Pos.of_uint d) = Z.of_nat n.
Proof.
  unfold show. destruct n as [|n]; [exists (Decimal.D0 Decimal.Nil); repeat split; discriminate|].
  pose proof (of_to (Z.of_nat (S n))) as O. cbn [Z.of_nat Z.to_int] in *. set (p := Pos.of_succ_nat n) in *.
  cbn [NilZero.string_of_int]. exists (Pos.to_uint p).
  assert (N : Pos.to_uint p <> Decimal.Nil). { intros E. rewrite E in O. discriminate. }
  split; [|split; auto].
  destruct (Pos.to_uint p); [congruence|reflexivity..].
Qed.
Lemma strip_digits d : strip (NilEmpty.string_of_uint d) = NilEmpty.string_of_uint d.
Proof.
  assert (R : rstrip (NilEmpty.string_of_uint d) = NilEmpty.string_of_uint d).
  { induction d; cbn [NilEmpty.string_of_uint rstrip]; auto; rewrite IHd; destruct (NilEmpty.string_of_uint d); reflexivity. }
  unfold strip. destruct d; cbn [NilEmpty.string_of_uint lstrip]; auto; exact R.
Qed.
Lemma int_show n : py_int (show (Z.of_nat n)) = Some (Z.of_nat n).
Proof.
  destruct (show_digits n) as (d & -> & N & V). unfold py_int. rewrite strip_digits.
  assert (S : sign (NilEmpty.string_of_uint d) = (false, NilEmpty.string_of_uint d)) by (destruct d; reflexivity). rewrite S.
  assert (D : digits (NilEmpty.string_of_uint d) = Some (Z.of_nat n, Decimal.nb_digits d, "")).
  { rewrite <- V. destruct d; [congruence|..]; cbn [NilEmpty.string_of_uint digits];
      (match goal with |- context [digit ?c] => let v := eval compute in (digit c) in change (digit c) with v end); cbn iota beta; rewrite ?more_show0, ?more_show; reflexivity. }
  rewrite D. reflexivity.
Qed.

(** what the shell makes of a word of the job script in process [rank] of [size] *)
Definition expand (rank size : nat) (w : string) : string :=
  if String.eqb w "$LLSUB_RANK" then show (Z.of_nat rank) else if String.eqb w "$LLSUB_SIZE" then show (Z.of_nat size) else w.
(** sys.argv of the trial script: what follows "python -u" *)
Definition argv (rank size : nat) (line : string) : list string := map (expand rank size) (skipn 2 (words line)).

(** The experiment that was asked for is the one that is run: when a job is submitted for a complete
    configuration and the cluster starts [size] processes for its script, they finish and run together
    each experiment of the given file once. *)
Theorem submitted_experiment trial draw skip k name cfg t stamp time st config l size : (forall c, trial c = true) ->
  plain name -> plain stamp -> has_results st = true -> ~ taken name stamp st -> files st cfg = Some (Json config) -> complete k config l -> (1 <= size)%nat ->
  let dir := "./results/" ++ name ++ "_" ++ stamp in
  (forall r, (r < size)%nat -> skip (join dir ("out" ++ show (Z.of_nat r) ++ ".csv")) = None) ->
  exists st' text, submit (Args k name cfg t false) stamp time st = (Done, [Chmod (dir ++ "/submit_job.sh"); LLsub (dir ++ "/submit_job.sh") (triples_text t)], st') /\
    files st' (dir ++ "/submit_job.sh") = Some (Text text) /\
    let run r := run_job trial draw skip k (files st') (argv r size (last_line text)) in
    Permutation (flat_map (fun r => map exp_of (fst (run r))) (seq 0 size)) l /\ (forall r, snd (run r) = Finished) /\
    (forall r, run r = schedule trial draw skip k config (Z.of_nat r) (Z.of_nat size) dir).
Proof.
  intros TR PN PS HR NT FC CO S dir NS.
  destruct (submit_runs k name cfg t stamp time st config PN PS HR NT FC) as (st' & E & (text & FT & W) & (config' & F' & _ & _ & K) & _). fold dir in E, FT, W, F'.
  exists st', text. split; [exact E|]. split; [exact FT|]. intro run.
  assert (RUN : forall r, run r = schedule trial draw skip k config (Z.of_nat r) (Z.of_nat size) dir).
  { intros r. unfold run, argv. rewrite W. unfold job. cbn [skipn map].
    set (scr := expand r size (match k with Narrow => _ | _ => _ end)).
    assert (X : forall s, expand r size ("./results/" ++ s) = "./results/" ++ s) by (intros s; unfold expand; reflexivity).
    assert (D1 : expand r size dir = dir) by apply X.
    assert (D2 : expand r size (dir ++ "/config.json") = dir ++ "/config.json") by (unfold dir; rewrite !app_assoc_s; apply X).
    rewrite D1, D2. change (expand r size "$LLSUB_RANK") with (show (Z.of_nat r)). change (expand r size "$LLSUB_SIZE") with (show (Z.of_nat size)).
    unfold run_job, arguments, int_arg, arg. cbn [nth_error bind]. rewrite !int_show. cbn [bind]. rewrite F'.
    apply other_keys. intros key I. apply K; intros ->; destruct k; cbn in I; intuition discriminate. }
  destruct (job_covers trial draw skip TR k config l size dir CO S) as [P F].
  { intros r L. unfold skipped. rewrite NS by auto. reflexivity. }
  split; [|split; [|exact RUN]].
  - rewrite (flat_map_ext _ (fun r => map exp_of (fst (schedule trial draw skip k config (Z.of_nat r) (Z.of_nat size) dir)))); [exact P|]. intros r. rewrite RUN. reflexivity.
  - intros r. rewrite RUN. apply F.
Qed.
Print Assumptions submitted_experiment.

(** ** Examples *)
Definition all_return (c : call) : bool := true.
Definition no_file (p : string) : option nat := None.
(** process 1 of 4 of the small knn run: the experiments 1, 5 and 9 of ten *)
Example knn_example : fst (schedule all_return (fun _ k => k) no_file Knn [("delta", JFloat (1 # 2)); ("dims_to_test", ints [2; 3]); ("sample_schedule", ints [100; 1000]); ("neighbor_schedule", ints [32; 64; 128]); ("n_trials", JInt 5)]%Z 1 4 "d") =
  [(KnnTrial (JFloat (1 # 2)) (JInt 2) 0 (ints [100; 1000]%Z) (ints [32; 64; 128]%Z), 1); (KnnTrial (JFloat (1 # 2)) (JInt 3) 1 (ints [100; 1000]%Z) (ints [32; 64; 128]%Z), 0);
   (KnnTrial (JFloat (1 # 2)) (JInt 3) 2 (ints [100; 1000]%Z) (ints [32; 64; 128]%Z), 4)].
Proof. reflexivity. Qed.
(** with a result file of one row, process 1 goes on with experiment 5; a dimension that is no number ends the loop *)
Example skip_example : map exp_of (fst (schedule all_return (fun _ k => k) (fun p => if String.eqb p "d/out1.csv" then Some 1 else None) Knn
   [("delta", JInt 1); ("dims_to_test", JList [JInt 2; JInt 3; JStr "x"]); ("sample_schedule", ints [10]); ("neighbor_schedule", ints [3]); ("n_trials", JInt 5)]%Z 1 4 "d")) = [(None, (JInt 3, 0)); (None, (JInt 3, 4))] /\
  snd (schedule all_return (fun _ k => k) no_file Knn
   [("delta", JInt 1); ("dims_to_test", JList [JInt 2; JInt 3; JStr "x"]); ("sample_schedule", ints [10]); ("neighbor_schedule", ints [3]); ("n_trials", JInt 5)]%Z 1 4 "d") = Raised BadType.
Proof. split; reflexivity. Qed.
(** the hypotheses of [submitted_experiment] hold for the store of [submit_example] with a shipped file *)
Example submitted_example : exists st' text, let st := Store true [] (fun p => if String.eqb p "config/knn.json" then Some (Json [("delta", JFloat (1 # 2)); ("dims_to_test", ints [2; 3]%Z); ("sample_schedule", ints [100; 1000]%Z); ("neighbor_schedule", ints [32; 64; 128]%Z); ("n_trials", JInt 5)]) else None) in
  let dir := "./results/knn_20240101-120000" in
  submit (Args Knn "knn" "config/knn.json" (1, 2, 4)%Z false) "20240101-120000" 7 st = (Done, [Chmod (dir ++ "/submit_job.sh"); LLsub (dir ++ "/submit_job.sh") "[1,2,4]"], st') /\
  files st' (dir ++ "/submit_job.sh") = Some (Text text) /\
  Permutation (flat_map (fun r => map exp_of (fst (run_job all_return (fun _ k => k) no_file Knn (files st') (argv r 2 (last_line text))))) (seq 0 2))
    (map (fun x => (None, x)) (list_prod [JInt 2; JInt 3] (seq 0 5))).
Proof.
  destruct (submitted_experiment all_return (fun _ k => k) no_file Knn "knn" "config/knn.json" (1, 2, 4)%Z "20240101-120000" 7
    (Store true [] (fun p => if String.eqb p "config/knn.json" then Some (Json [("delta", JFloat (1 # 2)); ("dims_to_test", ints [2; 3]%Z); ("sample_schedule", ints [100; 1000]%Z); ("neighbor_schedule", ints [32; 64; 128]%Z); ("n_trials", JInt 5)]) else None))
    [("delta", JFloat (1 # 2)); ("dims_to_test", ints [2; 3]%Z); ("sample_schedule", ints [100; 1000]%Z); ("neighbor_schedule", ints [32; 64; 128]%Z); ("n_trials", JInt 5)]
    (map (fun x => (None, x)) (list_prod [JInt 2; JInt 3] (seq 0 5))) 2) as (st' & text & E & F & P & _); try reflexivity; try (split; reflexivity); auto.
  - split.
    + intros key I. unfold has. cbn in I. repeat (destruct I as [<-|I]; [eexists; reflexivity|]). destruct I.
    + exists [JInt 2; JInt 3], 5. split; [reflexivity|]. split; [repeat constructor|]. split; reflexivity.
  - exists st', text. split; [exact E|]. split; [exact F|exact P].
Qed.
