(** C159: what a job does with any configuration, task number and number of tasks *)
From Coq Require Import List Bool Arith ZArith QArith Lia String Ascii.
From Verif Require Import Log_Model Sched_Model Sched_Props Submit_Model Submit_Props Job_Model Job_Props.
Import ListNotations.
Open Scope string_scope.

(** ** Specification *)

(** what is taken from a value one after the other: the entries of a list, the characters of a text, the
    keys of an object *)
Inductive elements : json -> list json -> Prop :=
| of_list l : elements (JList l) l
| of_text cs : Forall (fun c => String.length c = 1%nat) cs -> elements (JStr (String.concat "" cs)) (map JStr cs)
| of_object d : elements (JObj d) (map JStr (map fst d)).
(** how many numbers are counted *)
Inductive times : json -> nat -> Prop :=
| of_number n : times (JInt (Z.of_nat n)) n
| of_negative z : (z < 0)%Z -> times (JInt z) 0
| of_truth (b : bool) : times (JBool b) (if b then 1 else 0).
(** the experiments of any configuration; [asks] of Job_Props is the case of lists of numbers *)
Definition planned (k : kind) (config : dict) (l : list experiment) : Prop :=
  match k with
  | Narrow => exists dl rd kd t deltas rdims kdims n, has config "deltas" dl /\ has config "radius_dims_to_test" rd /\ has config "knn_dims_to_test" kd /\ has config "n_trials" t /\
      elements dl deltas /\ elements rd rdims /\ elements kd kdims /\ times t n /\
      l = (map (fun x => (Some (Radius, fst x), snd x)) (list_prod deltas (list_prod rdims (seq 0 n))) ++
           map (fun x => (Some (Sched_Model.Knn, fst x), snd x)) (list_prod deltas (list_prod kdims (seq 0 n))))%list
  | _ => exists d t dims n, has config "dims_to_test" d /\ has config "n_trials" t /\ elements d dims /\ times t n /\
      l = map (fun x => (None, x)) (list_prod dims (seq 0 n))
  end.
Definition dim_of (x : experiment) : json := fst (snd x).
Definition seed_of (c : call) : nat := match c with KnnTrial _ _ s _ _ => s | LineTrial _ _ s _ _ _ _ _ => s | NarrowTrial _ _ s _ _ _ => s end.
Definition runnable (k : kind) (config : dict) (x : experiment) : Prop := number (dim_of x) /\ forall key, In key (needs k x) -> exists v, has config key v.
(** the file [name] in the directory [dir] *)
Definition in_directory (dir name path : string) : Prop :=
  (dir = "" /\ path = name) \/ (exists d, dir = d ++ "/" /\ path = d ++ "/" ++ name) \/ (dir <> "" /\ ~ (exists d, dir = d ++ "/") /\ path = dir ++ "/" ++ name).

(** ** Values *)
Lemma concat_one c cs : String.concat "" (c :: cs) = c ++ String.concat "" cs.
Proof. destruct cs; cbn; [|reflexivity]. induction c; cbn; congruence. Qed.
Lemma chars_elements s : elements (JStr s) (chars s).
Proof.
  assert (H : exists cs, Forall (fun c => String.length c = 1%nat) cs /\ String.concat "" cs = s /\ map JStr cs = chars s).
  { induction s as [|c s (cs & F & C & M)]; [exists []; repeat split; auto|].
    exists (String c "" :: cs). rewrite concat_one, C. cbn [map chars]. rewrite M. repeat split; auto. }
  destruct H as (cs & F & <- & <-). now constructor.
Qed.
Lemma chars_concat cs : Forall (fun c => String.length c = 1%nat) cs -> chars (String.concat "" cs) = map JStr cs.
Proof.
  induction 1 as [|c cs H F IH]; [reflexivity|]. rewrite concat_one. destruct c as [|a [|? ?]]; try discriminate H. cbn [String.append chars map]. now rewrite IH.
Qed.
Lemma iter_exact v l : iter v = Ok l <-> elements v l.
Proof.
  split.
  - destruct v; cbn; try discriminate; intros [= <-]; [apply chars_elements|constructor|]. rewrite <- (map_map fst JStr). constructor.
  - intros []; cbn; [reflexivity| |]; f_equal; [now apply chars_concat|]. now rewrite map_map.
Qed.
Lemma iter_err v e : iter v = Err e -> e = BadType /\ forall l, ~ elements v l.
Proof. intros H. split; [destruct v; cbn in H; congruence|]. intros l I. apply iter_exact in I. congruence. Qed.
Lemma range_exact v n : range v = Ok n <-> times v n.
Proof.
  split.
  - destruct v; cbn; try discriminate; intros [= <-]; [|constructor]. destruct (Z.ltb_spec z 0).
    + replace (Z.to_nat z) with 0%nat by lia. now constructor.
    + rewrite <- (Z2Nat.id z) at 1 by lia. constructor.
  - intros []; cbn; [now rewrite Nat2Z.id| |reflexivity]. f_equal. lia.
Qed.
Lemma range_err v e : range v = Err e -> e = BadType /\ forall n, ~ times v n.
Proof. intros H. split; [destruct v; cbn in H; congruence|]. intros n I. apply range_exact in I. congruence. Qed.
Lemma key_err config k e : key config k = Err e -> e = NoKey /\ forall v, ~ has config k v.
Proof. unfold key, has. destruct (dget k config); [discriminate|]. intros [= <-]. split; auto. discriminate. Qed.
Lemma key_has config k v : has config k v -> key config k = Ok v.
Proof. unfold key, has. now intros ->. Qed.
Lemma percent_exact v : match percent_f v with Ok _ => number v | Err e => e = BadType /\ ~ number v end.
Proof. destruct v; cbn; auto. Qed.

(** ** The loop *)
Section Body.
Variables (trial : call -> bool) (k : kind) (config : dict).
Context {E : Type} (body : E -> nat -> res (call * nat)) (ex : E -> experiment).
Hypothesis body_exact : forall e s, match body e s with
  | Ok c => runnable k config (ex e) /\ exp_of c = ex e /\ seed_of (fst c) = s
  | Err x => (x = BadType /\ ~ number (dim_of (ex e))) \/ (x = NoKey /\ number (dim_of (ex e)) /\ exists key, In key (needs k (ex e)) /\ forall v, ~ has config key v)
  end.

Lemma loop_exact seeds : forall tasks j, let (cs, f) := loop trial body seeds j tasks in
  (forall i c, nth_error cs i = Some c -> nth_error (map ex tasks) i = Some (exp_of c) /\ runnable k config (exp_of c) /\ seed_of (fst c) = seeds (j + i) /\
     ((S i < List.length cs)%nat -> trial (fst c) = true)) /\
  match f with
  | Finished => nth_error (map ex tasks) (List.length cs) = None /\ forall c, In c cs -> trial (fst c) = true
  | TrialRaised => exists cs' c, cs = (cs' ++ [c])%list /\ trial (fst c) = false
  | Raised e => (forall c, In c cs -> trial (fst c) = true) /\ exists x, nth_error (map ex tasks) (List.length cs) = Some x /\
      ((e = BadType /\ ~ number (dim_of x)) \/ (e = NoKey /\ number (dim_of x) /\ exists key, In key (needs k x) /\ forall v, ~ has config key v))
  end.
Proof.
  induction tasks as [|e tasks IH]; intros j; cbn [loop].
  { split; [intros [|i] c; discriminate|]. split; [reflexivity|intros c []]. }
  pose proof (body_exact e (seeds j)) as B. destruct (body e (seeds j)) as [c|x].
  - destruct B as (R & X & SD). destruct (trial (fst c)) eqn:T.
    + specialize (IH (S j)). destruct (loop trial body seeds (S j) tasks) as [cs f]. destruct IH as [N F]. split.
      * intros [|i] c' H; cbn [nth_error] in H.
        -- injection H as <-. rewrite X. rewrite Nat.add_0_r. repeat split; auto; apply R.
        -- apply N in H as (H1 & H2 & H3 & H4). rewrite Nat.add_succ_r. repeat split; auto; try apply H2. intros L. apply H4. cbn in L. lia.
      * destruct f as [|x|].
        -- destruct F as [F G]. split; [exact F|]. intros c' [<-|I]; auto.
        -- destruct F as (G & x' & F & D). split; [intros c' [<-|I]; auto|]. exists x'. split; auto.
        -- destruct F as (cs' & c' & -> & T'). exists (c :: cs'), c'. auto.
    + split; [|exists [], c; auto]. intros [|[|i]] c' H; try discriminate H. injection H as <-. rewrite X, Nat.add_0_r. repeat split; auto; try apply R. cbn. lia.
  - split; [intros [|i] c; discriminate|]. split; [intros c []|]. exists (ex e). split; [reflexivity|exact B].
Qed.
End Body.

Definition dim_ex (e : json * nat) : experiment := (None, e).
Definition type_ex (e : prm_type * (json * (json * nat))) : experiment := (Some (fst e, fst (snd e)), snd (snd e)).

Ltac run_body D B :=
  let P := fresh in pose proof (percent_exact D) as P; destruct (percent_f D) as [?u|?x]; cbn [bind]; [|left; exact P].
Ltac run_key config s :=
  let K := fresh "K" in destruct (key config s) as [?v|?x] eqn:K; cbn [bind];
  [apply key_ok in K|right; apply key_err in K as [-> K]; split; [reflexivity|]; split; [assumption|]; exists s; split; [cbn; tauto|exact K]].
Ltac all_keys := let I := fresh in intros ?key I; cbn in I; repeat (destruct I as [<-|I]; [eexists; eassumption|]); destruct I.

Lemma knn_body_exact config e s : match knn_body config e s with
  | Ok c => runnable Knn config (dim_ex e) /\ exp_of c = dim_ex e /\ seed_of (fst c) = s
  | Err x => (x = BadType /\ ~ number (dim_of (dim_ex e))) \/ (x = NoKey /\ number (dim_of (dim_ex e)) /\ exists key, In key (needs Knn (dim_ex e)) /\ forall v, ~ has config key v)
  end.
Proof.
  destruct e as [dim t]. unfold knn_body, dim_ex, dim_of. cbn [fst snd]. run_body dim B.
  run_key config "delta". run_key config "sample_schedule". run_key config "neighbor_schedule".
  repeat split; auto. all_keys.
Qed.
Lemma line_body_exact config e s : match line_body config e s with
  | Ok c => runnable Line config (dim_ex e) /\ exp_of c = dim_ex e /\ seed_of (fst c) = s
  | Err x => (x = BadType /\ ~ number (dim_of (dim_ex e))) \/ (x = NoKey /\ number (dim_of (dim_ex e)) /\ exists key, In key (needs Line (dim_ex e)) /\ forall v, ~ has config key v)
  end.
Proof.
  destruct e as [dim t]. unfold line_body, dim_ex, dim_of. cbn [fst snd]. run_body dim B.
  run_key config "delta". run_key config "sample_schedule". run_key config "n_samples_per_check_round". run_key config "ed_check_timeout". run_key config "area_tol". run_key config "prm_max_k_neighbors".
  repeat split; auto. all_keys.
Qed.
Lemma narrow_body_exact config e s : match narrow_body config e s with
  | Ok c => runnable Narrow config (type_ex e) /\ exp_of c = type_ex e /\ seed_of (fst c) = s
  | Err x => (x = BadType /\ ~ number (dim_of (type_ex e))) \/ (x = NoKey /\ number (dim_of (type_ex e)) /\ exists key, In key (needs Narrow (type_ex e)) /\ forall v, ~ has config key v)
  end.
Proof.
  destruct e as [ty [cl [dim t]]]. unfold narrow_body, type_ex, dim_of. cbn [fst snd]. run_body dim B.
  destruct ty.
  - run_key config "radius_sample_schedule". run_key config "radius_prm_max_radius". repeat split; auto. all_keys.
  - run_key config "knn_sample_schedule". run_key config "knn_prm_max_neighbors". repeat split; auto. all_keys.
Qed.

(** ** The experiments *)
Lemma dim_combos_exact config :
  match dim_combos config with
  | Ok l => planned Knn config (map dim_ex l)
  | Err e => (forall l, ~ planned Knn config l) /\ ((e = NoKey /\ exists key, In key (schedule_keys Knn) /\ forall v, ~ has config key v) \/
      (e = BadType /\ forall key, In key (schedule_keys Knn) -> exists v, has config key v))
  end.
Proof.
  unfold dim_combos.
  destruct (key config "dims_to_test") as [d|e] eqn:D; cbn [bind].
  2: { apply key_err in D as [-> D]. split; [intros l (d & t & ds & n & H & _); exact (D d H)|]. left. split; auto. exists "dims_to_test". cbn; auto. }
  apply key_ok in D. destruct (key config "n_trials") as [t|e] eqn:T; cbn [bind].
  2: { apply key_err in T as [-> T]. split; [intros l (d' & t & ds & n & _ & H & _); exact (T t H)|]. left. split; auto. exists "n_trials". cbn; auto. }
  apply key_ok in T.
  assert (K : forall key, In key (schedule_keys Knn) -> exists v, has config key v) by all_keys.
  destruct (range t) as [n|e] eqn:R; cbn [bind].
  2: { apply range_err in R as [-> R]. split; [|auto]. intros l (d' & t' & ds & n & _ & H & _ & H2 & _). apply (R n). unfold has in *. congruence. }
  apply range_exact in R. destruct (iter d) as [ds|e] eqn:I; cbn [bind].
  2: { apply iter_err in I as [-> I]. split; [|auto]. intros l (d' & t' & ds & n' & H & _ & H1 & _). apply (I ds). unfold has in *. congruence. }
  apply iter_exact in I. exists d, t, ds, n. rewrite list_prod_product2. repeat split; auto.
Qed.
Lemma product_exact config s :
  match narrow_product config s with
  | Ok (deltas, (dims, n)) => exists dl d t, has config "deltas" dl /\ has config s d /\ has config "n_trials" t /\ elements dl deltas /\ elements d dims /\ times t n
  | Err e => (forall dl d t deltas dims n, ~ (has config "deltas" dl /\ has config s d /\ has config "n_trials" t /\ elements dl deltas /\ elements d dims /\ times t n)) /\
      ((e = NoKey /\ exists key, In key ["deltas"; s; "n_trials"] /\ forall v, ~ has config key v) \/ (e = BadType /\ forall key, In key ["deltas"; s; "n_trials"] -> exists v, has config key v))
  end.
Proof.
  unfold narrow_product.
  destruct (key config "deltas") as [dl|e] eqn:D; cbn [bind].
  2: { apply key_err in D as [-> D]. split; [intros dl d t deltas dims n (H & _); exact (D dl H)|]. left. split; auto. exists "deltas". cbn; auto. }
  apply key_ok in D. destruct (key config s) as [d|e] eqn:S; cbn [bind].
  2: { apply key_err in S as [-> S]. split; [intros dl' d t deltas dims n (_ & H & _); exact (S d H)|]. left. split; auto. exists s. cbn; auto. }
  apply key_ok in S. destruct (key config "n_trials") as [t|e] eqn:T; cbn [bind].
  2: { apply key_err in T as [-> T]. split; [intros dl' d' t deltas dims n (_ & _ & H & _); exact (T t H)|]. left. split; auto. exists "n_trials". cbn; auto. }
  apply key_ok in T.
  assert (K : forall key, In key ["deltas"; s; "n_trials"] -> exists v, has config key v) by all_keys.
  destruct (range t) as [n|e] eqn:R; cbn [bind].
  2: { apply range_err in R as [-> R]. split; [|auto]. intros dl' d' t' deltas dims n (_ & _ & H & _ & _ & H2). apply (R n). unfold has in *. congruence. }
  apply range_exact in R. destruct (iter dl) as [deltas|e] eqn:I; cbn [bind].
  2: { apply iter_err in I as [-> I]. split; [|auto]. intros dl' d' t' deltas dims n' (H & _ & _ & H2 & _). apply (I deltas). unfold has in *. congruence. }
  apply iter_exact in I. destruct (iter d) as [dims|e] eqn:J; cbn [bind].
  2: { apply iter_err in J as [-> J]. split; [|auto]. intros dl' d' t' deltas' dims n' (_ & H & _ & _ & H2 & _). apply (J dims). unfold has in *. congruence. }
  apply iter_exact in J. exists dl, d, t. auto 7.
Qed.
Lemma times_fun v n m : times v n -> times v m -> n = m.
Proof. intros A B. apply range_exact in A, B. congruence. Qed.
Lemma elements_fun v l m : elements v l -> elements v m -> l = m.
Proof. intros A B. apply iter_exact in A, B. congruence. Qed.
Lemma type_combos_exact config :
  match type_combos config with
  | Ok l => planned Narrow config (map type_ex l)
  | Err e => (forall l, ~ planned Narrow config l) /\ (e = NoKey \/ e = BadType) /\
      (e = NoKey -> exists key, In key (schedule_keys Narrow) /\ forall v, ~ has config key v)
  end.
Proof.
  unfold type_combos. pose proof (product_exact config "radius_dims_to_test") as R. destruct (narrow_product config "radius_dims_to_test") as [[deltas [rdims n]]|e]; cbn [bind].
  2: { destruct R as [R K]. split.
       - intros l (dl & rd & kd & t & ds & rs & ks & n & H1 & H2 & _ & H4 & H5 & H6 & _ & H8 & _). eapply R; eauto 10.
       - destruct K as [[-> (key & I & K)]|[-> K]]; (split; [auto|]); [|discriminate]. intros _. exists key. split; [|exact K]. cbn in *. tauto. }
  pose proof (product_exact config "knn_dims_to_test") as Q. destruct (narrow_product config "knn_dims_to_test") as [[deltas' [kdims n']]|e]; cbn [bind].
  2: { destruct Q as [Q K]. split.
       - intros l (dl & rd & kd & t & ds & rs & ks & m & H1 & _ & H3 & H4 & H5 & _ & H7 & H8 & _). eapply Q; eauto 10.
       - destruct K as [[-> (key & I & K)]|[-> K]]; (split; [auto|]); [|discriminate]. intros _. exists key. split; [|exact K]. cbn in *. tauto. }
  destruct R as (dl & d & t & D & S & T & E1 & E2 & N). destruct Q as (dl' & d' & t' & D' & S' & T' & E1' & E2' & N').
  exists dl, d, d', t, deltas, rdims, kdims, n. repeat (split; [assumption|]).
  unfold narrow_combos, type_ex. rewrite !list_prod_product2. cbn [product2 flat_map fst snd]. rewrite !app_nil_r, map_app, !map_map. reflexivity.
Qed.

Lemma planned_kind k config l : k <> Narrow -> planned k config l <-> planned Knn config l.
Proof. destruct k; [congruence| |]; reflexivity. Qed.
Lemma planned_fun k config l m : planned k config l -> planned k config m -> l = m.
Proof.
  assert (D : forall l m, planned Knn config l -> planned Knn config m -> l = m).
  { clear. intros l m (d & t & ds & n & H1 & H2 & H3 & H4 & ->) (d' & t' & ds' & n' & H1' & H2' & H3' & H4' & ->). unfold has in *.
    replace d' with d in * by congruence. replace t' with t in * by congruence. now rewrite (elements_fun _ _ _ H3 H3'), (times_fun _ _ _ H4 H4'). }
  destruct k; [|apply D|apply D].
  intros (dl & rd & kd & t & ds & rs & ks & n & H1 & H2 & H3 & H4 & H5 & H6 & H7 & H8 & ->) (dl' & rd' & kd' & t' & ds' & rs' & ks' & n' & H1' & H2' & H3' & H4' & H5' & H6' & H7' & H8' & ->).
  unfold has in *. replace dl' with dl in * by congruence. replace rd' with rd in * by congruence. replace kd' with kd in * by congruence. replace t' with t in * by congruence.
  now rewrite (elements_fun _ _ _ H5 H5'), (elements_fun _ _ _ H6 H6'), (elements_fun _ _ _ H7 H7'), (times_fun _ _ _ H8 H8').
Qed.

(** ** The file of earlier results *)
Lemma last_slash a c : String.substring (String.length (a ++ String c "") - 1) 1 (a ++ String c "") = String c "".
Proof.
  induction a as [|x a IH]; [reflexivity|]. cbn [String.append String.length]. rewrite Nat.sub_succ, Nat.sub_0_r.
  destruct (String.length (a ++ String c "")) eqn:L; [destruct a; discriminate L|]. cbn [String.substring].
  rewrite Nat.sub_succ, Nat.sub_0_r in IH. exact IH.
Qed.
Lemma string_snoc s : s = "" \/ exists a c, s = a ++ String c "".
Proof. induction s as [|x s [->|(a & c & ->)]]; [auto|right; exists "", x; reflexivity|]. right. exists (String x a), c. reflexivity. Qed.
Lemma append_assoc a b c : (a ++ b) ++ c = a ++ (b ++ c).
Proof. induction a; cbn; congruence. Qed.
Lemma snoc_inj a b c d : a ++ String c "" = b ++ String d "" -> a = b /\ c = d.
Proof.
  revert b. induction a as [|x a IH]; intros [|y b]; cbn; intros E; injection E; intros; subst; auto.
  - destruct b; discriminate.
  - destruct a; discriminate.
  - match goal with F : _ ++ _ = _ ++ _ |- _ => destruct (IH _ F) as [-> ->] end. auto.
Qed.
Lemma join_exact dir name path : join dir name = path <-> in_directory dir name path.
Proof.
  unfold join, in_directory. destruct (string_snoc dir) as [->|(a & c & ->)].
  - cbn. split; [auto|]. intros [[_ ->]|[(d & E & _)|(N & _)]]; [reflexivity|destruct d; discriminate|congruence].
  - assert (N : a ++ String c "" <> "") by (destruct a; discriminate). apply String.eqb_neq in N as N'. rewrite N', last_slash.
    destruct (String.eqb_spec (String c "") "/") as [E|E].
    + injection E as ->. change (String "/" "") with "/" in *. rewrite append_assoc. split.
      * intros <-. right; left. exists a. auto.
      * intros [[H _]|[(d & H & ->)|(_ & H & _)]]; [congruence| |exfalso; apply H; eauto]. apply snoc_inj in H as [-> _]. reflexivity.
    + split.
      * intros <-. right; right. split; [exact N|]. split; [|reflexivity]. intros (d & H). apply snoc_inj in H as [_ ->]. congruence.
      * intros [[H _]|[(d & H & _)|(_ & _ & ->)]]; [congruence| |reflexivity]. apply snoc_inj in H as [_ ->]. congruence.
Qed.

(** ** Theorems *)

(** The calls of process [rank] of [size], whatever the configuration: they are, in order and without a
    gap, experiments [rank + (skipped + i) * size] of the plan, and the script ends at the end of the plan,
    at a call that raises, or at the first experiment whose dimension is no number (TypeError) or for which
    a key is missing (KeyError). *)
Theorem job_exact trial draw skip k config l rank size save path : planned k config l -> (1 <= size)%nat ->
  in_directory save ("out" ++ show (Z.of_nat rank) ++ ".csv") path ->
  let at_ i := nth_error l (rank + (match skip path with Some n => n | None => 0 end + i) * size) in
  let (cs, f) := schedule trial draw skip k config (Z.of_nat rank) (Z.of_nat size) save in
  (forall i c, nth_error cs i = Some c -> at_ i = Some (exp_of c) /\ runnable k config (exp_of c) /\ seed_of (fst c) = draw (Z.of_nat rank) i /\
     ((S i < List.length cs)%nat -> trial (fst c) = true)) /\
  match f with
  | Finished => at_ (List.length cs) = None /\ forall c, In c cs -> trial (fst c) = true
  | TrialRaised => exists cs' c, cs = (cs' ++ [c])%list /\ trial (fst c) = false
  | Raised e => (forall c, In c cs -> trial (fst c) = true) /\ exists x, at_ (List.length cs) = Some x /\
      ((e = BadType /\ ~ number (dim_of x)) \/ (e = NoKey /\ number (dim_of x) /\ exists key, In key (needs k x) /\ forall v, ~ has config key v))
  end.
Proof.
  intros P S F. apply join_exact in F. cbv zeta.
  assert (W : forall {E} (body : E -> nat -> res (call * nat)) (ex : E -> experiment) combos (B : forall e s, match body e s with
    | Ok c => runnable k config (ex e) /\ exp_of c = ex e /\ seed_of (fst c) = s
    | Err x => (x = BadType /\ ~ number (dim_of (ex e))) \/ (x = NoKey /\ number (dim_of (ex e)) /\ exists key, In key (needs k (ex e)) /\ forall v, ~ has config key v) end),
    map ex combos = l -> let at_ i := nth_error l (rank + (match skip path with Some n => n | None => 0 end + i) * size) in
    let (cs, f) := work trial draw skip body combos (Z.of_nat rank) (Z.of_nat size) save in
    (forall i c, nth_error cs i = Some c -> at_ i = Some (exp_of c) /\ runnable k config (exp_of c) /\ seed_of (fst c) = draw (Z.of_nat rank) i /\
     ((Datatypes.S i < List.length cs)%nat -> trial (fst c) = true)) /\
    match f with
    | Finished => at_ (List.length cs) = None /\ forall c, In c cs -> trial (fst c) = true
    | TrialRaised => exists cs' c, cs = (cs' ++ [c])%list /\ trial (fst c) = false
    | Raised e => (forall c, In c cs -> trial (fst c) = true) /\ exists x, at_ (List.length cs) = Some x /\
      ((e = BadType /\ ~ number (dim_of x)) \/ (e = NoKey /\ number (dim_of x) /\ exists key, In key (needs k x) /\ forall v, ~ has config key v))
    end).
  { intros E body ex combos B M. cbv zeta. rewrite work_tasks by exact S. unfold skipped. rewrite F. set (m := match skip path with Some n => n | None => 0 end).
    pose proof (loop_exact trial k config body ex B (draw (Z.of_nat rank)) (skipn m (every size rank combos)) 0) as L.
    destruct (loop _ _ _ _ _) as [cs f]. subst l.
    assert (A : forall i, nth_error (map ex (skipn m (every size rank combos))) i = nth_error (map ex combos) (rank + (m + i) * size)).
    { intros i. rewrite !nth_error_map, nth_tasks by exact S. reflexivity. }
    destruct L as [N L]. split.
    - intros i c H. rewrite <- A. apply (N i c H).
    - rewrite <- A. exact L. }
  destruct k; unfold schedule.
  - pose proof (type_combos_exact config) as C. destruct (type_combos config) as [l'|e].
    + apply (W _ _ type_ex). { apply narrow_body_exact. } exact (planned_fun Narrow _ _ _ C P).
    + exfalso. exact (proj1 C l P).
  - pose proof (dim_combos_exact config) as C. destruct (dim_combos config) as [l'|e].
    + apply (W _ _ dim_ex). { apply line_body_exact. } exact (planned_fun Knn _ _ _ C P).
    + exfalso. exact (proj1 C l P).
  - pose proof (dim_combos_exact config) as C. destruct (dim_combos config) as [l'|e].
    + apply (W _ _ dim_ex). { apply knn_body_exact. } exact (planned_fun Knn _ _ _ C P).
    + exfalso. exact (proj1 C l P).
Qed.
Print Assumptions job_exact.

(** Without a plan no trial is called and the script raises: KeyError only if a key of the plan is missing
    and, for the two scripts with one product, whenever one is; TypeError otherwise. *)
Theorem no_plan trial draw skip k config id num save : (forall l, ~ planned k config l) ->
  exists e, schedule trial draw skip k config id num save = ([], Raised e) /\ (e = NoKey \/ e = BadType) /\
    (e = NoKey -> exists key, In key (schedule_keys k) /\ forall v, ~ has config key v) /\
    (k <> Narrow -> e = BadType -> forall key, In key (schedule_keys k) -> exists v, has config key v).
Proof.
  intros P. destruct k; unfold schedule.
  - pose proof (type_combos_exact config) as C. destruct (type_combos config) as [l'|e]; [exfalso; exact (P _ C)|].
    exists e. split; [reflexivity|]. split; [apply C|]. split; [apply C|congruence].
  - pose proof (dim_combos_exact config) as C. destruct (dim_combos config) as [l'|e]; [exfalso; exact (P _ C)|].
    exists e. split; [reflexivity|]. destruct C as [_ [[-> C]|[-> C]]]; repeat split; auto; discriminate.
  - pose proof (dim_combos_exact config) as C. destruct (dim_combos config) as [l'|e]; [exfalso; exact (P _ C)|].
    exists e. split; [reflexivity|]. destruct C as [_ [[-> C]|[-> C]]]; repeat split; auto; discriminate.
Qed.
Print Assumptions no_plan.

(** With a plan: no tasks at all or a negative task number raise ValueError, and a negative number of
    tasks ends at once without a trial. *)
Theorem odd_numbers trial draw skip k config l id num save : planned k config l -> (num <= 0 \/ id < 0)%Z ->
  schedule trial draw skip k config id num save = ([], if ((num =? 0) || (id <? 0))%Z%bool then Raised BadValue else Finished).
Proof.
  intros P N.
  assert (W : forall {E} (body : E -> nat -> res (call * nat)) combos, work trial draw skip body combos id num save = ([], if ((num =? 0) || (id <? 0))%Z%bool then Raised BadValue else Finished)).
  { intros E body combos. unfold work. destruct (Z.eqb_spec num 0); [reflexivity|]. cbn [orb]. destruct (Z.ltb_spec id 0); [reflexivity|].
    destruct (Z.ltb_spec num 0); [|lia]. destruct (skip _); [rewrite skipn_nil|]; reflexivity. }
  destruct k; unfold schedule.
  - pose proof (type_combos_exact config) as C. destruct (type_combos config) as [l'|e]; [apply W|]. exfalso. exact (proj1 C l P).
  - pose proof (dim_combos_exact config) as C. destruct (dim_combos config) as [l'|e]; [apply W|]. exfalso. exact (proj1 C l P).
  - pose proof (dim_combos_exact config) as C. destruct (dim_combos config) as [l'|e]; [apply W|]. exfalso. exact (proj1 C l P).
Qed.
Print Assumptions odd_numbers.

(** A text for the dimensions is taken apart into its characters, none of which is a number: the first
    experiment of the process raises TypeError. *)
Theorem text_dims trial draw skip k config text t n rank size : k <> Narrow -> has config "dims_to_test" (JStr text) -> has config "n_trials" t -> times t n ->
  (1 <= size)%nat -> (rank < String.length text * n)%nat -> (forall p, skip p = None) -> forall save,
  schedule trial draw skip k config (Z.of_nat rank) (Z.of_nat size) save = ([], Raised BadType).
Proof.
  intros K D T N S R F save. set (l := map (fun x => (None, x)) (list_prod (chars text) (seq 0 n)) : list experiment).
  assert (P : planned k config l). { apply planned_kind; [exact K|]. exists (JStr text), t, (chars text), n. repeat split; auto. apply chars_elements. }
  pose proof (job_exact trial draw skip k config l rank size save (join save ("out" ++ show (Z.of_nat rank) ++ ".csv")) P S (proj1 (join_exact _ _ _) eq_refl)) as J.
  rewrite F in J. cbv zeta in J. destruct (schedule _ _ _ _ _ _ _ _) as [cs f].
  assert (C : forall x, In x l -> ~ number (dim_of x)).
  { intros x I. unfold l in I. apply in_map_iff in I as ([d m] & <- & I). apply in_prod_iff in I as [I _]. cbn.
    clear - I. induction text as [|c s IH]; [destruct I|]. destruct I as [<-|I]; [cbn; auto|auto]. }
  assert (L : List.length l = (String.length text * n)%nat).
  { unfold l. rewrite map_length, prod_length, seq_length. f_equal. clear. induction text; cbn; congruence. }
  assert (CS : cs = []).
  { destruct cs as [|c cs]; [reflexivity|]. exfalso. destruct J as [J _]. destruct (J 0%nat c eq_refl) as (A & B & _). apply (C (exp_of c)); [eapply nth_error_In; exact A|apply B]. }
  subst cs. f_equal. destruct J as [_ J]. cbn [List.length Nat.add Nat.mul] in J. rewrite Nat.add_0_r in J. destruct f as [|e|].
  - destruct J as [J _]. apply nth_error_None in J. lia.
  - destruct J as (_ & x & A & [[-> _]|(_ & B & _)]); [reflexivity|]. exfalso. apply (C x); [eapply nth_error_In; exact A|exact B].
  - destruct J as (cs' & c & J & _). destruct cs'; discriminate.
Qed.
Print Assumptions text_dims.

(** ** Examples *)
(** one dimension that is no number in the middle: process 0 of 2 gets two experiments done *)
Example job_exact_example : let config := [("delta", JInt 1); ("dims_to_test", JList [JInt 2; JBool true; JNull]); ("sample_schedule", JNull); ("neighbor_schedule", JNull); ("n_trials", JInt 2)]%Z in
  planned Knn config (map (fun x => (None, x)) (list_prod [JInt 2; JBool true; JNull]%Z (seq 0 2))) /\ in_directory "d/" "out0.csv" "d/out0.csv" /\
  map exp_of (fst (schedule (fun _ => true) (fun _ i => i) (fun _ => None) Knn config 0 2 "d/")) = [(None, (JInt 2, 0%nat)); (None, (JBool true, 0%nat))]%Z /\
  snd (schedule (fun _ => true) (fun _ i => i) (fun _ => None) Knn config 0 2 "d/") = Raised BadType.
Proof.
  cbv zeta. split; [|split; [|split; reflexivity]].
  - eexists _, _, _, 2%nat. repeat split; try reflexivity; try constructor. apply (of_number 2).
  - right; left. exists "d". auto.
Qed.
(** the digits of a text are not numbers; an object gives its keys; a fraction is no number of trials *)
Example text_dims_example : has [("dims_to_test", JStr "234"); ("n_trials", JBool true)] "dims_to_test" (JStr "234") /\ times (JBool true) 1 /\ (2 < String.length "234" * 1)%nat.
Proof. split; [reflexivity|]. split; [constructor|cbn; lia]. Qed.
Example object_example : planned Line [("dims_to_test", JObj [("a", JInt 2); ("b", JInt 3)]%Z); ("n_trials", JBool true)] [(None, (JStr "a", 0)); (None, (JStr "b", 0))]%nat.
Proof. exists (JObj [("a", JInt 2); ("b", JInt 3)]%Z), (JBool true), [JStr "a"; JStr "b"], 1%nat. repeat split; try reflexivity; constructor. Qed.
Example no_plan_example : (forall l, ~ planned Line [("dims_to_test", JList [JInt 2%Z]); ("n_trials", JFloat (5 # 1))] l) /\
  schedule (fun _ => true) (fun _ i => i) (fun _ => None) Line [("dims_to_test", JList [JInt 2%Z]); ("n_trials", JFloat (5 # 1))] 0 1 "d" = ([], Raised BadType).
Proof. split; [|reflexivity]. intros l (d & t & ds & n & _ & T & _ & N & _). injection T as <-. inversion N. Qed.
Example odd_numbers_example : planned Line [("dims_to_test", JList []); ("n_trials", JInt (-3)%Z)] [] /\
  schedule (fun _ => true) (fun _ i => i) (fun _ => None) Line [("dims_to_test", JList []); ("n_trials", JInt (-3)%Z)] 0 (-1) "d" = ([], Finished).
Proof. split; [|reflexivity]. eexists _, _, _, 0%nat. repeat split; try reflexivity; constructor. lia. Qed.
