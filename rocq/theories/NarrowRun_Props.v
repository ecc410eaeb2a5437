(** Properties C134, C135: the narrow-passage trial run on the modelled roadmaps *)

From Coq Require Import List Bool ZArith QArith Lia Sorted Lqa.
From Verif Require KnnProb_Props.
From Verif Require Import NkGraph_Model NkGraph_Spec NkGraph_Proofs Prm_Model Prm_Spec Sp_Oracle
  PrmQuery_Proofs PrmFc_Proofs PrmNn_Proofs PrmAnn_Inst PrmEx Trial_Model Trial_Props NarrowRun_Model.
Import ListNotations.
Close Scope Q_scope.
Local Open Scope Z_scope.

(** * np.unique *)

Lemma uinsert_in x y l : (exists z, In z (uinsert x l) /\ (z == y)%Q) <->
  (x == y)%Q \/ exists z, In z l /\ (z == y)%Q.
Proof.
  induction l as [|a l IH]; simpl.
  - split; [intros [z [[<-|[]] E]]; auto|]. intros [E|[z [[] _]]]. exists x; auto.
  - destruct (Qeq_bool x a) eqn:E1; [|destruct (Qle_bool x a)].
    + apply Qeq_bool_iff in E1. split; [auto|]. intros [E|H]; auto.
      exists a. split; [simpl; auto|]. now rewrite <- E1.
    + split.
      * intros [z [[<-|Hz] E]]; auto. right. exists z. auto.
      * intros [E|[z [Hz E]]]; [exists x; simpl; auto|exists z; simpl in *; auto].
    + split.
      * intros [z [[<-|Hz] E]]; [right; exists a; auto|].
        destruct (proj1 IH) as [E'|[z' [Hz' E']]]; [exists z; auto|auto|]. right. exists z'. auto.
      * intros [E|[z [[<-|Hz] E]]].
        -- destruct (proj2 IH (or_introl E)) as [z [Hz E']]. exists z. simpl. auto.
        -- exists a. simpl. auto.
        -- destruct (proj2 IH) as [z' [Hz' E']]; [right; exists z; auto|]. exists z'. simpl. auto.
Qed.

Lemma uinsert_lt b x l : (b < x)%Q -> Forall (Qlt b) l -> Forall (Qlt b) (uinsert x l).
Proof.
  intros Hb H. induction H as [|a l Ha H IH]; simpl; auto.
  destruct (Qeq_bool x a); auto. destruct (Qle_bool x a); auto.
Qed.

Lemma uinsert_sorted x l : StronglySorted Qlt l -> StronglySorted Qlt (uinsert x l).
Proof.
  induction l as [|a l IH]; simpl; intro H; [repeat constructor|].
  inversion H as [|? ? H1 H2]; subst.
  destruct (Qeq_bool x a) eqn:E1; auto.
  assert (N : ~ (x == a)%Q) by (intro N; apply Qeq_bool_iff in N; congruence).
  destruct (Qle_bool x a) eqn:E2.
  - apply Qle_bool_iff in E2. assert (x < a)%Q.
    { apply Qle_lteq in E2. destruct E2; [auto|contradiction]. }
    constructor; auto. constructor; auto. eapply Forall_impl; [|exact H2].
    intros c Hc. simpl in Hc. eapply Qlt_trans; eauto.
  - assert (a < x)%Q by (apply Qnot_le_lt; intro L; apply Qle_bool_iff in L; congruence).
    constructor; auto. apply uinsert_lt; auto.
Qed.

(** Strictly ascending, with exactly the values of the list *)
Lemma np_unique_spec l : StronglySorted Qlt (np_unique l) /\
  forall y, (exists z, In z (np_unique l) /\ (z == y)%Q) <-> exists z, In z l /\ (z == y)%Q.
Proof.
  unfold np_unique. induction l as [|a l [H1 H2]]; simpl.
  - split; [constructor|]. intro y; split; intros [z [[] _]].
  - split; [apply uinsert_sorted; auto|]. intro y. rewrite uinsert_in, H2. split.
    + intros [E|[z [Hz E]]]; [exists a; auto|exists z; auto].
    + intros [z [[<-|Hz] E]]; [auto|right; exists z; auto].
Qed.

(** * The search on a roadmap gives what the search on a query function gives *)

Section Rel.
  Context {S : Type}.
  Variable kind : prm_kind.
  Variable size : Z.
  Variable ask : S -> setting -> res (option found) * S.
  Variable I : S -> Prop.
  Variable A : setting -> option found -> Prop.

  (** Settings a search with two or more entries may ask for *)
  Definition askable (x : setting) : Prop := x = MaxConn \/ exists i, x = At i /\ 0 < i < size - 1.

  Hypothesis Hask : forall st x, I st -> askable x ->
    exists a st', ask st x = (Ok a, st') /\ I st' /\ A x a.

  Lemma conn_search_ext : forall fuel lb ub thresh asked q q', 0 <= lb < ub -> ub <= size - 1 ->
    q MaxConn = q' MaxConn -> (forall i, lb < i < ub -> q (At i) = q' (At i)) ->
    conn_search kind size q fuel lb ub thresh asked = conn_search kind size q' fuel lb ub thresh asked.
  Proof.
    induction fuel as [|fuel IH]; intros lb ub thresh asked q q' H0 Hub HM HA; auto.
    cbn [conn_search]. destruct (lb + 1 =? ub) eqn:E1; [rewrite HM; reflexivity|].
    apply Z.eqb_neq in E1. destruct (ub <=? lb) eqn:E2; [apply Z.leb_le in E2; lia|].
    set (test := (lb + ub) / 2).
    assert (Ht : lb < test < ub).
    { unfold test. split; [apply Z.lt_le_trans with (lb + 1); [lia|]; apply Z.div_le_lower_bound; lia
                          | apply Z.div_lt_upper_bound; lia]. }
    rewrite (HA test Ht). destruct (q' (At test)); apply IH; try lia; auto; intros; apply HA; lia.
  Qed.

  Definition override (q : setting -> option found) (i : Z) (a : option found) (x : setting) : option found :=
    match x with At j => if j =? i then a else q x | MaxConn => q x end.

  Definition first_answers (st : S) (x : setting) : option found :=
    match fst (ask st x) with Ok a => a | Err _ => None end.

  Lemma conn_run_refines : forall fuel lb ub thresh asked st, 0 <= lb < ub -> ub <= size - 1 -> I st ->
    exists q, (forall x, askable x -> A x (q x)) /\
    match conn_search kind size q fuel lb ub thresh asked with
    | None => conn_run kind size ask fuel lb ub thresh asked st = None
    | Some o => exists st', conn_run kind size ask fuel lb ub thresh asked st = Some (Ok o, st') /\ I st'
    end.
  Proof.
    assert (First : forall st, I st -> forall x, askable x -> A x (first_answers st x)).
    { intros st Hst x Hx. unfold first_answers. destruct (Hask st x Hst Hx) as (a & st' & -> & _ & H). exact H. }
    induction fuel as [|fuel IH]; intros lb ub thresh asked st H0 Hub Hst.
    { exists (first_answers st). split; [auto|reflexivity]. }
    cbn [conn_search conn_run]. destruct (lb + 1 =? ub) eqn:E1.
    - destruct (size - 1 <=? ub) eqn:E2.
      + exists (first_answers st). split; [auto|]. unfold first_answers.
        destruct (Hask st MaxConn Hst (or_introl eq_refl)) as (a & st' & E & Hst' & _). rewrite E. simpl.
        destruct a; eauto.
      + exists (first_answers st). split; [auto|]. eauto.
    - apply Z.eqb_neq in E1. destruct (ub <=? lb) eqn:E2; [apply Z.leb_le in E2; lia|].
      set (test := (lb + ub) / 2).
      assert (Ht : lb < test < ub).
      { unfold test. split; [apply Z.lt_le_trans with (lb + 1); [lia|]; apply Z.div_le_lower_bound; lia
                            | apply Z.div_lt_upper_bound; lia]. }
      destruct (Hask st (At test) Hst) as (a & st1 & E & Hst1 & Ha).
      { right. exists test. split; auto. lia. }
      rewrite E.
      assert (Over : forall q, (forall x, askable x -> A x (q x)) ->
                     forall x, askable x -> A x (override q test a x)).
      { intros q Hq x Hx. unfold override. destruct x as [j|]; auto. destruct (j =? test) eqn:Ej; auto.
        apply Z.eqb_eq in Ej. subst j. exact Ha. }
      assert (At_test : forall q, override q test a (At test) = a) by (intro; simpl; now rewrite Z.eqb_refl).
      destruct a as [d|].
      + destruct (IH lb test (Some d) (asked ++ [At test]) st1) as (q & Hq & Hr); auto; try lia.
        exists (override q test (Some d)). split; [auto|]. rewrite At_test.
        rewrite (conn_search_ext fuel lb test (Some d) (asked ++ [At test]) (override q test (Some d)) q);
          [exact Hr|lia|lia|reflexivity|].
        intros i Hi. simpl. destruct (i =? test) eqn:Ei; auto. apply Z.eqb_eq in Ei. lia.
      + destruct (IH test ub thresh (asked ++ [At test]) st1) as (q & Hq & Hr); auto; try lia.
        exists (override q test None). split; [auto|]. rewrite At_test.
        rewrite (conn_search_ext fuel test ub thresh (asked ++ [At test]) (override q test None) q);
          [exact Hr|lia|lia|reflexivity|].
        intros i Hi. simpl. destruct (i =? test) eqn:Ei; auto. apply Z.eqb_eq in Ei. lia.
  Qed.

  (** So with two entries or more the search ends without an error, and its outcome is sound for
      some function answering every setting admissibly. *)
  Lemma search_run_sound : forall st, 2 <= size -> I st ->
    exists q o st', (forall x, askable x -> A x (q x)) /\ search_run kind size ask st = Some (Ok o, st') /\
      I st' /\ sound_outcome size q o.
  Proof.
    intros st Hs Hst. unfold search_run.
    destruct (conn_run_refines (Datatypes.S (Z.to_nat size)) 0 (size - 1) None [] st) as (q & Hq & Hr);
      auto; try lia.
    destruct (narrow_search_sound kind size q Hs) as (o & Eo & So & _). unfold narrow_search in Eo.
    rewrite Eo in Hr. destruct Hr as (st' & Er & Hst'). exists q, o, st'. auto.
  Qed.
End Rel.

(** * What a row says *)

(** [ok] and [best] tell for each connection setting whether the query has a solution there and which
    distances and numbers of samples shortest solutions have.  The settings are the entries of
    [conns] by position ([Some k]) and max_connections ([None]). *)
Definition critical_row (kind : prm_kind) (dim : Z) (clear : Q) (n : Z) (seed : nat) (conns : list Q)
  (ok : option nat -> Prop) (best : option nat -> Q -> Z -> Prop) (row : list cell) : Prop :=
  let last := (length conns - 1)%nat in
  (exists i a b d len,
     nth_error conns i = Some a /\ nth_error conns (S i) = Some b /\
     row = [CKind kind; CDim dim; CClear clear; CSamples n; CConn a; CConn b; CDist d; CLen len;
            CTime; CTime; CInfo NoInfo; CSeed seed] /\
     best (if Nat.eqb (S i) last then None else Some (S i)) d len /\
     ok None /\ (forall k, (1 <= k <= i)%nat -> ~ ok (Some k)) /\
     (forall k, (i < k < last)%nat -> ok (Some k))) \/
  (exists a, nth_error conns last = Some a /\ ~ ok None /\
     (forall k, (1 <= k < last)%nat -> ~ ok (Some k)) /\
     row = [CKind kind; CDim dim; CClear clear; CSamples n; CConn a; CNan; CNan; CNan;
            CTime; CTime; CInfo NoPaths; CSeed seed]).

Definition setting_pos (x : setting) : option nat :=
  match x with MaxConn => None | At i => Some (Z.to_nat i) end.

(** An admissible answer *)
Definition answers (ok : option nat -> Prop) (best : option nat -> Q -> Z -> Prop) (x : setting)
  (a : option found) : Prop :=
  match a with
  | None => ~ ok (setting_pos x)
  | Some (d, len) => ok (setting_pos x) /\ best (setting_pos x) d len
  end.

Lemma record_critical kind dim clear n seed conns ok best q o :
  (2 <= length conns)%nat ->
  (forall x, askable (Z.of_nat (length conns)) x -> answers ok best x (q x)) ->
  (forall i j, (i <= j < length conns - 1)%nat -> ok (Some i) -> ok (Some j)) ->
  (forall i, (i < length conns - 1)%nat -> ok (Some i) -> ok None) ->
  sound_outcome (Z.of_nat (length conns)) q o ->
  exists row, record_of kind dim clear n seed conns o = Ok row /\
    critical_row kind dim clear n seed conns ok best row.
Proof.
  intros L Hq Mono Top [(lb & d & E1 & E2 & E3 & E4 & H0 & H1 & HL & HU & _) |
                       (E1 & E2 & E3 & E4 & HQ & _ & HL)]; unfold record_of.
  - rewrite E1, E2.
    destruct (py_index_in _ conns lb) as (a & P1 & N1); [lia|].
    destruct (py_index_in _ conns (lb + 1)) as (b & P2 & N2); [lia|].
    unfold conn_cell. rewrite P1, P2. eexists. split; [reflexivity|]. left.
    destruct d as [d len]. exists (Z.to_nat lb), a, b, d, len.
    replace (Z.to_nat (lb + 1)) with (S (Z.to_nat lb)) in N2 by lia.
    assert (Up : ok (if Nat.eqb (S (Z.to_nat lb)) (length conns - 1) then None else Some (S (Z.to_nat lb))) /\
                 best (if Nat.eqb (S (Z.to_nat lb)) (length conns - 1) then None else Some (S (Z.to_nat lb))) d len).
    { unfold upper_setting in HU. destruct (Z.eqb_spec (lb + 1) (Z.of_nat (length conns) - 1)) as [Eq|Ne].
      - rewrite (proj2 (Nat.eqb_eq _ _)) by lia.
        specialize (Hq MaxConn (or_introl eq_refl)). rewrite HU in Hq. exact Hq.
      - rewrite (proj2 (Nat.eqb_neq _ _)) by lia.
        specialize (Hq (At (lb + 1))). rewrite HU in Hq. simpl in Hq.
        replace (Z.to_nat (lb + 1)) with (S (Z.to_nat lb)) in Hq by lia. apply Hq.
        right. exists (lb + 1). split; auto. lia. }
    destruct Up as [Up Best].
    split; [auto|]. split; [auto|]. split; [unfold full_record; rewrite E3, E4; reflexivity|].
    split; [auto|]. split; [|split].
    + destruct (Nat.eqb_spec (S (Z.to_nat lb)) (length conns - 1)) as [Eq|Ne]; auto.
      eapply Top; [|exact Up]. lia.
    + intros k Hk Ok. destruct HL as [?|[HL _]]; [lia|].
      specialize (Hq (At lb)). rewrite HL in Hq. simpl in Hq. apply Hq.
      * right. exists lb. split; auto. lia.
      * eapply Mono; [|exact Ok]. lia.
    + intros k Hk. rewrite (proj2 (Nat.eqb_neq _ _)) in Up by lia. eapply Mono; [|exact Up]. lia.
  - rewrite E1, E2.
    destruct (py_index_in _ conns (Z.of_nat (length conns) - 1)) as (a & P1 & N1); [lia|].
    unfold conn_cell. rewrite P1. eexists. split; [reflexivity|]. right. exists a.
    replace (Z.to_nat (Z.of_nat (length conns) - 1)) with (length conns - 1)%nat in N1 by lia.
    specialize (Hq MaxConn (or_introl eq_refl)). rewrite HQ in Hq.
    split; [auto|]. split; [auto|]. split; [|unfold full_record; rewrite E3, E4; reflexivity].
    intros k Hk Ok. apply Hq. eapply Top; [|exact Ok]. lia.
Qed.

(** * Specification of the two roadmaps *)

Section Spec.
  Context {P : Type}.
  Variable dist : P -> P -> Q.
  Variable check : P -> P -> bool.
  Variables start goal : P.

  (** Samples joined in the roadmap of radius r, with their distance *)
  Definition disc_link (ss : list P) (r : Q) (i j : nat) (w : Q) : Prop :=
    (near_valid dist check ss r i j \/ near_valid dist check ss r j i) /\
    exists p q, nth_error ss i = Some p /\ nth_error ss j = Some q /\ (w == dist p q)%Q.

  (** The query has a solution. *)
  Definition solvable (ss : list P) (r : Q) (E : nat -> nat -> Q -> Prop) : Prop :=
    exists ids c, solution dist check ss r E start goal ids c.

  (** d is the cost of a cheapest solution, through len samples. *)
  Definition cheapest (ss : list P) (r : Q) (E : nat -> nat -> Q -> Prop) (d : Q) (len : Z) : Prop :=
    (exists ids, solution dist check ss r E start goal ids d /\ len = Z.of_nat (length ids)) /\
    forall ids c, solution dist check ss r E start goal ids c -> (d <= c)%Q.

  (** The distinct distances, ascending, of valid motions between samples within the radius *)
  Definition distances (ss : list P) (r : Q) (ds : list Q) : Prop :=
    StronglySorted Qlt ds /\
    forall x, (exists y, In y ds /\ (y == x)%Q) <->
      exists i j p q, nth_error ss i = Some p /\ nth_error ss j = Some q /\
        (dist p q == x)%Q /\ (dist p q <= r)%Q /\ check p q = true.

  Definition radius_at (rads : list Q) (max_r : Q) (x : option nat) (r : Q) : Prop :=
    match x with None => r = max_r | Some k => nth_error rads k = Some r end.

  Definition radius_ok (ss : list P) (rads : list Q) (max_r : Q) (x : option nat) : Prop :=
    exists r, radius_at rads max_r x r /\ solvable ss r (disc_link ss r).
  Definition radius_best (ss : list P) (rads : list Q) (max_r : Q) (x : option nat) (d : Q) (len : Z) : Prop :=
    exists r, radius_at rads max_r x r /\ cheapest ss r (disc_link ss r) d len.

  (** The row of a radius roadmap over the samples ss *)
  Definition radius_row (max_r : Q) (dim : Z) (clear : Q) (seed : nat) (ss : list P) (row : list cell) : Prop :=
    let n := Z.of_nat (length ss) in
    exists rads, distances ss max_r rads /\
    match rads with
    | [] => row = [CKind RadiusPrm; CDim dim; CClear clear; CSamples n; CNan; CNan; CTime; CZero;
                   CInfo NoConnections; CSeed seed; CNan; CNan]
    | [r] =>
        (~ solvable ss r (disc_link ss r) /\
         row = [CKind RadiusPrm; CDim dim; CClear clear; CSamples n; CConn r; CNan; CNan; CNan;
                CTime; CTime; CInfo OneNoPath; CSeed seed]) \/
        (exists d len, cheapest ss r (disc_link ss r) d len /\
         row = [CKind RadiusPrm; CDim dim; CClear clear; CSamples n; CNan; CConn r; CDist d; CLen len;
                CTime; CTime; CInfo OnePath; CSeed seed])
    | _ => critical_row RadiusPrm dim clear n seed rads (radius_ok ss rads max_r) (radius_best ss rads max_r) row
    end.
End Spec.

(** * C134: the radius trial *)

Section Radius.
  Context {P : Type}.
  Variable dist : P -> P -> Q.
  Variable check : P -> P -> bool.
  Variable smp : nat -> P.
  Variable sp : sp_oracle.
  Variables start goal : P.
  Hypothesis dist_nonneg : forall p q, (0 <= dist p q)%Q.
  Hypothesis dist_sym : forall p q, (dist p q == dist q p)%Q.
  Hypothesis SP : sp_correct sp.

  Lemma disc_mono ss ss' r r' : (forall i p, nth_error ss i = Some p -> nth_error ss' i = Some p) -> (r <= r')%Q ->
    forall i j w, disc_link dist check ss r i j w -> exists w', disc_link dist check ss' r' i j w' /\ (w' == w)%Q.
  Proof.
    intros Hs Hr i j w [N (p & q & H1 & H2 & H3)]. exists w. split; [|reflexivity]. split.
    - destruct N as [(a & b & N1 & N2 & N3 & N4)|(a & b & N1 & N2 & N3 & N4)]; [left|right];
        exists a, b; repeat split; auto; eapply Qle_trans; eauto.
    - exists p, q. auto.
  Qed.

  Lemma solvable_mono ss ss' r r' : (forall i p, nth_error ss i = Some p -> nth_error ss' i = Some p) -> (r <= r')%Q ->
    solvable dist check start goal ss r (disc_link dist check ss r) ->
    solvable dist check start goal ss' r' (disc_link dist check ss' r').
  Proof.
    intros Hs Hr (ids & c & H). exists ids, c.
    eapply solution_mono; [exact Hs|exact Hr| |exact H]. apply disc_mono; auto.
  Qed.

  Lemma exact_links ss r g : exact_roadmap dist check ss r g ->
    (forall i j w, edge g i j w -> exists w', disc_link dist check ss r i j w' /\ (w' == w)%Q) /\
    (forall i j w, disc_link dist check ss r i j w -> exists w', edge g i j w' /\ (w' == w)%Q).
  Proof.
    intros (_ & _ & Ed & Wt). split; intros i j w H.
    - exists w. split; [|reflexivity]. split; [apply Ed; eauto|apply Wt; auto].
    - destruct H as [N (p & q & H1 & H2 & H3)]. apply Ed in N. destruct N as [w' E]. exists w'. split; auto.
      destruct (Wt _ _ _ E) as (p' & q' & H4 & H5 & H6). rewrite H6, H3.
      assert (p' = p) by congruence. assert (q' = q) by congruence. subst. reflexivity.
  Qed.

  (** A right answer over other edges of the same weights says whether there is a solution. *)
  Lemma right_answers ss r (E E' : nat -> nat -> Q -> Prop) d path :
    (forall i j w, E i j w -> exists w', E' i j w' /\ (w' == w)%Q) ->
    (forall i j w, E' i j w -> exists w', E i j w' /\ (w' == w)%Q) ->
    right_answer dist check ss r E start goal d path ->
    exists a, answer (P := P) (d, path) = Ok a /\
    match a with
    | None => ~ solvable dist check start goal ss r E'
    | Some (d', len) => solvable dist check start goal ss r E' /\ cheapest dist check start goal ss r E' d' len
    end.
  Proof.
    intros H1 H2 R.
    assert (S1 : forall ids c, solution dist check ss r E start goal ids c -> solution dist check ss r E' start goal ids c).
    { intros ids c. eapply solution_mono; [auto|apply Qle_refl|exact H1]. }
    assert (S2 : forall ids c, solution dist check ss r E' start goal ids c -> solution dist check ss r E start goal ids c).
    { intros ids c. eapply solution_mono; [auto|apply Qle_refl|exact H2]. }
    destruct d as [d|].
    - destruct R as [(ids & Sol & V) M].
      assert (Len : length path = length ids) by (clear - V; unfold visits in V; induction V; simpl; congruence).
      destruct path as [|p path].
      + destruct ids as [|i ids]; [|discriminate]. destruct Sol as (a & z & c1 & ds & dt & Ha & _). discriminate.
      + eexists. split; [reflexivity|]. simpl. split; [exists ids, d; auto|]. split.
        * exists ids. split; auto. rewrite <- Len. reflexivity.
        * intros ids' c H. eauto.
    - destruct R as [-> N]. exists None. split; [reflexivity|]. intros (ids & c & H). eapply N; eauto.
  Qed.

  (** ** Asking the roadmap *)

  Lemma ask_radius_ok max_r rads st x r ss : fc_samples st = Some ss ->
    radius_at rads max_r (setting_pos x) r -> (forall i, x = At i -> 0 <= i < Z.of_nat (length rads)) ->
    exists a st', ask_radius dist check smp sp start goal max_r rads st x = (Ok a, st') /\
      (fc_samples st' = Some ss /\ fc_next st' = fc_next st) /\
      match a with
      | None => ~ solvable dist check start goal ss r (disc_link dist check ss r)
      | Some (d, len) => solvable dist check start goal ss r (disc_link dist check ss r) /\
                         cheapest dist check start goal ss r (disc_link dist check ss r) d len
      end.
  Proof.
    intros Es Hr Hx.
    assert (Er : setting_radius max_r rads x = Some r).
    { destruct x as [i|]; simpl in *; [|congruence].
      destruct (py_index_in _ rads i (Hx i eq_refl)) as (y & -> & N). congruence. }
    unfold ask_radius. rewrite Er. unfold fc_set_radius. rewrite Es.
    unfold fc_grow. cbn [fc_samples]. rewrite Nat.ltb_irrefl. rewrite Nat.sub_diag.
    cbn [fst snd fc_conn_r fc_next fc_samples draw seq map]. rewrite app_nil_r, Nat.add_0_r.
    unfold fc_query. cbn [fc_samples fc_graph fc_conn_r fc_next].
    pose proof (fc_build_exact dist check smp ss r dist_sym) as X.
    pose proof (exact_is_roadmap dist check dist_nonneg ss r _ X) as RM.
    destruct (query_best_spec dist check dist_nonneg sp ss _ r start goal SP RM) as (d & path & g' & Eq & R & _).
    rewrite Eq.
    destruct (exact_links ss r _ X) as [L1 L2].
    destruct (right_answers ss r _ _ d path L1 L2 R) as (a & Ea & Ha).
    exists a. eexists. rewrite Ea. split; [reflexivity|]. split; [split; reflexivity|exact Ha].
  Qed.

  Lemma np_unique_distances ss r :
    distances dist check ss r (np_unique (map snd (fc_edges dist check ss r))).
  Proof.
    destruct (np_unique_spec (map snd (fc_edges dist check ss r))) as [H1 H2].
    split; auto. intro x. rewrite H2. split.
    - intros (z & Hz & Ez). apply in_map_iff in Hz. destruct Hz as [[[i j] w] [Ew Hw]]. simpl in Ew. subst z.
      apply fc_edges_In in Hw. destruct Hw as [(p & q & Ep & Eq & Hd & Hc) ->].
      rewrite (dist_ids_nth dist ss i j p q Ep Eq) in Ez. exists i, j, p, q. auto.
    - intros (i & j & p & q & Ep & Eq & Ed & Hd & Hc). exists (dist p q). split; auto.
      apply in_map_iff. exists (i, j, dist_ids dist ss i j). split; [simpl; now rewrite (dist_ids_nth dist ss i j p q Ep Eq)|].
      apply fc_edges_In. split; auto. exists p, q. auto.
  Qed.

  Lemma rads_le ss max_r rads r : distances dist check ss max_r rads -> In r rads -> (r <= max_r)%Q.
  Proof.
    intros [_ H] Hr. destruct (proj1 (H r)) as (i & j & p & q & _ & _ & E & L & _).
    - exists r. split; auto. reflexivity.
    - now rewrite <- E.
  Qed.

  Lemma sorted_nth : forall (l : list Q) i j a b, StronglySorted Qlt l -> (i <= j)%nat ->
    nth_error l i = Some a -> nth_error l j = Some b -> (a <= b)%Q.
  Proof.
    induction l as [|x l IH]; intros i j a b H L Ha Hb; [destruct i; discriminate|].
    inversion H as [|? ? H1 H2]; subst. destruct i as [|i], j as [|j]; simpl in *; try lia.
    - injection Ha as <-. injection Hb as <-. apply Qle_refl.
    - injection Ha as <-. apply nth_error_In in Hb. rewrite Forall_forall in H2. apply Qlt_le_weak. auto.
    - apply (IH i j); auto. lia.
  Qed.

  Lemma radius_ok_mono ss max_r rads i j : distances dist check ss max_r rads -> (i <= j < length rads)%nat ->
    radius_ok dist check start goal ss rads max_r (Some i) -> radius_ok dist check start goal ss rads max_r (Some j).
  Proof.
    intros D L (r & N & H). destruct (nth_error_ex rads j) as [r' N']; [lia|].
    exists r'. split; auto. apply (solvable_mono ss ss r r'); [auto| |exact H].
    apply (sorted_nth rads i j r r'); auto; [exact (proj1 D)|lia].
  Qed.

  Lemma radius_ok_max ss max_r rads i : distances dist check ss max_r rads ->
    radius_ok dist check start goal ss rads max_r (Some i) -> radius_ok dist check start goal ss rads max_r None.
  Proof.
    intros D (r & N & H). exists max_r. split; [reflexivity|]. apply (solvable_mono ss ss r max_r); [auto| |exact H].
    eapply rads_le; eauto. eapply nth_error_In; eauto.
  Qed.

  (** The record of a pass; short rows have not been filled up yet. *)
  Definition unpadded (row : list cell) (raw : list cell) : Prop := row = pad 12 raw.

  Lemma radius_pass_row max_r dim clear seed st n ss : fc_samples (snd (fc_grow dist check smp
      (mkFc max_r (fc_samples st) (fc_graph st) (fc_next st)) n)) = Some ss ->
    (exists ds, fst (fc_grow dist check smp (mkFc max_r (fc_samples st) (fc_graph st) (fc_next st)) n) = Ok ds) ->
    length ss = n ->
    exists raw st', radius_pass dist check smp sp start goal max_r dim clear seed st n = Some (Ok raw, st') /\
      fc_samples st' = Some ss /\
      fc_next st' = fc_next (snd (fc_grow dist check smp (mkFc max_r (fc_samples st) (fc_graph st) (fc_next st)) n)) /\
      (length raw <= 12)%nat /\
      (length raw = 12%nat <-> exists x, In x (map snd (fc_edges dist check ss max_r))) /\
      radius_row dist check start goal max_r dim clear seed ss (pad 12 raw).
  Proof.
    intros Es [ds Eds] Len. unfold radius_pass.
    destruct (fc_grow dist check smp _ n) as [out st1] eqn:G. simpl in Es, Eds. subst out.
    assert (Ds : ds = map snd (fc_edges dist check ss max_r)).
    { unfold fc_grow in G. cbn [fc_samples fc_conn_r fc_next] in G.
      destruct (fc_samples st) as [old|]; [destruct (Nat.ltb n (length old)); [discriminate|]|];
        injection G as <- <-; cbn [fc_samples] in Es; injection Es as <-; reflexivity. }
    pose proof (np_unique_distances ss max_r) as D. rewrite <- Ds in D.
    assert (Emp : np_unique ds <> [] <-> exists x, In x ds).
    { destruct (np_unique_spec ds) as [_ U]. split.
      - intro H. destruct (np_unique ds) as [|y l]; [congruence|].
        destruct (proj1 (U y)) as (z & Hz & _); [exists y; split; [left; auto|reflexivity]|]. eauto.
      - intros [x Hx] E. destruct (proj2 (U x)) as (z & Hz & _); [exists x; split; [auto|reflexivity]|].
        rewrite E in Hz. destruct Hz. }
    rewrite <- Ds. cbn [snd]. set (rads := np_unique ds) in *. clearbody rads.
    destruct rads as [|r [|r2 rest]].
    - eexists _, _. split; [reflexivity|]. split; [auto|]. split; [auto|]. split; [simpl; lia|].
      split; [split; [discriminate|intro H; exfalso; apply Emp in H; congruence]|].
      exists []. split; auto. rewrite Len. reflexivity.
    - (* one distance *)
      destruct (ask_radius_ok max_r [r] st1 (At 0) r ss Es eq_refl) as (a & st2 & Ea & (Es2 & En2) & Ha).
      { intros i [= <-]. simpl. lia. }
      change (search_run RadiusPrm (Z.of_nat (length [r])) (ask_radius dist check smp sp start goal max_r [r]) st1)
        with (match ask_radius dist check smp sp start goal max_r [r] st1 (At 0) with
              | (Err e, st1) => Some (Err e, st1)
              | (Ok None, st1) => Some (Ok {| o_lb := Some 0; o_ub := None; o_thresh := None;
                                              o_info := OneNoPath; o_asked := [At 0] |}, st1)
              | (Ok (Some d), st1) => Some (Ok {| o_lb := None; o_ub := Some 0; o_thresh := Some d;
                                                  o_info := OnePath; o_asked := [At 0] |}, st1)
              end).
      rewrite Ea. destruct a as [[d len]|].
      + eexists _, _. split; [reflexivity|]. split; [auto|]. split; [auto|]. split; [simpl; lia|].
        split; [split; [intros _; apply Emp; discriminate|reflexivity]|].
        exists [r]. split; auto. right. exists d, len. split; [tauto|]. rewrite Len. reflexivity.
      + eexists _, _. split; [reflexivity|]. split; [auto|]. split; [auto|]. split; [simpl; lia|].
        split; [split; [intros _; apply Emp; discriminate|reflexivity]|].
        exists [r]. split; auto. left. split; auto. rewrite Len. reflexivity.
    - set (rads := r :: r2 :: rest) in *.
      destruct (search_run_sound RadiusPrm (Z.of_nat (length rads))
                  (ask_radius dist check smp sp start goal max_r rads)
                  (fun s => fc_samples s = Some ss /\ fc_next s = fc_next st1)
                  (answers (radius_ok dist check start goal ss rads max_r)
                           (radius_best dist check start goal ss rads max_r)))
        with (st := st1) as (q & o & st2 & Hq & Er & (Es2 & En2) & So); auto.
      { intros s x [Hs1 Hs2] Hx.
        assert (Hin : forall i, x = At i -> 0 <= i < Z.of_nat (length rads)).
        { intros i ->. destruct Hx as [?|[j [[= <-] ?]]]; [discriminate|lia]. }
        assert (Hr : exists r, radius_at rads max_r (setting_pos x) r).
        { destruct x as [i|]; [|exists max_r; reflexivity]. specialize (Hin i eq_refl).
          apply (nth_error_ex rads (Z.to_nat i)). lia. }
        destruct Hr as [r' Hr'].
        destruct (ask_radius_ok max_r rads s x r' ss Hs1 Hr' Hin) as (a & s' & Ea & (E1 & E2) & Ha).
        exists a, s'. split; auto. split; [split; congruence|]. unfold answers.
        assert (Uniq : forall r'', radius_at rads max_r (setting_pos x) r'' -> r'' = r').
        { intros r'' H. destruct (setting_pos x); simpl in *; congruence. }
        destruct a as [[d len]|].
        - split; exists r'; tauto.
        - intros (r'' & H1 & H2). rewrite (Uniq r'' H1) in H2. contradiction. }
      { unfold rads. simpl length. lia. }
      rewrite Er.
      destruct (record_critical RadiusPrm dim clear (Z.of_nat n) seed rads
                  (radius_ok dist check start goal ss rads max_r)
                  (radius_best dist check start goal ss rads max_r) q o) as (raw & Eraw & Crit); auto.
      { unfold rads. simpl length. lia. }
      { intros i j Hij. apply radius_ok_mono; auto. lia. }
      { intros i _. apply radius_ok_max; auto. }
      exists raw, st2. rewrite Eraw. split; [reflexivity|]. split; auto. split; auto.
      assert (L12 : length raw = 12%nat).
      { destruct Crit as [(? & ? & ? & ? & ? & _ & _ & -> & _)|(? & _ & _ & _ & ->)]; reflexivity. }
      split; [lia|]. split; [split; [intros _; apply Emp; discriminate|auto]|].
      exists rads. split; auto. unfold rads at 1. rewrite Len.
      unfold pad. rewrite L12. simpl repeat. rewrite app_nil_r. exact Crit.
  Qed.

  (** ** The whole trial *)

  (** The first n states drawn after the constructor's *)
  Definition first_samples (pos n : nat) : list P := map smp (seq (Datatypes.S pos) n).

  Definition at_size (pos m : nat) (st : fc_state (P := P)) : Prop :=
    (fc_samples st = Some (first_samples pos m) \/ m = O /\ fc_samples st = None) /\
    fc_next st = (Datatypes.S pos + m)%nat.

  Lemma seq_split a m k : seq a (m + k) = seq a m ++ seq (a + m) k.
  Proof. apply seq_app. Qed.

  Lemma grow_at_size r pos m st n : at_size pos m st -> (m <= n)%nat ->
    let out := fc_grow dist check smp (mkFc r (fc_samples st) (fc_graph st) (fc_next st)) n in
    (exists ds, fst out = Ok ds) /\ fc_samples (snd out) = Some (first_samples pos n) /\
    fc_next (snd out) = (Datatypes.S pos + n)%nat.
  Proof.
    intros [Hs Hn] L. unfold fc_grow. cbn [fc_samples fc_next fc_conn_r]. rewrite Hn.
    destruct Hs as [->|[-> ->]]; cbn [fst snd].
    - assert (Lm : length (first_samples pos m) = m) by (unfold first_samples; now rewrite map_length, seq_length).
      rewrite Lm. destruct (Nat.ltb_spec n m); [lia|]. cbn [fst snd fc_samples fc_next].
      split; [eauto|]. split; [|lia]. f_equal. unfold draw, first_samples. rewrite <- map_app.
      rewrite <- seq_app. do 2 f_equal. lia.
    - cbn [fc_samples fc_next]. split; [eauto|]. rewrite Nat.add_0_r. split; auto.
  Qed.

  (** The schedule does not shrink. *)
  Fixpoint ascending_from (m : nat) (schedule : list nat) : Prop :=
    match schedule with [] => True | n :: rest => (m <= n)%nat /\ ascending_from n rest end.

  Lemma all_passes_rows max_r dim clear seed pos : forall schedule m st,
    ascending_from m schedule -> at_size pos m st ->
    exists raws st', all_passes (radius_pass dist check smp sp start goal max_r dim clear seed) st schedule
                     = Some (Ok raws, st') /\
      Forall2 (fun n raw => (length raw <= 12)%nat /\
        (length raw = 12%nat <-> exists x, In x (map snd (fc_edges dist check (first_samples pos n) max_r))) /\
        radius_row dist check start goal max_r dim clear seed (first_samples pos n) (pad 12 raw)) schedule raws.
  Proof.
    induction schedule as [|n schedule IH]; intros m st Asc At; [eexists _, _; split; [reflexivity|constructor]|].
    destruct Asc as [L Asc]. cbn [all_passes].
    destruct (grow_at_size max_r pos m st n At L) as (Ok_ & Es & En).
    destruct (radius_pass_row max_r dim clear seed st n (first_samples pos n) Es Ok_) as
      (raw & st1 & E1 & Es1 & En1 & Hrow).
    { unfold first_samples. now rewrite map_length, seq_length. }
    rewrite E1. destruct (IH n st1 Asc) as (raws & st2 & E2 & HF).
    { split; [left; auto|]. rewrite En1, En. reflexivity. }
    rewrite E2. eexists _, _. split; [reflexivity|]. constructor; auto.
  Qed.

  (** A radius trial over a schedule that does not shrink, where some sample count has a connection
      (a valid motion within the radius): it ends without an error, and its frame has one row per
      sample count, saying what [radius_row] says about the samples drawn so far. *)
  Theorem radius_trial_rows : forall max_r dim clear seed pos schedule,
    ascending_from 0 schedule ->
    (exists n i j, In n schedule /\ near_valid dist check (first_samples pos n) max_r i j) ->
    exists rows, radius_trial dist check smp sp start goal max_r dim clear seed pos schedule = Some (Ok (Some rows)) /\
      Forall2 (fun n row => radius_row dist check start goal max_r dim clear seed (first_samples pos n) row)
              schedule rows.
  Proof.
    intros max_r dim clear seed pos schedule Asc (n & i & j & Hn & Near). unfold radius_trial.
    destruct (all_passes_rows max_r dim clear seed pos schedule 0 (fc_new max_r pos) Asc) as (raws & st' & E & HF).
    { split; [right; auto|]. simpl. lia. }
    rewrite E. unfold data_frame.
    assert (Full : exists raw, In raw raws /\ length raw = 12%nat).
    { clear - HF Hn Near. induction HF as [|m raw sch raws (_ & H & _) HF IH]; [destruct Hn|].
      destruct Hn as [->|Hn].
      - exists raw. split; [left; auto|]. apply H. destruct Near as (p & q & Np & Nq & Nd & Nc).
        exists (dist_ids dist (first_samples pos n) i j). apply in_map_iff.
        exists (i, j, dist_ids dist (first_samples pos n) i j). split; auto.
        apply fc_edges_In. split; auto. exists p, q. auto.
      - destruct (IH Hn) as (r & Hr & E). exists r. split; [right; auto|auto]. }
    assert (Max : list_max (map (@length cell) raws) = 12%nat).
    { apply Nat.le_antisymm.
      - apply list_max_le. apply Forall_map. clear - HF. induction HF as [|? ? ? ? (H & _) HF IH]; auto.
      - destruct Full as (raw & Hraw & E12). rewrite <- E12.
        assert (H := proj1 (list_max_le (map (@length cell) raws) _) (Nat.le_refl _)).
        rewrite Forall_forall in H. apply H. apply in_map. exact Hraw. }
    destruct raws as [|raw0 raws']; [destruct Full as (? & [] & _)|].
    rewrite Max. simpl Nat.eqb. cbv iota. eexists. split; [reflexivity|].
    clear - HF. induction HF as [|? ? ? ? (_ & _ & H) HF IH]; simpl; constructor; auto.
  Qed.

  (** ** More samples do not destroy the solution *)

  Definition has_solution (row : list cell) : Prop := nth 5 row CNan <> CNan.

  Lemma row_has_solution max_r dim clear seed ss row :
    radius_row dist check start goal max_r dim clear seed ss row ->
    exists rads, distances dist check ss max_r rads /\
    (has_solution row <->
     match rads with
     | [] => False
     | [r] => solvable dist check start goal ss r (disc_link dist check ss r)
     | _ => solvable dist check start goal ss max_r (disc_link dist check ss max_r)
     end).
  Proof.
    intros (rads & D & H). exists rads. split; auto. unfold has_solution.
    destruct rads as [|r [|r2 rest]].
    - subst row. simpl. tauto.
    - destruct H as [[N ->]|(d & len & [(ids & Sol & _) _] & ->)]; simpl; split; intro K; try tauto; try discriminate.
      exists ids, d. exact Sol.
    - destruct H as [(i & a & b & d & len & _ & _ & -> & _ & (r' & Hr & Ok_) & _)|(a & _ & N & _ & ->)]; simpl.
      + simpl in Hr. subst r'. split; [auto|discriminate].
      + split; [tauto|]. intro K. exfalso. apply N. exists max_r. split; [reflexivity|auto].
  Qed.

  Lemma distances_single ss ss' max_r rads r' :
    (forall i p, nth_error ss i = Some p -> nth_error ss' i = Some p) ->
    distances dist check ss max_r rads -> distances dist check ss' max_r [r'] ->
    forall r, In r rads -> (r == r')%Q.
  Proof.
    intros Hs [_ D] [_ D'] r Hr.
    destruct (proj1 (D r)) as (i & j & p & q & N1 & N2 & E & L & C); [exists r; split; [auto|reflexivity]|].
    destruct (proj2 (D' r)) as (y & [<-|[]] & Ey); [exists i, j, p, q; auto|]. now symmetry.
  Qed.

  Lemma distances_nonempty ss ss' max_r rads :
    (forall i p, nth_error ss i = Some p -> nth_error ss' i = Some p) ->
    distances dist check ss max_r rads -> rads <> [] -> ~ distances dist check ss' max_r [].
  Proof.
    intros Hs [_ D] Ne [_ D']. destruct rads as [|r rads]; [congruence|].
    destruct (proj1 (D r)) as (i & j & p & q & N1 & N2 & E & L & C); [exists r; split; [left; auto|reflexivity]|].
    destruct (proj2 (D' r)) as (y & [] & _). exists i, j, p, q. auto.
  Qed.

  (** tests/test_exps.py 14-38 for all seeds, schedules and worlds: of two rows of a radius trial,
      if the one with fewer samples has a solution, so has the one with more. *)
  Theorem radius_more_samples_keep_solution : forall max_r dim clear seed pos schedule rows n n' row row' i j,
    ascending_from 0 schedule ->
    radius_trial dist check smp sp start goal max_r dim clear seed pos schedule = Some (Ok (Some rows)) ->
    (exists n i j, In n schedule /\ near_valid dist check (first_samples pos n) max_r i j) ->
    nth_error schedule i = Some n -> nth_error rows i = Some row ->
    nth_error schedule j = Some n' -> nth_error rows j = Some row' ->
    (n <= n')%nat -> has_solution row -> has_solution row'.
  Proof.
    intros max_r dim clear seed pos schedule rows n n' row row' i j Asc E Near Hn Hrow Hn' Hrow' L Sol.
    destruct (radius_trial_rows max_r dim clear seed pos schedule Asc Near) as (rows' & E' & HF).
    rewrite E in E'. injection E' as <-.
    assert (At : forall i n row, nth_error schedule i = Some n -> nth_error rows i = Some row ->
                 radius_row dist check start goal max_r dim clear seed (first_samples pos n) row).
    { clear - HF. induction HF; intros [|i] n row H1 H2; simpl in *; try discriminate.
      - injection H1 as <-. injection H2 as <-. auto.
      - eauto. }
    destruct (row_has_solution _ _ _ _ _ _ (At i n row Hn Hrow)) as (rads & D & HS).
    destruct (row_has_solution _ _ _ _ _ _ (At j n' row' Hn' Hrow')) as (rads' & D' & HS').
    apply HS in Sol. apply HS'. clear HS HS'.
    assert (Pre : forall i p, nth_error (first_samples pos n) i = Some p -> nth_error (first_samples pos n') i = Some p).
    { intros k p H. unfold first_samples in *. replace n' with (n + (n' - n))%nat by lia.
      rewrite seq_app, map_app, nth_error_app1; auto. eapply nth_error_lt; eauto. }
    assert (Ne : rads <> []) by (intros ->; destruct Sol).
    assert (SolM : solvable dist check start goal (first_samples pos n') max_r (disc_link dist check (first_samples pos n') max_r)).
    { destruct rads as [|r [|r2 rest]]; [destruct Sol| |]; (eapply solvable_mono; [exact Pre| |exact Sol]).
      - eapply rads_le; [exact D|left; auto].
      - apply Qle_refl. }
    destruct rads' as [|r' [|r2' rest']].
    - eapply distances_nonempty; eauto.
    - destruct rads as [|r [|r2 rest]]; [destruct Sol| |].
      + eapply solvable_mono; [exact Pre| |exact Sol].
        rewrite (distances_single _ _ _ _ _ Pre D D' r (or_introl eq_refl)). apply Qle_refl.
      + exfalso. pose proof (distances_single _ _ _ _ _ Pre D D' r (or_introl eq_refl)).
        pose proof (distances_single _ _ _ _ _ Pre D D' r2 (or_intror (or_introl eq_refl))).
        destruct D as [Srt _]. inversion Srt as [|? ? _ F]; subst. inversion F; subst. lra.
    - exact SolM.
  Qed.
End Radius.
Print Assumptions radius_trial_rows.
Print Assumptions radius_more_samples_keep_solution.

(** * C135: the neighbour trial *)

Section NearestSpec.
  Context {P : Type}.
  Variable dist : P -> P -> Q.
  Variable check : P -> P -> bool.
  Variables start goal : P.

  (** Samples joined in the roadmap of k neighbours cut from the neighbour array nn: one lists the
      other with a valid motion, and neither lists the other at position k or later. *)
  Definition knn_link (ss : list P) (nn : rows) (k : nat) (u v : nat) (w : Q) : Prop :=
    (nn_link check ss nn 0 None u v w \/ nn_link check ss nn 0 None v u w) /\
    (forall i d, lists_at nn u v i d -> (i < k)%nat) /\ (forall i d, lists_at nn v u i d -> (i < k)%nat).

  (** The number of neighbours of a setting: 2^(j+2), or max_connections *)
  Definition knn_at (max_k : nat) (x : option nat) (k : nat) : Prop :=
    match x with None => k = max_k | Some j => Z.of_nat k = 2 ^ (Z.of_nat j + 2) end.

  Definition knn_ok (ss : list P) (nn : rows) (cert : Q) (max_k : nat) (x : option nat) : Prop :=
    exists k, knn_at max_k x k /\ solvable dist check start goal ss cert (knn_link ss nn k).
  Definition knn_best (ss : list P) (nn : rows) (cert : Q) (max_k : nat) (x : option nat) (d : Q) (len : Z) : Prop :=
    exists k, knn_at max_k x k /\ cheapest dist check start goal ss cert (knn_link ss nn k) d len.

  (** The shortest last distance of the array *)
  Definition shortest_last (nn : rows) (cert : Q) : Prop :=
    reaches nn cert /\ exists row l x, In row nn /\ row = l ++ [(x, cert)].

  (** 4, 8, ..., 2^top *)
  Definition powers (top : Z) (ks : list Q) : Prop :=
    Z.of_nat (length ks) = top - 1 /\
    forall j, (j < length ks)%nat -> nth_error ks j = Some (inject_Z (2 ^ (Z.of_nat j + 2))).

  (** The row of a neighbour roadmap over the samples ss, the k nearest listed exactly for
      k = max_connections (or all other samples): the query points are connected to every sample
      within the shortest last distance. *)
  Definition knn_row (max_k : nat) (top : Z) (dim : Z) (clear : Q) (seed : nat) (ss : list P) (row : list cell) : Prop :=
    exists nn cert ks, nn_shape dist ss (Nat.min max_k (length ss - 1)) nn /\ shortest_last nn cert /\ powers top ks /\
      critical_row KnnPrm dim clear (Z.of_nat (length ss)) seed ks (knn_ok ss nn cert max_k) (knn_best ss nn cert max_k) row.
End NearestSpec.

Lemma knn_conns_powers top : 1 <= top -> powers top (knn_conns top).
Proof.
  intro H. unfold powers, knn_conns. rewrite map_length, seq_length. split; [lia|].
  intros j Hj. rewrite nth_error_map.
  assert (E : nth_error (seq 2 (Z.to_nat (top - 1))) j = Some (2 + j)%nat).
  { rewrite (nth_error_nth' _ 0%nat) by (rewrite seq_length; lia). f_equal. rewrite seq_nth; lia. }
  rewrite E. cbn [option_map]. do 3 f_equal. lia.
Qed.

Section Nearest.
  Context {P : Type}.
  Variable dist : P -> P -> Q.
  Variable check : P -> P -> bool.
  Variable smp : nat -> P.
  Variable sp : sp_oracle.
  Variables start goal : P.
  Variable ann : list P -> nat -> rows.
  Hypothesis dist_nonneg : forall p q, (0 <= dist p q)%Q.
  Hypothesis dist_sym : forall p q, (dist p q == dist q p)%Q.
  Hypothesis SP : sp_correct sp.
  Hypothesis ANN : ann_shape dist ann.

  Definition keeps (nn : rows) (k u v : nat) : Prop :=
    (forall i d, lists_at nn u v i d -> (i < k)%nat) /\ (forall i d, lists_at nn v u i d -> (i < k)%nat).

  (** What holds between the calls of one pass *)
  Record in_pass (max_k : nat) (ss : list P) (kk : nat) (cert : Q) (c : graph) (next : nat)
    (st : nn_state (P := P)) : Prop := {
    ip_samples : nn_samples st = Some ss;
    ip_max : nn_max_k st = max_k;
    ip_radius : nn_conn_r st = None;
    ip_trunc : nn_trunc st = false;
    ip_cert : nn_cert st = Some cert;
    ip_master : nn_master st = Some (ann ss kk);
    ip_cache : nn_cache st = Some c;
    ip_next : nn_next st = next;
    ip_graph : exists g, nn_graph st = Some g /\ wf g /\ vertices_are_samples ss g /\
                 forall u v w, edge g u v w <-> edge c u v w /\ keeps (ann ss kk) (nn_k st) u v }.

  Lemma keeps_mono nn k k' u v : (k <= k')%nat -> keeps nn k u v -> keeps nn k' u v.
  Proof. intros L [H1 H2]. split; intros i d H; [specialize (H1 i d H)|specialize (H2 i d H)]; lia. Qed.

  Lemma throw_away_keeps nn k u v :
    ~ In (u, v) (throw_away nn k) /\ ~ In (v, u) (throw_away nn k) <-> keeps nn k u v.
  Proof.
    rewrite !(throw_away_In check smp). unfold keeps. split.
    - intros [H1 H2]. split; intros i d H; destruct (Nat.lt_ge_cases i k); auto; exfalso;
        [apply H1|apply H2]; eauto.
    - intros [H1 H2]. split; intros (i & d & L & H); [specialize (H1 i d H)|specialize (H2 i d H)]; lia.
  Qed.

  Lemma set_k_in_pass max_k ss kk cert c next st k : in_pass max_k ss kk cert c next st ->
    nn_roadmap check ss (ann ss kk) 0 None c -> (k <= max_k)%nat ->
    exists st', nn_set_k st k = (Ok tt, st') /\ in_pass max_k ss kk cert c next st' /\ nn_k st' = k.
  Proof.
    intros [A1 A2 A3 A4 A5 A6 A7 A8 (g & Eg & W & V & Ed)] Hn L. unfold nn_set_k. rewrite A2.
    destruct (Nat.ltb_spec max_k k); [lia|].
    assert (Wc : wf c) by apply Hn. assert (Vc : vertices_are_samples ss c) by apply Hn.
    assert (H0 : exists g0, (if Nat.ltb (nn_k st) k
                  then match nn_cache st with Some g => Ok (Some g) | None => Err FileError end
                  else Ok (nn_graph st)) = Ok (Some g0) /\ wf g0 /\ vertices_are_samples ss g0 /\
                  forall u v w, edge g0 u v w /\ keeps (ann ss kk) k u v <-> edge c u v w /\ keeps (ann ss kk) k u v).
    { destruct (Nat.ltb_spec (nn_k st) k).
      - rewrite A7. exists c. split; auto. split; auto. split; auto. intros; tauto.
      - rewrite Eg. exists g. split; auto. split; auto. split; auto.
        intros u v w. rewrite Ed. split; [tauto|]. intros [E K]. split; auto. split; auto.
        eapply keeps_mono; eauto. }
    destruct H0 as (g0 & -> & W0 & V0 & S0). rewrite A6.
    assert (F : in_pass max_k ss kk cert c next
                  (mkNn max_k k (nn_conn_r st) (nn_trunc st) (nn_cert st) (nn_samples st)
                     (Some (drop_edges (throw_away (ann ss kk) k) g0)) (Some (ann ss kk)) (nn_cache st) (nn_next st))).
    { destruct (drop_edges_spec check smp (throw_away (ann ss kk) k) g0 W0) as (W1 & A' & _ & S1).
      constructor; simpl; auto. exists (drop_edges (throw_away (ann ss kk) k) g0).
      split; auto. split; auto. split; [intro i; rewrite A'; apply V0|].
      intros u v w. rewrite S1, throw_away_keeps. apply S0. }
    destruct (throw_away (ann ss kk) k) as [|e es]; eexists; (split; [reflexivity|]); split; auto.
  Qed.

  Lemma knn_links max_k ss kk cert c next st g : in_pass max_k ss kk cert c next st ->
    nn_roadmap check ss (ann ss kk) 0 None c -> nn_graph st = Some g ->
    (forall i j w, edge g i j w -> exists w', knn_link check ss (ann ss kk) (nn_k st) i j w' /\ (w' == w)%Q) /\
    (forall i j w, knn_link check ss (ann ss kk) (nn_k st) i j w -> exists w', edge g i j w' /\ (w' == w)%Q).
  Proof.
    intros [_ _ _ _ _ _ _ _ (g' & Eg' & W & V & Ed)] (_ & _ & Ec & Wt) Eg.
    assert (g' = g) by congruence. subst g'.
    destruct (ANN ss kk) as (_ & _ & _ & D).
    assert (Wd : forall u v w, nn_link check ss (ann ss kk) 0 None u v w \/ nn_link check ss (ann ss kk) 0 None v u w ->
              exists p q, nth_error ss u = Some p /\ nth_error ss v = Some q /\ (w == dist p q)%Q).
    { intros u v w [(_ & [i Hi] & _)|(_ & [i Hi] & _)]; destruct (D _ _ _ _ Hi) as (p & q & H1 & H2 & H3).
      - exists p, q. auto.
      - exists q, p. split; auto. split; auto. now rewrite dist_sym. }
    split; intros i j w H.
    - apply Ed in H. destruct H as [E K]. exists w. split; [|reflexivity]. split; [apply Wt; auto|exact K].
    - destruct H as [N K]. destruct (proj2 (Ec i j)) as [w' E]; [exists w; auto|].
      exists w'. split; [apply Ed; auto|].
      destruct (Wd i j w N) as (p & q & H1 & H2 & ->). destruct (Wd i j w' (Wt _ _ _ E)) as (p' & q' & H4 & H5 & ->).
      assert (p' = p) by congruence. assert (q' = q) by congruence. subst. reflexivity.
  Qed.

  Lemma ask_knn_ok max_k ks ss kk cert c next st x k : in_pass max_k ss kk cert c next st ->
    nn_roadmap check ss (ann ss kk) 0 None c ->
    setting_k max_k ks x = Some k -> (k <= max_k)%nat ->
    exists a st', ask_knn dist check sp start goal max_k ks st x = (Ok a, st') /\
      in_pass max_k ss kk cert c next st' /\
      match a with
      | None => ~ solvable dist check start goal ss cert (knn_link check ss (ann ss kk) k)
      | Some (d, len) => solvable dist check start goal ss cert (knn_link check ss (ann ss kk) k) /\
                         cheapest dist check start goal ss cert (knn_link check ss (ann ss kk) k) d len
      end.
  Proof.
    intros HI Hn Ek L. unfold ask_knn. rewrite Ek.
    destruct (set_k_in_pass max_k ss kk cert c next st k HI Hn L) as (st1 & -> & HI1 & K1).
    pose proof HI1 as HI1'.
    destruct HI1' as [A1 A2 A3 A4 A5 A6 A7 A8 (g & Eg & W & V & Ed)].
    unfold nn_query. rewrite A1, A3, A5, Eg.
    assert (RM : roadmap ss g).
    { eapply (sub_roadmap dist check dist_nonneg dist_sym); [exact (ANN ss kk)|exact Hn|auto|auto|].
      intros u v w E. apply Ed in E. tauto. }
    destruct (query_best_spec dist check dist_nonneg sp ss g cert start goal SP RM) as (d & path & g' & Eq & R & Same & Up).
    rewrite Eq.
    destruct (knn_links max_k ss kk cert c next st1 g HI1 Hn Eg) as [L1 L2]. rewrite K1 in L1, L2.
    destruct (right_answers dist check start goal ss cert _ _ d path L1 L2 R) as (a & Ea & Ha).
    exists a. eexists. rewrite Ea. split; [reflexivity|]. split; [|exact Ha].
    constructor; simpl; auto. exists g'. split; auto.
    split; [apply (same_graph_wf g g'); auto; lia|]. destruct Same as [A' O]. split.
    - intro i. rewrite A'. apply V.
    - intros u v w. unfold edge in *. rewrite O. apply Ed.
  Qed.

  Lemma knn_link_mono ss nn k k' : (k <= k')%nat -> forall i j w,
    knn_link check ss nn k i j w -> exists w', knn_link check ss nn k' i j w' /\ (w' == w)%Q.
  Proof.
    intros L i j w [N K]. exists w. split; [|reflexivity]. split; auto.
    exact (keeps_mono nn k k' i j L K).
  Qed.

  Lemma knn_ok_mono ss nn cert max_k x y k k' : knn_at max_k x k -> knn_at max_k y k' -> (k <= k')%nat ->
    knn_ok dist check start goal ss nn cert max_k x -> knn_ok dist check start goal ss nn cert max_k y.
  Proof.
    intros Hx Hy L (k0 & H0 & (ids & cost & H)).
    assert (k0 = k). { destruct x; simpl in *; lia. } subst k0.
    exists k'. split; auto. exists ids, cost.
    apply (solution_mono dist check ss ss cert cert (knn_link check ss nn k) (knn_link check ss nn k'));
      [auto|apply Qle_refl|apply knn_link_mono; auto|exact H].
  Qed.

  (** top = round(math.log2(max_connections)): within one half of the logarithm *)
  Definition rounds_log2 (max_k : nat) (top : Z) : Prop :=
    2 ^ (2 * top - 1) <= Z.of_nat max_k * Z.of_nat max_k <= 2 ^ (2 * top + 1).

  Lemma rounds_lower max_k top j : 1 <= top -> rounds_log2 max_k top -> 0 <= j -> j + 2 < top ->
    2 ^ (j + 2) <= Z.of_nat max_k.
  Proof.
    intros Ht [H _] Hj Lt.
    assert (M : 2 ^ (j + 2) <= 2 ^ (top - 1)) by (apply Z.pow_le_mono_r; lia).
    assert (S : 2 ^ (2 * top - 1) = 2 * (2 ^ (top - 1) * 2 ^ (top - 1))).
    { rewrite <- Z.pow_add_r by lia. rewrite <- Z.pow_succ_r by lia. f_equal. lia. }
    assert (0 < 2 ^ (top - 1)) by (apply Z.pow_pos_nonneg; lia). nia.
  Qed.

  Definition before_pass (st : nn_state (P := P)) : nn_state :=
    mkNn (nn_max_k st) (nn_max_k st) (nn_conn_r st) (nn_trunc st) (nn_cert st) (nn_samples st)
         (nn_graph st) (nn_master st) (nn_cache st) (nn_next st).

  Lemma nearest_pass_row max_k top dim clear seed st n ss next :
    (1 <= max_k)%nat -> 3 <= top -> rounds_log2 max_k top -> (2 <= n)%nat -> length ss = n ->
    nn_max_k st = max_k -> nn_trunc st = false ->
    (nn_samples st = None /\ ss = draw smp (nn_next st) n /\ next = (nn_next st + n)%nat \/
     exists old, nn_samples st = Some old /\ (length old < n)%nat /\
       ss = old ++ draw smp (nn_next st) (n - length old) /\ next = (nn_next st + (n - length old))%nat) ->
    exists row st', nearest_pass dist check smp sp start goal ann max_k top dim clear seed st n = Some (Ok row, st') /\
      nn_samples st' = Some ss /\ nn_next st' = next /\ nn_max_k st' = max_k /\ nn_trunc st' = false /\
      length row = 12%nat /\ knn_row dist check start goal max_k top dim clear seed ss row.
  Proof.
    intros Hk Ht Hr Hn Len Mk Tr Hs. unfold nearest_pass. fold (before_pass st).
    set (kk := Nat.min (n - 1) max_k).
    destruct (shape_to_graph dist check ss _ (ann ss kk) 0 None (ANN ss kk)) as (g & Eg & Hg & Ug).
    pose proof (ANN ss kk) as Shape. destruct Shape as (Ln & Lr & Lv & Ld).
    destruct (KnnProb_Props.min_last_some (ann ss kk)) as (cert & Ec & (row0 & Ir0 & Er0)).
    { intro E. rewrite E in Ln. simpl in Ln. lia. }
    { intros row Hrow E. specialize (Lr row Hrow). subst row. simpl in Lr. unfold kk in Lr. lia. }
    assert (Gr : exists st1, nn_grow check smp ann (before_pass st) n = (Ok None, st1) /\
                   in_pass max_k ss kk cert g next st1).
    { unfold nn_grow, before_pass. cbn [nn_samples nn_next nn_max_k nn_k nn_trunc nn_cert nn_graph nn_master nn_cache].
      assert (Rb : forall s0 nx, nn_max_k s0 = max_k -> nn_k s0 = max_k -> nn_trunc s0 = false -> nx = next ->
                exists st1, nn_rebuild check ann s0 ss nx n = (Ok None, st1) /\ in_pass max_k ss kk cert g next st1).
      { intros s0 nx M0 K0 T0 ->. unfold nn_rebuild. rewrite K0. fold kk. rewrite Eg, Ec, T0.
        eexists. split; [reflexivity|]. constructor; simpl; auto.
        exists g. split; auto. split; [apply Hg|]. split; [apply Hg|].
        intros u v w. split; [|tauto]. intro E. split; auto.
        assert (B : forall a b i d, lists_at (ann ss kk) a b i d -> (i < max_k)%nat).
        { intros a b i d (row & H1 & H2). apply nth_error_lt in H2.
          rewrite (Lr row (nth_error_In _ _ H1)) in H2. unfold kk in H2. lia. }
        split; intros i d H; eapply B; eauto. }
      destruct Hs as [(Es & -> & ->)|(old & Es & Lo & -> & ->)]; rewrite Es.
      - apply Rb; simpl; auto.
      - destruct (Nat.leb_spec n (length old)); [lia|]. apply Rb; simpl; auto. }
    destruct Gr as (st1 & E1 & HI1). rewrite E1.
    set (ks := knn_conns top).
    assert (Pw : powers top ks) by (apply knn_conns_powers; lia).
    destruct Pw as [Lk Pk]. pose proof (conj Lk Pk : powers top ks) as Pw.
    assert (Setting : forall x, askable (Z.of_nat (length ks)) x ->
              exists k, setting_k max_k ks x = Some k /\ (k <= max_k)%nat /\ knn_at max_k (setting_pos x) k).
    { intros x [->|(i & -> & Hi)]; [exists max_k; simpl; auto|].
      destruct (py_index_in _ ks i) as (q & E2 & N2); [lia|]. simpl. rewrite E2.
      rewrite Pk in N2 by lia. injection N2 as <-. eexists. split; [reflexivity|].
      assert (2 ^ (i + 2) <= Z.of_nat max_k) by (apply (rounds_lower max_k top); auto; lia).
      assert (0 < 2 ^ (i + 2)) by (apply Z.pow_pos_nonneg; lia).
      rewrite Z2Nat.id by lia. simpl. split; [lia|]. rewrite Z2Nat.id by lia. reflexivity. }
    destruct (search_run_sound KnnPrm (Z.of_nat (length ks))
                (ask_knn dist check sp start goal max_k ks)
                (in_pass max_k ss kk cert g next)
                (answers (knn_ok dist check start goal ss (ann ss kk) cert max_k)
                         (knn_best dist check start goal ss (ann ss kk) cert max_k)))
      with (st := st1) as (q & o & st2 & Hq & Er & HI2 & So); auto.
    { intros s x Hsx Hx. destruct (Setting x Hx) as (k & Ek & L & Ak).
      destruct (ask_knn_ok max_k ks ss kk cert g next s x k Hsx Hg Ek L) as (a & s' & Ea & HI' & Ha).
      exists a, s'. split; auto. split; auto. unfold answers. destruct a as [[d len]|].
      - split; exists k; tauto.
      - intros (k' & H1 & H2). assert (k' = k).
        { destruct (setting_pos x); simpl in *; lia. }
        subst k'. contradiction. }
    { lia. }
    rewrite Er.
    destruct (record_critical KnnPrm dim clear (Z.of_nat n) seed ks
                (knn_ok dist check start goal ss (ann ss kk) cert max_k)
                (knn_best dist check start goal ss (ann ss kk) cert max_k) q o) as (row & Erow & Crit); auto.
    { lia. }
    { intros i j Hij Ok_.
      assert (Pos : forall m : nat, 0 < 2 ^ (Z.of_nat m + 2)) by (intro; apply Z.pow_pos_nonneg; lia).
      apply (knn_ok_mono _ _ _ _ (Some i) (Some j) (Z.to_nat (2 ^ (Z.of_nat i + 2))) (Z.to_nat (2 ^ (Z.of_nat j + 2)))); auto.
      - simpl. pose proof (Pos i). lia.
      - simpl. pose proof (Pos j). lia.
      - apply Z2Nat.inj_le; [pose proof (Pos i); lia|pose proof (Pos j); lia|]. apply Z.pow_le_mono_r; lia. }
    { intros i Hi Ok_.
      assert (Pos : forall m : nat, 0 < 2 ^ (Z.of_nat m + 2)) by (intro; apply Z.pow_pos_nonneg; lia).
      apply (knn_ok_mono _ _ _ _ (Some i) None (Z.to_nat (2 ^ (Z.of_nat i + 2))) max_k); auto.
      - simpl. pose proof (Pos i). lia.
      - simpl. reflexivity.
      - assert (2 ^ (Z.of_nat i + 2) <= Z.of_nat max_k) by (apply (rounds_lower max_k top); auto; lia).
        pose proof (Pos i). lia. }
    exists row, st2. rewrite Erow. split; [reflexivity|].
    destruct HI2 as [B1 B2 _ B4 _ _ _ B8 _]. split; auto. split; auto. split; auto. split; auto.
    split.
    { destruct Crit as [(? & ? & ? & ? & ? & _ & _ & -> & _)|(? & _ & _ & _ & ->)]; reflexivity. }
    exists (ann ss kk), cert, ks. split.
    { assert (Nat.min max_k (length ss - 1) = Nat.min kk (length ss - 1)) as -> by (unfold kk; lia). apply ANN. }
    split.
    { split.
      - intros row' Hrow'. destruct (min_last_le _ _ Ec row' Hrow') as (d & Ed & Ld').
        destruct (KnnProb_Props.last_dist_some row') as (d' & Ed' & v & _ & l & El).
        { intros ->. discriminate. }
        assert (d' = d) by congruence. subst d'. exists l, v, d. auto.
      - destruct (KnnProb_Props.last_dist_some row0) as (d' & Ed' & v & _ & l & El).
        { intros ->. discriminate. }
        assert (d' = cert) by congruence. subst d'. exists row0, l, v. auto. }
    split; auto. rewrite Len. exact Crit.
  Qed.

  (** The schedule grows, from two samples on. *)
  Fixpoint growing_from (m : nat) (schedule : list nat) : Prop :=
    match schedule with [] => True | n :: rest => (m < n)%nat /\ growing_from n rest end.

  Lemma all_nearest_rows max_k top dim clear seed pos : (1 <= max_k)%nat -> 3 <= top -> rounds_log2 max_k top ->
    forall schedule m st, growing_from m schedule -> (1 <= m)%nat ->
    nn_max_k st = max_k -> nn_trunc st = false ->
    (m = 1%nat /\ nn_samples st = None /\ nn_next st = S pos \/
     nn_samples st = Some (first_samples smp pos m) /\ nn_next st = (S pos + m)%nat) ->
    exists rows st', all_passes (nearest_pass dist check smp sp start goal ann max_k top dim clear seed) st schedule
                     = Some (Ok rows, st') /\
      Forall2 (fun n row => length row = 12%nat /\
        knn_row dist check start goal max_k top dim clear seed (first_samples smp pos n) row) schedule rows.
  Proof.
    intros Hk Ht Hr. induction schedule as [|n schedule IH]; intros m st Gro Hm Mk Tr Hs.
    { eexists _, _. split; [reflexivity|constructor]. }
    destruct Gro as [L Gro]. cbn [all_passes].
    destruct (nearest_pass_row max_k top dim clear seed st n (first_samples smp pos n) (S pos + n)) as
      (row & st1 & E1 & Es1 & En1 & M1 & T1 & L12 & Hrow); auto; try lia.
    { unfold first_samples. now rewrite map_length, seq_length. }
    { destruct Hs as [(Em & Es & En)|(Es & En)].
      - left. rewrite En. auto.
      - right. exists (first_samples smp pos m). split; auto.
        assert (Lm : length (first_samples smp pos m) = m) by (unfold first_samples; now rewrite map_length, seq_length).
        rewrite Lm, En. split; auto. split; [|lia]. unfold first_samples, draw. rewrite <- map_app, <- seq_app.
        do 2 f_equal. lia. }
    rewrite E1. destruct (IH n st1 Gro) as (rows & st2 & E2 & HF); auto; try lia.
    rewrite E2. eexists _, _. split; [reflexivity|]. constructor; auto.
  Qed.

  (** A neighbour trial over a growing schedule from two samples on, with max_connections at least
      the third power of two: it ends without an error, and its frame has one row per sample
      count, saying what [knn_row] says about the samples drawn so far. *)
  Theorem nearest_trial_rows : forall max_k top dim clear seed pos schedule,
    3 <= top -> rounds_log2 max_k top -> growing_from 1 schedule ->
    exists rows, nearest_trial dist check smp sp start goal ann max_k top dim clear seed pos schedule = Some (Ok (Some rows)) /\
      Forall2 (fun n row => knn_row dist check start goal max_k top dim clear seed (first_samples smp pos n) row)
              schedule rows.
  Proof.
    intros max_k top dim clear seed pos schedule Ht Hr Gro.
    assert (Hk : (1 <= max_k)%nat).
    { assert (H : 2 ^ (0 + 2) <= Z.of_nat max_k) by (apply (rounds_lower max_k top); auto; lia). simpl in H. lia. }
    unfold nearest_trial.
    destruct (all_nearest_rows max_k top dim clear seed pos Hk Ht Hr schedule 1 (nn_new max_k false pos) Gro)
      as (rows & st' & E & HF); auto; simpl; auto.
    rewrite E. exists rows. split.
    - do 2 f_equal. unfold data_frame. destruct rows as [|r0 rows]; auto.
      assert (L : forall r, In r (r0 :: rows) -> length r = 12%nat).
      { clear - HF. induction HF; simpl; [contradiction|]. intros r [<-|Hr]; [tauto|auto]. }
      assert (M : list_max (map (@length cell) (r0 :: rows)) = 12%nat).
      { apply Nat.le_antisymm.
        - apply list_max_le. apply Forall_map. apply Forall_forall. intros r Hin. rewrite (L r Hin). auto.
        - assert (H := proj1 (list_max_le (map (@length cell) (r0 :: rows)) _) (Nat.le_refl _)).
          rewrite Forall_forall in H. rewrite <- (L r0 (or_introl eq_refl)) at 1. apply H. apply in_map. left; auto. }
      rewrite M. simpl Nat.eqb. cbv iota. f_equal. rewrite <- map_id. apply map_ext_in.
      intros r Hin. unfold pad. rewrite (L r Hin). simpl. apply app_nil_r.
    - clear - HF. induction HF as [|? ? ? ? [_ H] HF IH]; constructor; auto.
  Qed.
End Nearest.
Print Assumptions nearest_trial_rows.

(** * Examples and refutations: integers on a line, enumerated shortest paths *)

Definition line_radius (ss : list Z) (s t : Z) (max_r : Q) (schedule : list nat) :=
  radius_trial zdist free (stream ss) sp_enum s t max_r 2 (1 # 10) 7 0 schedule.
Definition radius_line_row n lb ub d len i :=
  [CKind RadiusPrm; CDim 2; CClear (1 # 10); CSamples n; lb; ub; d; len; CTime; CTime; CInfo i; CSeed 7].

(** The hypotheses of [radius_trial_rows] hold here, and the frame is the expected one. *)
Example radius_trial_ex :
  ascending_from 0 [1%nat; 2%nat; 5%nat] /\
  near_valid zdist free (first_samples (stream [0; 1; 8; 3; 5]) 0 2) 10 0 1 /\
  line_radius [0; 1; 8; 3; 5] (-2) 10 10 [1%nat; 2%nat; 5%nat] =
    Some (Ok (Some [radius_line_row 1 (CConn 0) CNan CNan CNan OneNoPath;
                    radius_line_row 2 (CConn 0) (CConn 1) (CDist 12) (CLen 2) NoInfo;
                    radius_line_row 5 (CConn 2) (CConn 3) (CDist 12) (CLen 5) NoInfo])).
Proof.
  split; [simpl; lia|]. split; [|vm_compute; reflexivity].
  exists 0, 1. split; [reflexivity|]. split; [reflexivity|]. split; [vm_compute; discriminate|reflexivity].
Qed.

(** The reported upper radius need not work: the last distance stands for max_connections.  Samples
    0 and 1, query from -5 to 6: reported 1, but nothing below 5 works. *)
Theorem radius_reported_ub_works_refuted : exists ss s t max_r schedule row b,
  line_radius ss s t max_r schedule = Some (Ok (Some [row])) /\ nth 5 row CNan = CConn b /\
  ~ solvable zdist free s t (first_samples (stream ss) 0 2) b (disc_link zdist free (first_samples (stream ss) 0 2) b).
Proof.
  exists [0; 1], (-5), 6, 10%Q, [2%nat], (radius_line_row 2 (CConn 0) (CConn 1) (CDist 11) (CLen 2) NoInfo), 1%Q.
  split; [vm_compute; reflexivity|]. split; [reflexivity|].
  intros (ids & c & a & z & c1 & ds & dt & _ & _ & _ & (p & N & _ & L & _) & _).
  destruct a as [|[|a]]; simpl in N; [injection N as <-|injection N as <-|destruct a; discriminate];
    vm_compute in L; apply L; reflexivity.
Qed.
Print Assumptions radius_reported_ub_works_refuted.

(** More samples can raise the reported radius: with the sample 8 added it goes from 1 to 7. *)
Theorem radius_reported_ub_decreases_refuted : exists ss s t max_r n n' row row' b b',
  (n < n')%nat /\ line_radius ss s t max_r [n; n'] = Some (Ok (Some [row; row'])) /\
  nth 5 row CNan = CConn b /\ nth 5 row' CNan = CConn b' /\ (b < b')%Q.
Proof.
  exists [0; 1; 8], (-5), 6, 10%Q, 2%nat, 3%nat. eexists _, _, _, _.
  split; [lia|]. split; [vm_compute; reflexivity|]. split; [reflexivity|]. split; [reflexivity|].
  vm_compute; reflexivity.
Qed.
Print Assumptions radius_reported_ub_decreases_refuted.

(** "No path" of a roadmap with a single distance does not mean that max_connections fails: one
    sample at 0, query from -5 to 6. *)
Theorem radius_nan_means_unsolvable_refuted : exists ss s t max_r n row,
  line_radius ss s t max_r [n] = Some (Ok (Some [row])) /\ nth 5 row CNan = CNan /\
  solvable zdist free s t (first_samples (stream ss) 0 n) max_r (disc_link zdist free (first_samples (stream ss) 0 n) max_r).
Proof.
  exists [0], (-5), 6, 10%Q, 1%nat. eexists. split; [vm_compute; reflexivity|]. split; [reflexivity|].
  exists [O], 11%Q, O, O, 0%Q, 5%Q, 6%Q. split; [reflexivity|]. split; [reflexivity|]. split; [constructor|].
  split; [|split; [|reflexivity]]; exists 0; repeat split; try reflexivity; vm_compute; discriminate.
Qed.
Print Assumptions radius_nan_means_unsolvable_refuted.

Definition line_nearest (check : Z -> Z -> bool) (ss : list Z) (s t : Z) (max_k : nat) (top : Z) (schedule : list nat) :=
  nearest_trial zdist check (stream ss) sp_enum s t zann max_k top 2 (1 # 10) 7 0 schedule.
Definition nearest_line_row n lb ub d len i :=
  [CKind KnnPrm; CDim 2; CClear (1 # 10); CSamples n; lb; ub; d; len; CTime; CTime; CInfo i; CSeed 7].

(** Only motions of length 100 and 30 are valid. *)
Definition bridge (a b : Z) : bool := (Z.abs (a - b) =? 100) || (Z.abs (a - b) =? 30).
Definition crowd : list Z := [0; 100; 46; 47; 48; 49; 50; 51; 52; 53; 54].

Example nearest_trial_ex :
  rounds_log2 12 4 /\ growing_from 1 [2%nat; 11%nat] /\
  line_nearest bridge crowd (-30) 130 12 4 [2%nat; 11%nat] =
    Some (Ok (Some [nearest_line_row 2 (CConn 4) (CConn 8) (CDist 160) (CLen 2) NoInfo;
                    nearest_line_row 11 (CConn 8) (CConn 16) (CDist 160) (CLen 2) NoInfo])).
Proof.
  split; [split; vm_compute; discriminate|]. split; [simpl; lia|]. vm_compute; reflexivity.
Qed.

(** The reported number of neighbours may exceed max_connections: 16 reported, 12 allowed. *)
Theorem nearest_reported_ub_within_max_refuted : exists check ss s t max_k top schedule row row' b,
  rounds_log2 max_k top /\
  line_nearest check ss s t max_k top schedule = Some (Ok (Some [row; row'])) /\
  nth 5 row' CNan = CConn b /\ (inject_Z (Z.of_nat max_k) < b)%Q.
Proof.
  exists bridge, crowd, (-30), 130, 12%nat, 4, [2%nat; 11%nat]. eexists _, _, _.
  split; [exact (proj1 nearest_trial_ex)|]. split; [exact (proj2 (proj2 nearest_trial_ex))|].
  split; reflexivity.
Qed.
Print Assumptions nearest_reported_ub_within_max_refuted.

(** More samples can destroy the solution of a neighbour trial: two samples 0 and 100 give a
    path from -30 to 130; nine more around 54 shorten the radius within which the query points
    are connected. *)
Theorem nearest_more_samples_keep_solution_refuted : exists ss s t max_k top n n' row row',
  (n < n')%nat /\ rounds_log2 max_k top /\
  line_nearest free ss s t max_k top [n; n'] = Some (Ok (Some [row; row'])) /\
  has_solution row /\ ~ has_solution row'.
Proof.
  exists [0; 100; 50; 51; 52; 53; 54; 55; 56; 57; 58], (-30), 130, 8%nat, 3, 2%nat, 11%nat. eexists _, _.
  split; [lia|]. split; [split; vm_compute; discriminate|]. split; [vm_compute; reflexivity|].
  split; [discriminate|]. intro H. apply H. reflexivity.
Qed.
Print Assumptions nearest_more_samples_keep_solution_refuted.
