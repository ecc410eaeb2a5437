(** The motion check of the Gray-code corridor. *)
From Coq Require Import Arith ZArith QArith Qround List Bool Lia Lqa Qfield.
From Verif Require Import Gray_Model Gray_Spec Gray_Proofs Gray_Proofs2 Gray_Proofs3.
Import ListNotations.
Open Scope Q_scope.

(** x lies between a and b *)
Lemma lerp_between a b t : 0 <= t <= 1 -> (a <= a + t * (b - a) <= b) \/ (b <= a + t * (b - a) <= a).
Proof. intro H. destruct (Qlt_le_dec a b); [left|right]; nra. Qed.

Lemma margin_convex dim path th c p q t : length p = dim -> length q = dim -> length c = dim -> 0 <= t <= 1 ->
  margin path c th p -> margin path c th q -> margin path c th (at_time t p q).
Proof.
  intros Lp Lq Lc Ht P Q i Hi. rewrite at_time_nth by lia. destruct (P i Hi) as [P1 P2], (Q i Hi) as [Q1 Q2].
  destruct (lerp_between (nth i p 0) (nth i q 0) t Ht) as [B|B];
    split; intro C; [apply P1|apply Q2|apply Q1|apply P2]; lra.
Qed.

Lemma cube_convex c p q t : length p = length q -> 0 <= t <= 1 -> cube_of p c -> cube_of q c -> cube_of (at_time t p q) c.
Proof.
  intros L Ht [Lc P] [_ Q]. split; [rewrite at_time_length; lia|]. intros i Hi. rewrite at_time_length in Hi by lia.
  rewrite at_time_nth by lia. specialize (P i Hi). specialize (Q i ltac:(lia)).
  destruct (lerp_between (nth i p 0) (nth i q 0) t Ht); lra.
Qed.

Lemma at_time_0 p q : length p = length q -> same_point (at_time 0 p q) p.
Proof. intro L. split; [apply at_time_length; auto|]. intros i Hi. rewrite at_time_length in Hi by auto. rewrite at_time_nth by auto. ring. Qed.
Lemma at_time_1 p q : length p = length q -> same_point (at_time 1 p q) q.
Proof. intro L. split; [rewrite at_time_length; auto|]. intros i Hi. rewrite at_time_length in Hi by auto. rewrite at_time_nth by auto. ring. Qed.

(** ** Indices on the path *)
Lemma after_skipn : forall (path : list cube) i, NoDup path -> (i < length path)%nat ->
  after (nth i path []) path = skipn (S i) path.
Proof.
  induction path as [|a l IH]; intros i N Hi; simpl in Hi; [lia|]. inversion N as [|? ? Na Nl]; subst.
  destruct i as [|i]; simpl.
  - now rewrite cube_eqb_refl.
  - destruct (cube_eqb a (nth i l [])) eqn:E.
    + apply cube_eqb_iff in E. exfalso. apply Na. rewrite E. apply nth_In. lia.
    + rewrite IH by (auto; lia). destruct l; [simpl in Hi; lia|reflexivity].
Qed.

Lemma In_skipn {A} (l : list A) m x d : In x (skipn m l) <-> exists j, (m <= j < length l)%nat /\ nth j l d = x.
Proof.
  revert m. induction l as [|a l IH]; intro m.
  - rewrite skipn_nil. simpl. split; [tauto|]. intros (j & H & _). lia.
  - destruct m as [|m].
    + cbn [skipn]. split.
      * intro H. apply (In_nth _ _ d) in H as (j & Hj & E). exists j. split; [lia|auto].
      * intros (j & H & <-). apply nth_In. lia.
    + simpl skipn. rewrite IH. split.
      * intros (j & H & E). exists (S j). simpl. split; [lia|auto].
      * intros (j & H & E). destruct j as [|j]; [lia|]. exists j. simpl in *. split; [lia|auto].
Qed.

Lemma forward_index (path : list cube) p q : NoDup path -> (p < length path)%nat -> (q < length path)%nat ->
  has_cube (after (nth p path []) path) (nth q path []) = (p <? q)%nat.
Proof.
  intros N Hp Hq. rewrite after_skipn by auto.
  destruct (Nat.ltb_spec p q) as [L|L].
  - apply has_cube_iff, (In_skipn _ _ _ []). exists q. split; [lia|auto].
  - apply not_true_iff_false. rewrite has_cube_iff, (In_skipn _ _ _ []). intros (j & H & E).
    apply nth_unique in E; auto; lia.
Qed.

Lemma next_forward (path : list cube) p : NoDup path -> (S p < length path)%nat ->
  next_cube path true (nth p path []) = Some (nth (S p) path []).
Proof.
  intros N H. unfold next_cube. destruct (succ_hd path (nth p path []) (nth (S p) path []) N) as [l ->]; auto.
  apply (consecutive_nth path _ _ []). eauto.
Qed.
Lemma next_backward (path : list cube) p : NoDup path -> (S p < length path)%nat ->
  next_cube path false (nth (S p) path []) = Some (nth p path []).
Proof.
  intros N H. unfold next_cube. destruct (pred_hd path (nth (S p) path []) (nth p path []) N) as [l ->]; auto.
  apply (consecutive_nth path _ _ []). eauto.
Qed.

Section Check.
  Variables (dim : nat) (path : list cube) (th : Q).
  Hypothesis K : corridor dim path.

  Lemma ends_clear_spec p q : length p = dim -> length q = dim -> In (floor_cube p) path -> In (floor_cube q) path ->
    exists b, ends_clear dim path th p q = Ok b /\ (b = true <-> corridor_free path th p /\ corridor_free path th q).
  Proof.
    intros Lp Lq Ip Iq. unfold ends_clear.
    destruct (distance_to_wall_spec dim path th p K Lp Ip) as (d & -> & _ & D).
    destruct (distance_to_wall_spec dim path th q K Lq Iq) as (d' & -> & _ & D').
    destruct (oneg d).
    - exists false. split; auto. split; [discriminate|]. intros [F _]. apply D in F. discriminate.
    - exists (negb (oneg d')). split; auto. rewrite negb_true_iff, D'. tauto.
  Qed.

  Lemma ends_clear_outcome p q : length p = dim -> length q = dim ->
    (exists b, ends_clear dim path th p q = Ok b) \/ ends_clear dim path th p q = Err NotInGraph.
  Proof.
    intros Lp Lq. unfold ends_clear.
    destruct (in_dec (list_eq_dec Z.eq_dec) (floor_cube p) path) as [Ip|Ip].
    - destruct (distance_to_wall_spec dim path th p K Lp Ip) as (d & -> & _ & D).
      destruct (oneg d); [eauto|].
      destruct (in_dec (list_eq_dec Z.eq_dec) (floor_cube q) path) as [Iq|Iq].
      + destruct (distance_to_wall_spec dim path th q K Lq Iq) as (d' & -> & _ & D'). eauto.
      + rewrite (distance_to_wall_err dim path th q) by auto. auto.
    - rewrite (distance_to_wall_err dim path th p) by auto. auto.
  Qed.

  Lemma loop_done fuel fw gc goal start : motion_loop dim path th fuel fw gc goal gc start = ends_clear dim path th start goal.
  Proof. destruct fuel; simpl; now rewrite cube_eqb_refl. Qed.

  Lemma opening_length t (start goal : point) : length start = dim -> length goal = dim ->
    length (map (fun p => (snd p - fst p) * t + fst p) (combine start goal)) = dim.
  Proof. intros. rewrite map_length, combine_length. lia. Qed.

  (** The loop walks along the path to the goal's cube; it always finishes. *)
  Lemma loop_outcome goal q : length goal = dim -> (q < length path)%nat ->
    forall fuel p start, length start = dim -> (p < length path)%nat ->
    (p - q <= fuel)%nat -> (q - p <= fuel)%nat ->
    forall fw, (p <> q -> fw = (p <? q)%nat) ->
    let r := motion_loop dim path th fuel fw (nth q path []) goal (nth p path []) start in
    (exists b, r = Ok b) \/ r = Err NotInGraph.
  Proof.
    intros Lg Hq. pose proof K as (N & HL & HS).
    induction fuel as [|fuel IH]; intros p start Ls Hp F1 F2 fw Hfw r; unfold r; clear r.
    - assert (p = q) by lia. subst p. rewrite loop_done. now apply ends_clear_outcome.
    - destruct (Nat.eq_dec p q) as [->|Ne]; [rewrite loop_done; now apply ends_clear_outcome|].
      specialize (Hfw Ne). cbn [motion_loop].
      destruct (cube_eqb (nth p path []) (nth q path [])) eqn:E.
      { apply cube_eqb_iff, nth_unique in E; auto. contradiction. }
      assert (NX : exists p', next_cube path fw (nth p path []) = Some (nth p' path []) /\ (p' < length path)%nat /\
         (p' - q <= fuel)%nat /\ (q - p' <= fuel)%nat /\ (p' <> q -> fw = (p' <? q)%nat)).
      { destruct (Nat.ltb_spec p q) as [L|L].
        - exists (S p). rewrite Hfw, next_forward by (auto; lia). split; auto. split; [lia|]. split; [lia|]. split; [lia|].
          intro. symmetry. apply Nat.ltb_lt. lia.
        - exists (p - 1)%nat. rewrite Hfw. split.
          + replace p with (S (p - 1)) at 1 by lia. apply next_backward; auto. lia.
          + split; [lia|]. split; [lia|]. split; [lia|]. intro. symmetry. apply Nat.ltb_ge. lia. }
      destruct NX as (p' & -> & Hp' & G1 & G2 & Hfw').
      destruct (distance_in_cube_ok dim path th (nth p path []) start K (nth_In _ _ Hp) Ls) as (ds & -> & _).
      match goal with |- context [Qeq_bool ?d 0] => destruct (Qeq_bool d 0) end.
      + match goal with |- context [Qle_bool ?d 0] => destruct (Qle_bool d 0) end; [eauto|].
        destruct (oneg ds); [eauto|].
        destruct (cube_eqb (nth p' path []) (nth q path [])) eqn:E'; [eauto|].
        assert (p' <> q) by (intro; subst p'; now rewrite cube_eqb_refl in E').
        specialize (Hfw' H). rewrite Hfw'.
        destruct (Nat.ltb_spec p' q) as [L|L].
        * rewrite next_forward by (auto; lia). eauto.
        * replace p' with (S (p' - 1)) by lia. rewrite next_backward by (auto; lia). eauto.
      + match goal with |- context [Qle_bool ?d 0] => destruct (Qle_bool d 0) end; [eauto|].
        destruct (oneg ds); [eauto|].
        match goal with |- context [distance_in_cube path th _ ?o] => set (op := o) end.
        assert (Lo : length op = dim) by (now apply opening_length).
        destruct (distance_in_cube_ok dim path th (nth p path []) op K (nth_In _ _ Hp) Lo) as (do & -> & _).
        destruct (oneg do); [eauto|]. apply IH; auto.
  Qed.

  Lemma valid_outcome start goal : length start = dim -> length goal = dim ->
    In (floor_cube start) path -> In (floor_cube goal) path ->
    (exists b, is_motion_valid dim path th start goal = Ok b) \/ is_motion_valid dim path th start goal = Err NotInGraph.
  Proof.
    intros Ls Lg Is Ig. unfold is_motion_valid. rewrite (proj2 (has_cube_iff _ _) Is).
    apply (In_nth _ _ []) in Is as (p & Hp & Ep). apply (In_nth _ _ []) in Ig as (q & Hq & Eq).
    rewrite <- Ep, <- Eq. apply loop_outcome; auto; try lia.
    intros _. apply forward_index; auto. apply K.
  Qed.

  (** *** Motions within one cube *)
  Lemma same_cube_exact start goal c : length start = dim -> length goal = dim -> In c path -> cube_of start c -> cube_of goal c ->
    exists b, is_motion_valid dim path th start goal = Ok b /\
      (b = true <-> forall t, 0 <= t <= 1 -> corridor_free path th (at_time t start goal)).
  Proof.
    intros Ls Lg Hc Cs Cg. unfold is_motion_valid.
    assert (Fs := proj1 (floor_cube_of _ _) Cs). assert (Fg := proj1 (floor_cube_of _ _) Cg).
    rewrite Fs, Fg, (proj2 (has_cube_iff _ _) Hc), loop_done.
    destruct (ends_clear_spec start goal Ls Lg) as (b & E & B); try congruence.
    exists b. split; auto. rewrite B. split.
    - intros [A A'] t Ht. apply free_iff in A as [_ A], A' as [_ A']. rewrite Fs in A. rewrite Fg in A'.
      exists c. split; auto. split; [apply cube_convex; auto; congruence|]. eapply margin_convex; eauto. apply K; auto.
    - intro H. split.
      + apply (corridor_free_same path th (at_time 0 start goal)); [apply at_time_0; congruence|]. apply H. lra.
      + apply (corridor_free_same path th (at_time 1 start goal)); [apply at_time_1; congruence|]. apply H. lra.
  Qed.

  (** *** Motions between neighbouring cubes *)
  Section Adjacent.
    Variables (start goal : point) (a b : cube).
    Hypothesis Ls : length start = dim.
    Hypothesis Lg : length goal = dim.
    Hypothesis Ia : In a path.
    Hypothesis Ib : In b path.
    Hypothesis AB : consecutive path a b \/ consecutive path b a.
    Hypothesis Cs : cube_of start a.
    Hypothesis Cg : cube_of goal b.
    Let k := where_nonzero (zsub b a).
    Let s_k := nth k start 0.
    Let g_k := nth k goal 0.
    (* the coordinate of the shared face and the time at which it is crossed *)
    Let face := (nth k (center a) 0 + nth k (center b) 0) / 2.
    Let t0 := (face - s_k) / (g_k - s_k).
    Let op := map (fun p => (snd p - fst p) * t0 + fst p) (combine start goal).

    Lemma adj_step : one_step a b.
    Proof. destruct K as (_ & _ & HS). destruct AB; [auto|now apply one_step_sym, HS]. Qed.

    Lemma adj_run : ~ g_k - s_k == 0 ->
      is_motion_valid dim path th start goal =
      if Qle_bool t0 0 then Ok false else
      match distance_in_cube path th a start, distance_in_cube path th a op with
      | Ok d, Ok d' => if oneg d then Ok false else if oneg d' then Ok false else ends_clear dim path th op goal
      | _, _ => Err NotInGraph
      end.
    Proof.
      intro Hden. pose proof K as (N & HL & HS). unfold is_motion_valid.
      assert (Fs := proj1 (floor_cube_of _ _) Cs). assert (Fg := proj1 (floor_cube_of _ _) Cg).
      rewrite Fs, Fg, (proj2 (has_cube_iff _ _) Ia).
      assert (Hab : a <> b).
      { intro E. destruct adj_step as (_ & i & _ & A & _). rewrite E in A. lia. }
      assert (NX : next_cube path (has_cube (after a path) b) a = Some b).
      { destruct AB as [C|C]; apply (consecutive_nth path _ _ []) in C as (i & Hi & E1 & E2).
        - rewrite <- E1, <- E2, forward_index by (auto; lia).
          replace (i <? S i)%nat with true by (symmetry; apply Nat.ltb_lt; lia). now apply next_forward.
        - rewrite <- E1, <- E2, forward_index by (auto; lia).
          replace (S i <? i)%nat with false by (symmetry; apply Nat.ltb_ge; lia). now apply next_backward. }
      assert (LP : exists f, length path = S f) by (destruct path; [destruct Ia|simpl; eauto]).
      destruct LP as [f ->]. cbn [motion_loop].
      destruct (cube_eqb a b) eqn:E; [apply cube_eqb_iff in E; contradiction|]. rewrite NX.
      fold k. fold s_k g_k. fold face.
      destruct (distance_in_cube_ok dim path th a start K Ia Ls) as (d & -> & _).
      destruct (Qeq_bool (g_k - s_k) 0) eqn:E0; [apply Qeq_bool_iff in E0; contradiction|].
      fold t0. destruct (Qle_bool t0 0); auto. fold op.
      assert (Lo : length op = dim) by (now apply opening_length).
      destruct (distance_in_cube_ok dim path th a op K Ia Lo) as (d' & -> & _).
      destruct (oneg d); auto. destruct (oneg d'); auto. apply loop_done.
    Qed.

    Lemma op_length : length op = dim.
    Proof. now apply opening_length. Qed.
    Lemma op_nth i : (i < dim)%nat -> nth i op 0 == nth i start 0 + t0 * (nth i goal 0 - nth i start 0).
    Proof.
      intro Hi. unfold op. rewrite nth_map_lt with (da := (0, 0)) by (rewrite combine_length; lia).
      rewrite combine_nth by lia. cbn [fst snd]. ring.
    Qed.
    Lemma op_same : same_point op (at_time t0 start goal).
    Proof.
      split; [rewrite op_length, at_time_length; lia|]. intros i Hi. rewrite op_length in Hi.
      rewrite op_nth, at_time_nth by lia. reflexivity.
    Qed.

    Lemma axis : (k < dim)%nat /\ (nth k b 0 = nth k a 0 + 1 \/ nth k b 0 = nth k a 0 - 1)%Z /\
      forall j, j <> k -> nth j a 0%Z = nth j b 0%Z.
    Proof.
      destruct (axis_spec a b adj_step) as (Hk & D & _ & E). fold k in Hk, D, E.
      destruct K as (_ & HL & _). rewrite (HL a Ia) in Hk. auto.
    Qed.

    Lemma face_val : face == (inject_Z (nth k a 0%Z) + inject_Z (nth k b 0%Z) + 1) / 2.
    Proof.
      destruct axis as (Hk & _). destruct K as (_ & HL & _). unfold face.
      rewrite !center_nth by (rewrite HL; auto). field.
    Qed.

    Lemma sk_cube : inject_Z (nth k a 0%Z) <= s_k < inject_Z (nth k a 0%Z) + 1.
    Proof. destruct axis as (Hk & _). apply Cs. lia. Qed.
    Lemma gk_cube : inject_Z (nth k b 0%Z) <= g_k < inject_Z (nth k b 0%Z) + 1.
    Proof. destruct axis as (Hk & _). apply Cg. lia. Qed.

    Lemma other_coord i t : (i < dim)%nat -> i <> k -> 0 <= t <= 1 ->
      inject_Z (nth i a 0%Z) <= nth i (at_time t start goal) 0 < inject_Z (nth i a 0%Z) + 1.
    Proof.
      intros Hi Ne Ht. rewrite at_time_nth by lia. destruct axis as (_ & _ & E).
      destruct Cs as [_ A], Cg as [_ B]. specialize (A i ltac:(lia)). specialize (B i ltac:(lia)).
      rewrite <- (E i Ne) in B. destruct (lerp_between (nth i start 0) (nth i goal 0) t Ht); lra.
    Qed.

    (** the part of the motion before the crossing keeps the margin to a's faces *)
    Lemma before_margin t : 0 < t0 -> 0 <= t <= t0 -> margin path a th start -> margin path a th op -> margin path a th (at_time t start goal).
    Proof.
      intros T0 Ht Ms Mo i Hi. assert (HL : length a = dim) by (apply K; auto).
      destruct (Ms i Hi) as [A1 A2], (Mo i Hi) as [B1 B2]. rewrite op_nth in B1, B2 by lia. rewrite at_time_nth by lia.
      set (s := nth i start 0) in *. set (g := nth i goal 0) in *.
      assert (Bt : (s <= s + t * (g - s) <= s + t0 * (g - s)) \/ (s + t0 * (g - s) <= s + t * (g - s) <= s)).
      { destruct (Qlt_le_dec s g); [left|right]; nra. }
      destruct Bt; split; intro C; [apply A1|apply B2|apply B1|apply A2]; lra.
    Qed.
    Lemma after_margin t : 0 < t0 -> t0 <= t <= 1 -> margin path b th op -> margin path b th goal -> margin path b th (at_time t start goal).
    Proof.
      intros T0 Ht Mo Mg i Hi. assert (HL : length b = dim) by (apply K; auto).
      destruct (Mg i Hi) as [A1 A2], (Mo i Hi) as [B1 B2]. rewrite op_nth in B1, B2 by lia. rewrite at_time_nth by lia.
      set (s := nth i start 0) in *. set (g := nth i goal 0) in *.
      assert (Bt : (g <= s + t * (g - s) <= s + t0 * (g - s)) \/ (s + t0 * (g - s) <= s + t * (g - s) <= g)).
      { destruct (Qlt_le_dec s g); [right|left]; nra. }
      destruct Bt; split; intro C; [apply A1|apply B2|apply B1|apply A2]; lra.
    Qed.

    Section Up.
      Hypothesis Up : nth k b 0%Z = (nth k a 0 + 1)%Z.

      Lemma up_times : face == inject_Z (nth k b 0%Z) /\ 0 < g_k - s_k /\ 0 < t0 <= 1 /\ t0 * (g_k - s_k) == face - s_k.
      Proof.
        pose proof face_val as F. pose proof sk_cube as S. pose proof gk_cube as G.
        rewrite Up in *. rewrite inject_Z_plus in *. change (inject_Z 1) with 1 in *. set (z := inject_Z (nth k a 0%Z)) in *.
        assert (F' : face == z + 1) by (rewrite F; field). split; auto.
        assert (D : 0 < g_k - s_k) by lra. split; auto.
        assert (M : t0 * (g_k - s_k) == face - s_k) by (unfold t0; field; lra).
        split; auto. split.
        - apply (Qmult_lt_r _ _ (g_k - s_k)); auto. rewrite M. lra.
        - apply (Qmult_le_r _ _ (g_k - s_k)); auto. rewrite M. lra.
      Qed.

      Lemma op_cube : cube_of op b.
      Proof.
        destruct up_times as (F & D & T & M). destruct axis as (Hk & _ & E).
        split; [rewrite op_length; apply K; auto|]. intros i Hi. rewrite op_length in Hi.
        destruct (Nat.eq_dec i k) as [->|Ne].
        - rewrite op_nth by auto. fold s_k g_k. rewrite M, F. lra.
        - rewrite op_nth by auto. rewrite <- (at_time_nth t0 start goal i) by lia. rewrite <- (E i Ne).
          apply other_coord; auto. lra.
      Qed.

      Lemma before_cube t : 0 <= t < t0 -> cube_of (at_time t start goal) a.
      Proof.
        intro Ht. destruct up_times as (F & D & T & M). destruct axis as (Hk & _ & E).
        split; [rewrite at_time_length by congruence; rewrite Ls; apply K; auto|].
        intros i Hi. rewrite at_time_length in Hi by congruence. rewrite Ls in Hi. destruct (Nat.eq_dec i k) as [->|Ne]; [|apply other_coord; auto; lra].
        rewrite at_time_nth by lia. fold s_k g_k. pose proof sk_cube as S. rewrite Up, inject_Z_plus in F.
        change (inject_Z 1) with 1 in F. split; nra.
      Qed.
      Lemma after_cube t : t0 <= t <= 1 -> cube_of (at_time t start goal) b.
      Proof.
        intro Ht. destruct up_times as (F & D & T & M). destruct axis as (Hk & _ & E).
        split; [rewrite at_time_length by congruence; rewrite Ls; apply K; auto|].
        intros i Hi. rewrite at_time_length in Hi by congruence. rewrite Ls in Hi. destruct (Nat.eq_dec i k) as [->|Ne]; [|rewrite <- (E i Ne); apply other_coord; auto; lra].
        rewrite at_time_nth by lia. fold s_k g_k. pose proof gk_cube as G. split; nra.
      Qed.

      Lemma up_exact : exists r, is_motion_valid dim path th start goal = Ok r /\
        (r = true <-> forall t, 0 <= t <= 1 -> corridor_free path th (at_time t start goal)).
      Proof.
        destruct up_times as (F & D & T & M). rewrite adj_run by lra.
        destruct (Qle_bool t0 0) eqn:E0; [apply Qle_bool_iff in E0; lra|].
        destruct (distance_in_cube_ok dim path th a start K Ia Ls) as (d & -> & Md).
        destruct (distance_in_cube_ok dim path th a op K Ia op_length) as (d' & -> & Md').
        assert (Fo := proj1 (floor_cube_of _ _) op_cube). assert (Fg := proj1 (floor_cube_of _ _) Cg).
        assert (Fs := proj1 (floor_cube_of _ _) Cs).
        destruct (ends_clear_spec op goal op_length Lg) as (r & E & R); try congruence.
        assert (Iff : (forall t, 0 <= t <= 1 -> corridor_free path th (at_time t start goal)) <->
                      margin path a th start /\ margin path a th op /\ corridor_free path th op /\ corridor_free path th goal).
        { split.
          - intro H.
            assert (HA : forall t, 0 <= t < t0 -> margin path a th (at_time t start goal)).
            { intros t Ht. destruct (proj1 (free_iff _ _ _) (H t ltac:(lra))) as [_ G].
              now rewrite (proj1 (floor_cube_of _ _) (before_cube t Ht)) in G. }
            split; [|split; [|split]].
            + assert (G : corridor_free path th start).
              { apply (corridor_free_same path th (at_time 0 start goal)); [apply at_time_0; congruence|]. apply H. lra. }
              apply free_iff in G as [_ G]. now rewrite Fs in G.
            + intros i Hi. assert (La : length a = dim) by (apply K; auto).
              rewrite op_nth by lia. set (s := nth i start 0). set (g := nth i goal 0).
              split; intro C.
              * (* a time before t0 at which the face is still too close *)
                set (bd := inject_Z (nth i a 0%Z) + th) in *. set (o := s + t0 * (g - s)) in *.
                destruct (Qlt_le_dec s bd) as [Hs|Hs].
                { destruct (HA 0 ltac:(lra) i Hi) as [G _]. rewrite at_time_nth in G by lia. apply G. fold s g bd. lra. }
                set (t := t0 * ((s - (o + bd) / 2) / (s - o))).
                assert (So : 0 < s - o) by lra.
                assert (R1 : 0 < (s - (o + bd) / 2) / (s - o) < 1).
                { assert (Hm : (o + bd) / 2 == (1#2) * o + (1#2) * bd) by field.
                  split; [apply Qlt_shift_div_l|apply Qlt_shift_div_r]; auto; rewrite Hm; lra. }
                assert (Ht : 0 <= t < t0) by (unfold t; split; nra).
                destruct (HA t Ht i Hi) as [G _]. rewrite at_time_nth in G by lia. apply G. fold s g bd.
                assert (X : s + t * (g - s) == (o + bd) / 2).
                { unfold t. setoid_replace (t0 * ((s - (o + bd) / 2) / (s - o)) * (g - s)) with ((t0 * (g - s)) * ((s - (o + bd) / 2) / (s - o))) by ring.
                  setoid_replace (t0 * (g - s)) with (- (s - o)) by (unfold o; ring). field. lra. }
                rewrite X. apply Qlt_shift_div_r; lra.
              * set (bd := inject_Z (nth i a 0%Z) + 1 - th) in *. set (o := s + t0 * (g - s)) in *.
                destruct (Qlt_le_dec bd s) as [Hs|Hs].
                { destruct (HA 0 ltac:(lra) i Hi) as [_ G]. rewrite at_time_nth in G by lia. apply G. fold s g bd. lra. }
                set (t := t0 * (((o + bd) / 2 - s) / (o - s))).
                assert (So : 0 < o - s) by lra.
                assert (R1 : 0 < ((o + bd) / 2 - s) / (o - s) < 1).
                { assert (Hm : (o + bd) / 2 == (1#2) * o + (1#2) * bd) by field.
                  split; [apply Qlt_shift_div_l|apply Qlt_shift_div_r]; auto; rewrite Hm; lra. }
                assert (Ht : 0 <= t < t0) by (unfold t; split; nra).
                destruct (HA t Ht i Hi) as [_ G]. rewrite at_time_nth in G by lia. apply G. fold s g bd.
                assert (X : s + t * (g - s) == (o + bd) / 2).
                { unfold t. setoid_replace (t0 * (((o + bd) / 2 - s) / (o - s)) * (g - s)) with ((t0 * (g - s)) * (((o + bd) / 2 - s) / (o - s))) by ring.
                  setoid_replace (t0 * (g - s)) with (o - s) by (unfold o; ring). field. lra. }
                rewrite X. apply Qlt_shift_div_l; lra.
            + apply (corridor_free_same path th (at_time t0 start goal)).
              * destruct op_same as [A B]. split; [auto|]. intros i Hi. symmetry. apply B. lia.
              * apply H. lra.
            + apply (corridor_free_same path th (at_time 1 start goal)); [apply at_time_1; congruence|]. apply H. lra.
          - intros (A1 & A2 & A3 & A4) t Ht.
            apply free_iff in A3 as [_ A3], A4 as [_ A4]. rewrite Fo in A3. rewrite Fg in A4.
            destruct (Qlt_le_dec t t0) as [L|L].
            + exists a. split; auto. split; [apply before_cube; lra|]. apply before_margin; auto; lra.
            + exists b. split; auto. split; [apply after_cube; lra|]. apply after_margin; auto; lra. }
        destruct (oneg d) eqn:O1; [|destruct (oneg d') eqn:O2].
        - exists false. split; auto. rewrite Iff. split; [discriminate|]. intros (A & _). apply Md in A. discriminate.
        - exists false. split; auto. rewrite Iff. split; [discriminate|]. intros (_ & A & _). apply Md' in A. discriminate.
        - exists r. split; auto. rewrite Iff, R. tauto.
      Qed.
    End Up.

    Section Down.
      Hypothesis Down : nth k b 0%Z = (nth k a 0 - 1)%Z.

      Lemma down_times : face == inject_Z (nth k a 0%Z) /\ g_k - s_k < 0 /\ 0 <= t0 <= 1 /\ t0 * (g_k - s_k) == face - s_k.
      Proof.
        pose proof face_val as F. pose proof sk_cube as S. pose proof gk_cube as G.
        rewrite Down in *. unfold Z.sub in *. rewrite inject_Z_plus in *. change (inject_Z (-(1))) with (-(1)) in *. set (z := inject_Z (nth k a 0%Z)) in *.
        assert (F' : face == z) by (rewrite F; field). split; auto.
        assert (D : g_k - s_k < 0) by lra. split; auto.
        assert (M : t0 * (g_k - s_k) == face - s_k) by (unfold t0; field; lra).
        split; auto. split; apply Qnot_lt_le; intro C; nra.
      Qed.

      (** Only the part in the start's cube, and the goal, are known to be free. *)
      Lemma down_sound : is_motion_valid dim path th start goal = Ok true ->
        (forall t, 0 <= t <= 1 -> cube_of (at_time t start goal) a -> corridor_free path th (at_time t start goal)) /\
        corridor_free path th goal.
      Proof.
        destruct down_times as (F & D & T & M). rewrite adj_run by lra.
        destruct (Qle_bool t0 0) eqn:E0; [discriminate|].
        assert (T0 : 0 < t0) by (apply Qnot_le_lt; intro C; apply Qle_bool_iff in C; congruence).
        destruct (distance_in_cube_ok dim path th a start K Ia Ls) as (d & -> & Md).
        destruct (distance_in_cube_ok dim path th a op K Ia op_length) as (d' & -> & Md').
        destruct (oneg d); [discriminate|]. destruct (oneg d'); [discriminate|]. intro V.
        destruct axis as (Hk & _ & E).
        assert (OC : cube_of op a).
        { split; [rewrite op_length; apply K; auto|]. intros i Hi. rewrite op_length in Hi.
          destruct (Nat.eq_dec i k) as [->|Ne].
          - rewrite op_nth by auto. fold s_k g_k. rewrite M, F. lra.
          - rewrite op_nth by auto. rewrite <- (at_time_nth t0 start goal i) by lia. apply other_coord; auto. }
        assert (Fo := proj1 (floor_cube_of _ _) OC). assert (Fg := proj1 (floor_cube_of _ _) Cg).
        destruct (ends_clear_spec op goal op_length Lg) as (r & E' & R); try congruence.
        rewrite E' in V. injection V as ->. destruct (proj1 R eq_refl) as [A B]. split; auto.
        intros t Ht C. exists a. split; auto. split; auto. apply before_margin; auto; [|apply Md; auto|apply Md'; auto].
        split; [lra|]. destruct C as [_ C]. specialize (C k). rewrite at_time_length in C by lia. specialize (C ltac:(lia)).
        rewrite at_time_nth in C by lia. fold s_k g_k in C. apply Qnot_lt_le. intro Lt. nra.
      Qed.
    End Down.
  End Adjacent.
End Check.
