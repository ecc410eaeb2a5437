(** Convex sets in the plane: convex combinations, Radon's and Helly's theorems.
    Specification-level mathematics used to state and prove the separating-axis properties. *)
From Coq Require Import Reals List Lra Lia Psatz.
Import ListNotations.
Open Scope R_scope.

Notation rpt := (R * R)%type.

Definition cross (u v : rpt) : R := fst u * snd v - snd u * fst v.
Definition vsub (p q : rpt) : rpt := (fst p - fst q, snd p - snd q).

Definition convex (S : rpt -> Prop) : Prop :=
  forall p q t, 0 <= t <= 1 -> S p -> S q -> S (fst p + t * (fst q - fst p), snd p + t * (snd q - snd p)).

(** weighted sums of points *)
Definition wsum (l : list (R * rpt)) : R := fold_right (fun x a => fst x + a) 0 l.
Definition wx (l : list (R * rpt)) : R := fold_right (fun x a => fst x * fst (snd x) + a) 0 l.
Definition wy (l : list (R * rpt)) : R := fold_right (fun x a => fst x * snd (snd x) + a) 0 l.

Lemma convex_combination S l : convex S ->
  (forall w p, In (w, p) l -> 0 <= w) -> (forall w p, In (w, p) l -> 0 < w -> S p) -> 0 < wsum l ->
  S (wx l / wsum l, wy l / wsum l).
Proof.
  intros C. induction l as [|[w p] l IH]; intros Hw HS Hs; [simpl in Hs; lra|].
  assert (W : 0 <= w) by (apply (Hw w p); simpl; auto).
  assert (Wl : 0 <= wsum l).
  { clear - Hw. induction l as [|[v q] l IH]; simpl; [lra|].
    assert (0 <= v) by (apply (Hw v q); simpl; auto).
    assert (0 <= wsum l); [|unfold wsum in *; simpl in *; lra]. apply IH. intros v' q' H'. apply (Hw v' q'). simpl in *. tauto. }
  change (wsum ((w, p) :: l)) with (w + wsum l) in *. change (wx ((w, p) :: l)) with (w * fst p + wx l).
  change (wy ((w, p) :: l)) with (w * snd p + wy l).
  destruct (Rlt_le_dec 0 (wsum l)) as [L|L].
  - assert (I : S (wx l / wsum l, wy l / wsum l)).
    { apply IH; auto; intros v q H; [apply (Hw v q)|apply (HS v q)]; simpl; auto. }
    destruct (Rlt_le_dec 0 w) as [P|P].
    + assert (SP : S p) by (apply (HS w p); simpl; auto).
      pose proof (C p _ (wsum l / (w + wsum l)) ltac:(split; [apply Rlt_le, Rdiv_lt_0_compat; lra|apply Rmult_le_reg_r with (w + wsum l); [lra|]; unfold Rdiv; rewrite Rmult_assoc, Rinv_l; lra]) SP I) as R.
      cbn [fst snd] in R. replace ((w * fst p + wx l) / (w + wsum l)) with (fst p + wsum l / (w + wsum l) * (wx l / wsum l - fst p)) by (field; lra).
      replace ((w * snd p + wy l) / (w + wsum l)) with (snd p + wsum l / (w + wsum l) * (wy l / wsum l - snd p)) by (field; lra). exact R.
    + assert (w = 0) by lra. subst w. rewrite !Rmult_0_l, !Rplus_0_l. exact I.
  - assert (Z : wsum l = 0) by lra. assert (P : 0 < w) by lra. assert (SP : S p) by (apply (HS w p); simpl; auto).
    assert (Zl : wx l = 0 /\ wy l = 0).
    { clear - Z Hw. assert (H : forall v q, In (v, q) l -> 0 <= v) by (intros v q Hv; apply (Hw v q); simpl; auto). clear Hw.
      induction l as [|[v q] l IH]; [simpl; lra|]. change (wsum ((v, q) :: l)) with (v + wsum l) in Z.
      assert (V : 0 <= v) by (apply (H v q); simpl; auto).
      assert (Wl : 0 <= wsum l).
      { clear - H. induction l as [|[v' q'] l IH]; simpl; [lra|]. assert (0 <= v') by (apply (H v' q'); simpl; auto).
        assert (0 <= wsum l); [|unfold wsum in *; simpl in *; lra]. apply IH. intros a b Hab. apply (H a b). simpl in *. tauto. }
      destruct IH as [A B]; [lra|intros a b Hab; apply (H a b); simpl; auto|]. change (wx ((v, q) :: l)) with (v * fst q + wx l). change (wy ((v, q) :: l)) with (v * snd q + wy l). rewrite A, B. assert (v = 0) by lra. subst. lra. }
    destruct Zl as [-> ->]. rewrite Z.
    replace ((w * fst p + 0) / (w + 0)) with (fst p) by (field; lra). replace ((w * snd p + 0) / (w + 0)) with (snd p) by (field; lra).
    destruct p; exact SP.
Qed.

(** Radon: four points of the plane are affinely dependent *)
Lemma radon (p1 p2 p3 p4 : rpt) : exists a b c d,
  (a <> 0 \/ b <> 0 \/ c <> 0 \/ d <> 0) /\ a + b + c + d = 0 /\
  a * fst p1 + b * fst p2 + c * fst p3 + d * fst p4 = 0 /\
  a * snd p1 + b * snd p2 + c * snd p3 + d * snd p4 = 0.
Proof.
  destruct p1 as [x1 y1], p2 as [x2 y2], p3 as [x3 y3], p4 as [x4 y4]. cbn [fst snd].
  set (D := fun ax ay bx by_ cx cy => (bx - ax) * (cy - ay) - (by_ - ay) * (cx - ax)).
  destruct (Req_dec (D x1 y1 x2 y2 x3 y3) 0) as [E|E].
  - destruct (Req_dec x1 x2) as [Ex|Ex].
    + destruct (Req_dec y1 y2) as [Ey|Ey].
      * exists 1, (-1), 0, 0. subst. repeat split; lra.
      * set (t := (y3 - y1) / (y2 - y1)). exists (- (1 - t)), (- t), 1, 0. split; [right; right; left; lra|]. split; [lra|].
        assert (T : t * (y2 - y1) = y3 - y1) by (unfold t; field; lra). unfold D in E. subst x2.
        assert (x3 = x1) by (apply Rmult_eq_reg_l with (y2 - y1); lra). subst. split; [lra|lra].
    + set (t := (x3 - x1) / (x2 - x1)). exists (- (1 - t)), (- t), 1, 0. split; [right; right; left; lra|]. split; [lra|].
      assert (T : t * (x2 - x1) = x3 - x1) by (unfold t; field; lra). unfold D in E. split; [lra|].
      assert (y3 - y1 = t * (y2 - y1)); [|lra]. apply Rmult_eq_reg_l with (x2 - x1); [|lra].
      replace ((x2 - x1) * (t * (y2 - y1))) with ((t * (x2 - x1)) * (y2 - y1)) by ring. rewrite T. lra.
  - exists (D x2 y2 x3 y3 x4 y4), (- D x1 y1 x3 y3 x4 y4), (D x1 y1 x2 y2 x4 y4), (- D x1 y1 x2 y2 x3 y3).
    split; [right; right; right; lra|]. unfold D. repeat split; ring.
Qed.

Definition pos (x : R) : R := Rmax x 0.
Lemma pos_nonneg x : 0 <= pos x. Proof. apply Rmax_r. Qed.
Lemma pos_pos x : 0 < pos x -> 0 < x.
Proof. unfold pos, Rmax. destruct (Rle_dec x 0); lra. Qed.
Lemma pos_split x : x = pos x - pos (- x).
Proof. unfold pos, Rmax. destruct (Rle_dec x 0), (Rle_dec (-x) 0); lra. Qed.

Definition meets3 (A B C : rpt -> Prop) : Prop := exists p, A p /\ B p /\ C p.

Lemma helly4 S1 S2 S3 S4 : convex S1 -> convex S2 -> convex S3 -> convex S4 ->
  meets3 S2 S3 S4 -> meets3 S1 S3 S4 -> meets3 S1 S2 S4 -> meets3 S1 S2 S3 ->
  exists p, S1 p /\ S2 p /\ S3 p /\ S4 p.
Proof.
  intros C1 C2 C3 C4 (p1 & A2 & A3 & A4) (p2 & B1 & B3 & B4) (p3 & D1 & D2 & D4) (p4 & E1 & E2 & E3).
  destruct (radon p1 p2 p3 p4) as (a & b & c & d & Ne & S0 & X0 & Y0).
  set (P := [(pos a, p1); (pos b, p2); (pos c, p3); (pos d, p4)]).
  set (N := [(pos (-a), p1); (pos (-b), p2); (pos (-c), p3); (pos (-d), p4)]).
  pose proof (pos_nonneg a). pose proof (pos_nonneg b). pose proof (pos_nonneg c). pose proof (pos_nonneg d).
  pose proof (pos_nonneg (-a)). pose proof (pos_nonneg (-b)). pose proof (pos_nonneg (-c)). pose proof (pos_nonneg (-d)).
  pose proof (pos_split a) as Pa. pose proof (pos_split b) as Pb. pose proof (pos_split c) as Pc. pose proof (pos_split d) as Pd.
  assert (EW : wsum P = wsum N) by (unfold P, N; simpl; lra).
  assert (EX : wx P = wx N).
  { unfold P, N; simpl. rewrite Pa, Pb, Pc, Pd in X0. lra. }
  assert (EY : wy P = wy N).
  { unfold P, N; simpl. rewrite Pa, Pb, Pc, Pd in Y0. lra. }
  assert (WP : 0 < wsum P).
  { destruct (Rlt_le_dec 0 (wsum P)) as [L|L]; auto. exfalso. assert (L' := L). rewrite EW in L'. unfold P, N in L, L'. simpl in L, L'.
    destruct Ne as [Ne|[Ne|[Ne|Ne]]]; apply Ne; lra. }
  assert (WN : 0 < wsum N) by lra.
  exists (wx P / wsum P, wy P / wsum P).
  assert (PP : forall S, convex S -> (0 < a -> S p1) -> (0 < b -> S p2) -> (0 < c -> S p3) -> (0 < d -> S p4) -> S (wx P / wsum P, wy P / wsum P)).
  { intros S CS H1' H2' H3' H4'. apply convex_combination; auto; unfold P; simpl; intros w p Hin;
      repeat (destruct Hin as [Hin|Hin]; [injection Hin as <- <-; auto|]); try contradiction; intro Hp; apply pos_pos in Hp; auto. }
  assert (NN : forall S, convex S -> (0 < -a -> S p1) -> (0 < -b -> S p2) -> (0 < -c -> S p3) -> (0 < -d -> S p4) -> S (wx P / wsum P, wy P / wsum P)).
  { intros S CS H1' H2' H3' H4'. rewrite EW, EX, EY. apply convex_combination; auto; unfold N; simpl; intros w p Hin;
      repeat (destruct Hin as [Hin|Hin]; [injection Hin as <- <-; auto|]); try contradiction; intro Hp; apply pos_pos in Hp; auto. }
  split; [|split; [|split]].
  - destruct (Rlt_le_dec 0 a); [apply NN|apply PP]; auto; intro; exfalso; lra.
  - destruct (Rlt_le_dec 0 b); [apply NN|apply PP]; auto; intro; exfalso; lra.
  - destruct (Rlt_le_dec 0 c); [apply NN|apply PP]; auto; intro; exfalso; lra.
  - destruct (Rlt_le_dec 0 d); [apply NN|apply PP]; auto; intro; exfalso; lra.
Qed.

Lemma convex_and S T : convex S -> convex T -> convex (fun p => S p /\ T p).
Proof. intros A B p q t Ht [] []. split; auto. Qed.

(** Helly: convex sets of the plane that meet in threes have a common point. *)
Theorem helly (L : list (rpt -> Prop)) : (forall S, In S L -> convex S) ->
  (forall A B C, In A L -> In B L -> In C L -> meets3 A B C) ->
  exists p, forall S, In S L -> S p.
Proof.
  remember (length L) as n eqn:E. assert (Hn : (length L <= n)%nat) by lia. clear E. revert L Hn.
  induction n as [|n IH]; intros L Hn HC HM.
  - destruct L; [|simpl in Hn; lia]. exists (0, 0). intros S [].
  - destruct L as [|A [|B L]].
    + exists (0, 0). intros S [].
    + destruct (HM A A A) as (p & Hp & _); simpl; auto. exists p. intros S [<-|[]]. exact Hp.
    + set (AB := fun p => A p /\ B p).
      assert (CA : convex A) by (apply HC; simpl; auto). assert (CB : convex B) by (apply HC; simpl; auto).
      destruct (IH (AB :: L)) as [p Hp].
      * simpl in *. lia.
      * intros S [<-|HS]; [now apply convex_and|]. apply HC. simpl; auto.
      * assert (M : forall C D, In C L -> In D L -> exists p, AB p /\ C p /\ D p).
        { intros C D HiC HiD. destruct (helly4 A B C D) as (p & H1 & H2 & H3 & H4); auto;
            try (apply HC; simpl; tauto); try (apply HM; simpl; tauto). exists p. unfold AB. tauto. }
        assert (M1 : forall C, In C L -> exists p, AB p /\ C p).
        { intros C HiC. destruct (M C C HiC HiC) as (p & ? & ? & _). eauto. }
        assert (M0 : exists p, AB p).
        { destruct (HM A B B) as (p & ? & ? & _); simpl; auto. exists p. split; auto. }
        intros X Y Z HX HY HZ. unfold meets3. simpl in HX, HY, HZ.
        destruct HX as [<-|HX], HY as [<-|HY], HZ as [<-|HZ].
        -- destruct M0 as (p & Hp). eauto.
        -- destruct (M1 Z HZ) as (p & ? & ?). eauto.
        -- destruct (M1 Y HY) as (p & ? & ?). eauto.
        -- destruct (M Y Z HY HZ) as (p & ? & ? & ?). eauto.
        -- destruct (M1 X HX) as (p & ? & ?). eauto.
        -- destruct (M X Z HX HZ) as (p & ? & ? & ?). eauto.
        -- destruct (M X Y HX HY) as (p & ? & ? & ?). eauto.
        -- apply HM; simpl; auto.
      * exists p. intros S HS. destruct (Hp AB) as [PA PB]; [simpl; auto|].
        destruct HS as [<-|[<-|HS]]; auto. apply Hp. simpl; auto.
Qed.
