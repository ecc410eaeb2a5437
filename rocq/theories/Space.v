(** Convex sets in space: linear dependence, Radon's and Helly's theorems.
    Specification-level mathematics used to prove the box-box test properties. *)
From Coq Require Import Reals List Lra Lia Psatz.
From Verif Require Import Plane.
Import ListNotations.
Open Scope R_scope.

(** ** More vectors than coordinates are linearly dependent *)
Definition comb (ws : list R) (vs : list (nat -> R)) (c : nat) : R :=
  fold_right (fun x a => fst x * snd x c + a) 0 (combine ws vs).

Lemma comb_cons w ws v vs c : comb (w :: ws) (v :: vs) c = w * v c + comb ws vs c.
Proof. reflexivity. Qed.
Lemma comb_app ws1 : forall ws2 vs1 vs2 c, length ws1 = length vs1 -> comb (ws1 ++ ws2) (vs1 ++ vs2) c = comb ws1 vs1 c + comb ws2 vs2 c.
Proof.
  induction ws1 as [|w ws1 IH]; intros ws2 [|v vs1] vs2 c L; simpl in L; try lia.
  - unfold comb at 2. simpl. lra.
  - cbn [app]. rewrite !comb_cons, IH by lia. lra.
Qed.

Lemma comb_reduce (v : nat -> R) n ws : forall vs c, v n <> 0 -> length ws = length vs ->
  comb ws (map (fun u c => u c - u n / v n * v c) vs) c = comb ws vs c - comb ws vs n / v n * v c.
Proof.
  induction ws as [|w ws IH]; intros [|u vs] c N L; simpl in L; try lia.
  - unfold comb. simpl. field. auto.
  - cbn [map]. rewrite !comb_cons, IH by (auto; lia). field. auto.
Qed.

Lemma comb_zero n ws : forall vs, (forall v, In v vs -> v n = 0) -> comb ws vs n = 0.
Proof.
  induction ws as [|w ws IH]; intros [|v vs] H; try reflexivity.
  rewrite comb_cons, IH by (intros; apply H; simpl; auto). rewrite (H v) by (simpl; auto). lra.
Qed.

Lemma split_nonzero n (vs : list (nat -> R)) :
  (forall v, In v vs -> v n = 0) \/ exists l1 v l2, vs = l1 ++ v :: l2 /\ v n <> 0.
Proof.
  induction vs as [|v vs IH]; [left; intros v []|].
  destruct (Req_dec (v n) 0) as [E|E].
  - destruct IH as [IH|(l1 & u & l2 & -> & N)].
    + left. intros u [<-|H]; auto.
    + right. exists (v :: l1), u, l2. auto.
  - right. exists [], v, vs. auto.
Qed.

Lemma dependent n : forall vs : list (nat -> R), (n < length vs)%nat ->
  exists ws, length ws = length vs /\ (exists w, In w ws /\ w <> 0) /\ forall c, (c < n)%nat -> comb ws vs c = 0.
Proof.
  induction n as [|n IH]; intros vs L.
  - destruct vs as [|v vs]; [simpl in L; lia|]. exists (1 :: repeat 0 (length vs)). split; [simpl; now rewrite repeat_length|].
    split; [exists 1; simpl; split; [auto|lra]|]. intros; lia.
  - destruct (split_nonzero n vs) as [Z|(l1 & v & l2 & -> & N)].
    + destruct (IH vs ltac:(lia)) as (ws & Lw & Nz & C). exists ws. split; auto. split; auto. intros c Hc.
      destruct (Nat.eq_dec c n) as [->|Ne]; [now apply comb_zero|apply C; lia].
    + rewrite app_length in L. simpl in L.
      destruct (IH (map (fun u c => u c - u n / v n * v c) (l1 ++ l2))) as (ws & Lw & (w & Hw & Nw) & C); [rewrite map_length, app_length; lia|].
      rewrite map_length, app_length in Lw.
      set (ws1 := firstn (length l1) ws). set (ws2 := skipn (length l1) ws).
      assert (E : ws = ws1 ++ ws2) by (symmetry; apply firstn_skipn).
      assert (L1 : length ws1 = length l1) by (unfold ws1; rewrite firstn_length; lia).
      assert (L2 : length ws2 = length l2) by (unfold ws2; rewrite skipn_length; lia).
      exists (ws1 ++ (- comb ws (l1 ++ l2) n / v n) :: ws2). split; [rewrite !app_length; simpl; lia|]. split.
      * exists w. split; auto. rewrite E in Hw. apply in_app_or in Hw. apply in_or_app. destruct Hw; simpl; auto.
      * intros c Hc. rewrite comb_app, comb_cons by auto.
        assert (S : comb ws1 l1 c + comb ws2 l2 c = comb ws (l1 ++ l2) c) by (rewrite E, comb_app; auto).
        transitivity (comb ws (l1 ++ l2) c - comb ws (l1 ++ l2) n / v n * v c); [rewrite <- S; field; auto|].
        destruct (Nat.eq_dec c n) as [->|Ne]; [field; auto|].
        rewrite <- comb_reduce by (auto; rewrite app_length; lia). apply C. lia.
Qed.

(** ** Points of space *)
Notation r3 := (R * R * R)%type.
Definition px (p : r3) : R := fst (fst p).
Definition py (p : r3) : R := snd (fst p).
Definition pz (p : r3) : R := snd p.
Definition lerp3 (p q : r3) (t : R) : r3 := (px p + t * (px q - px p), py p + t * (py q - py p), pz p + t * (pz q - pz p)).
Definition convex3 (S : r3 -> Prop) : Prop := forall p q t, 0 <= t <= 1 -> S p -> S q -> S (lerp3 p q t).

Lemma r3_eta (p : r3) : p = (px p, py p, pz p).
Proof. destruct p as [[x y] z]. reflexivity. Qed.

(** weighted sums *)
Definition ws3 (f : r3 -> R) (l : list (R * r3)) : R := fold_right (fun x a => fst x * f (snd x) + a) 0 l.
Definition one3 (p : r3) : R := 1.
Definition mean3 (l : list (R * r3)) : r3 := (ws3 px l / ws3 one3 l, ws3 py l / ws3 one3 l, ws3 pz l / ws3 one3 l).

Lemma ws3_cons f w p l : ws3 f ((w, p) :: l) = w * f p + ws3 f l.
Proof. reflexivity. Qed.
Lemma ws3_one_nonneg l : (forall w p, In (w, p) l -> 0 <= w) -> 0 <= ws3 one3 l.
Proof.
  induction l as [|[w p] l IH]; intro H; [unfold ws3; simpl; lra|]. rewrite ws3_cons. unfold one3 at 1.
  assert (0 <= w) by (apply (H w p); simpl; auto). assert (0 <= ws3 one3 l) by (apply IH; intros v q Hv; apply (H v q); simpl; auto). lra.
Qed.
Lemma ws3_zero f l : (forall w p, In (w, p) l -> 0 <= w) -> ws3 one3 l = 0 -> ws3 f l = 0.
Proof.
  induction l as [|[w p] l IH]; intros H Z; [reflexivity|]. rewrite ws3_cons in *. unfold one3 at 1 in Z.
  assert (0 <= w) by (apply (H w p); simpl; auto).
  assert (H' : forall v q, In (v, q) l -> 0 <= v) by (intros v q Hv; apply (H v q); simpl; auto).
  pose proof (ws3_one_nonneg l H'). assert (w = 0) by lra. subst w. rewrite IH by (auto; lra). lra.
Qed.

Lemma convex3_combination S l : convex3 S ->
  (forall w p, In (w, p) l -> 0 <= w) -> (forall w p, In (w, p) l -> 0 < w -> S p) -> 0 < ws3 one3 l -> S (mean3 l).
Proof.
  intro C. induction l as [|[w p] l IH]; intros Hw HS Hs; [unfold ws3 in Hs; simpl in Hs; lra|].
  assert (W : 0 <= w) by (apply (Hw w p); simpl; auto).
  assert (Hw' : forall v q, In (v, q) l -> 0 <= v) by (intros v q Hv; apply (Hw v q); simpl; auto).
  pose proof (ws3_one_nonneg l Hw') as Wl. unfold mean3. rewrite !ws3_cons in *. unfold one3 at 1 in Hs. unfold one3 at 1 3 5.
  rewrite !Rmult_1_r in *.
  destruct (Rlt_le_dec 0 (ws3 one3 l)) as [L|L].
  - assert (I : S (mean3 l)) by (apply IH; auto; intros v q H; apply (HS v q); simpl; auto).
    destruct (Rlt_le_dec 0 w) as [P|P].
    + assert (SP : S p) by (apply (HS w p); simpl; auto).
      set (s := ws3 one3 l) in *.
      pose proof (C p _ (s / (w + s)) ltac:(split; [apply Rlt_le, Rdiv_lt_0_compat; lra|apply Rmult_le_reg_r with (w + s); [lra|]; unfold Rdiv; rewrite Rmult_assoc, Rinv_l; lra]) SP I) as R.
      unfold lerp3, mean3 in R. unfold px at 2, py at 2, pz at 2 in R. cbn [fst snd] in R. fold s in R.
      replace ((w * px p + ws3 px l) / (w + s)) with (px p + s / (w + s) * (ws3 px l / s - px p)) by (field; lra).
      replace ((w * py p + ws3 py l) / (w + s)) with (py p + s / (w + s) * (ws3 py l / s - py p)) by (field; lra).
      replace ((w * pz p + ws3 pz l) / (w + s)) with (pz p + s / (w + s) * (ws3 pz l / s - pz p)) by (field; lra). exact R.
    + assert (w = 0) by lra. subst w. rewrite !Rmult_0_l, !Rplus_0_l. exact I.
  - assert (Z : ws3 one3 l = 0) by lra. assert (SP : S p) by (apply (HS w p); simpl; auto; lra).
    rewrite (ws3_zero px l Hw' Z), (ws3_zero py l Hw' Z), (ws3_zero pz l Hw' Z), Z.
    replace ((w * px p + 0) / (w + 0)) with (px p) by (field; lra). replace ((w * py p + 0) / (w + 0)) with (py p) by (field; lra).
    replace ((w * pz p + 0) / (w + 0)) with (pz p) by (field; lra). rewrite <- r3_eta. exact SP.
Qed.

(** Radon: five points of space are affinely dependent. *)
Definition homog (p : r3) (c : nat) : R := match c with O => 1 | S O => px p | S (S O) => py p | _ => pz p end.
Lemma radon3 (p1 p2 p3 p4 p5 : r3) : exists a b c d e,
  (a <> 0 \/ b <> 0 \/ c <> 0 \/ d <> 0 \/ e <> 0) /\ a + b + c + d + e = 0 /\
  forall f, (f = px \/ f = py \/ f = pz) -> a * f p1 + b * f p2 + c * f p3 + d * f p4 + e * f p5 = 0.
Proof.
  destruct (dependent 4 (map homog [p1; p2; p3; p4; p5])) as (ws & L & (w & Hw & Nw) & C); [simpl; lia|].
  destruct ws as [|a [|b [|c [|d [|e [|]]]]]]; simpl in L; try lia. exists a, b, c, d, e.
  split; [simpl in Hw; destruct Hw as [<-|[<-|[<-|[<-|[<-|[]]]]]]; tauto|].
  pose proof (C 0%nat ltac:(lia)) as C0. pose proof (C 1%nat ltac:(lia)) as C1. pose proof (C 2%nat ltac:(lia)) as C2. pose proof (C 3%nat ltac:(lia)) as C3.
  unfold comb in *. simpl in C0, C1, C2, C3. split; [lra|]. intros f [->|[->| ->]]; lra.
Qed.

Definition meets4 (A B C D : r3 -> Prop) : Prop := exists p, A p /\ B p /\ C p /\ D p.

Lemma helly5 S1 S2 S3 S4 S5 : convex3 S1 -> convex3 S2 -> convex3 S3 -> convex3 S4 -> convex3 S5 ->
  meets4 S2 S3 S4 S5 -> meets4 S1 S3 S4 S5 -> meets4 S1 S2 S4 S5 -> meets4 S1 S2 S3 S5 -> meets4 S1 S2 S3 S4 ->
  exists p, S1 p /\ S2 p /\ S3 p /\ S4 p /\ S5 p.
Proof.
  intros C1 C2 C3 C4 C5 (p1 & A2 & A3 & A4 & A5) (p2 & B1 & B3 & B4 & B5) (p3 & D1 & D2 & D4 & D5) (p4 & E1 & E2 & E3 & E5) (p5 & F1 & F2 & F3 & F4).
  destruct (radon3 p1 p2 p3 p4 p5) as (a & b & c & d & e & Ne & S0 & X0).
  set (P := [(pos a, p1); (pos b, p2); (pos c, p3); (pos d, p4); (pos e, p5)]).
  set (N := [(pos (-a), p1); (pos (-b), p2); (pos (-c), p3); (pos (-d), p4); (pos (-e), p5)]).
  pose proof (pos_nonneg a). pose proof (pos_nonneg b). pose proof (pos_nonneg c). pose proof (pos_nonneg d). pose proof (pos_nonneg e).
  pose proof (pos_nonneg (-a)). pose proof (pos_nonneg (-b)). pose proof (pos_nonneg (-c)). pose proof (pos_nonneg (-d)). pose proof (pos_nonneg (-e)).
  pose proof (pos_split a) as Pa. pose proof (pos_split b) as Pb. pose proof (pos_split c) as Pc. pose proof (pos_split d) as Pd. pose proof (pos_split e) as Pe.
  assert (EW : ws3 one3 P = ws3 one3 N) by (unfold P, N, ws3, one3; simpl; lra).
  assert (EX : forall f, (f = px \/ f = py \/ f = pz) -> ws3 f P = ws3 f N).
  { intros f Hf. specialize (X0 f Hf). unfold P, N, ws3. cbn [fold_right fst snd]. rewrite Pa, Pb, Pc, Pd, Pe in X0. lra. }
  assert (EM : mean3 P = mean3 N) by (unfold mean3; rewrite EW, (EX px), (EX py), (EX pz); auto).
  assert (WP : 0 < ws3 one3 P).
  { destruct (Rlt_le_dec 0 (ws3 one3 P)) as [L|L]; auto. exfalso. assert (L' := L). rewrite EW in L'. unfold P, N, ws3, one3 in L, L'. simpl in L, L'.
    destruct Ne as [Ne|[Ne|[Ne|[Ne|Ne]]]]; apply Ne; lra. }
  assert (WN : 0 < ws3 one3 N) by lra.
  exists (mean3 P).
  assert (PP : forall S, convex3 S -> (0 < a -> S p1) -> (0 < b -> S p2) -> (0 < c -> S p3) -> (0 < d -> S p4) -> (0 < e -> S p5) -> S (mean3 P)).
  { intros S CS H1' H2' H3' H4' H5'. apply convex3_combination; auto; unfold P; simpl; intros w p Hin;
      repeat (destruct Hin as [Hin|Hin]; [injection Hin as <- <-; auto|]); try contradiction; intro Hp; apply pos_pos in Hp; auto. }
  assert (NN : forall S, convex3 S -> (0 < -a -> S p1) -> (0 < -b -> S p2) -> (0 < -c -> S p3) -> (0 < -d -> S p4) -> (0 < -e -> S p5) -> S (mean3 P)).
  { intros S CS H1' H2' H3' H4' H5'. rewrite EM. apply convex3_combination; auto; unfold N; simpl; intros w p Hin;
      repeat (destruct Hin as [Hin|Hin]; [injection Hin as <- <-; auto|]); try contradiction; intro Hp; apply pos_pos in Hp; auto. }
  split; [|split; [|split; [|split]]].
  - destruct (Rlt_le_dec 0 a); [apply NN|apply PP]; auto; intro; exfalso; lra.
  - destruct (Rlt_le_dec 0 b); [apply NN|apply PP]; auto; intro; exfalso; lra.
  - destruct (Rlt_le_dec 0 c); [apply NN|apply PP]; auto; intro; exfalso; lra.
  - destruct (Rlt_le_dec 0 d); [apply NN|apply PP]; auto; intro; exfalso; lra.
  - destruct (Rlt_le_dec 0 e); [apply NN|apply PP]; auto; intro; exfalso; lra.
Qed.

Lemma convex3_and S T : convex3 S -> convex3 T -> convex3 (fun p => S p /\ T p).
Proof. intros A B p q t Ht [] []. split; auto. Qed.

(** Helly: convex sets of space that meet in fours have a common point. *)
Theorem helly3 (L : list (r3 -> Prop)) : (forall S, In S L -> convex3 S) ->
  (forall A B C D, In A L -> In B L -> In C L -> In D L -> meets4 A B C D) ->
  exists p, forall S, In S L -> S p.
Proof.
  remember (length L) as n eqn:E. assert (Hn : (length L <= n)%nat) by lia. clear E. revert L Hn.
  induction n as [|n IH]; intros L Hn HC HM.
  - destruct L; [|simpl in Hn; lia]. exists (0, 0, 0). intros S [].
  - destruct L as [|A [|B L]].
    + exists (0, 0, 0). intros S [].
    + destruct (HM A A A A) as (p & Hp & _); simpl; auto. exists p. intros S [<-|[]]. exact Hp.
    + set (AB := fun p => A p /\ B p).
      assert (CA : convex3 A) by (apply HC; simpl; auto). assert (CB : convex3 B) by (apply HC; simpl; auto).
      destruct (IH (AB :: L)) as [p Hp].
      * simpl in *. lia.
      * intros S [<-|HS]; [now apply convex3_and|]. apply HC. simpl; auto.
      * assert (M : forall C D F, In C L -> In D L -> In F L -> exists p, AB p /\ C p /\ D p /\ F p).
        { intros C D F HiC HiD HiF. destruct (helly5 A B C D F) as (p & H1 & H2 & H3 & H4 & H5); auto;
            try (apply HC; simpl; tauto); try (apply HM; simpl; tauto). exists p. unfold AB. tauto. }
        assert (M2 : forall C D, In C L -> In D L -> exists p, AB p /\ C p /\ D p).
        { intros C D HiC HiD. destruct (M C D D HiC HiD HiD) as (p & ? & ? & ? & _). eauto. }
        assert (M1 : forall C, In C L -> exists p, AB p /\ C p).
        { intros C HiC. destruct (M2 C C HiC HiC) as (p & ? & ? & _). eauto. }
        assert (M0 : exists p, AB p).
        { destruct (HM A B B B) as (p & ? & ? & _); simpl; auto. exists p. split; auto. }
        intros X Y Z W HX HY HZ HW. unfold meets4. simpl in HX, HY, HZ, HW.
        destruct HX as [<-|HX], HY as [<-|HY], HZ as [<-|HZ], HW as [<-|HW].
        -- destruct M0 as (p & Hp). eauto.
        -- destruct (M1 W HW) as (p & ? & ?). eauto.
        -- destruct (M1 Z HZ) as (p & ? & ?). eauto.
        -- destruct (M2 Z W HZ HW) as (p & ? & ? & ?). eauto.
        -- destruct (M1 Y HY) as (p & ? & ?). eauto.
        -- destruct (M2 Y W HY HW) as (p & ? & ? & ?). eauto.
        -- destruct (M2 Y Z HY HZ) as (p & ? & ? & ?). eauto.
        -- destruct (M Y Z W HY HZ HW) as (p & ? & ? & ? & ?). exists p; auto.
        -- destruct (M1 X HX) as (p & ? & ?). eauto.
        -- destruct (M2 X W HX HW) as (p & ? & ? & ?). eauto.
        -- destruct (M2 X Z HX HZ) as (p & ? & ? & ?). eauto.
        -- destruct (M X Z W HX HZ HW) as (p & ? & ? & ? & ?). exists p; auto.
        -- destruct (M2 X Y HX HY) as (p & ? & ? & ?). eauto.
        -- destruct (M X Y W HX HY HW) as (p & ? & ? & ? & ?). exists p; auto.
        -- destruct (M X Y Z HX HY HZ) as (p & ? & ? & ? & ?). exists p; auto.
        -- apply HM; simpl; auto.
      * exists p. intros S HS. destruct (Hp AB) as [PA PB]; [simpl; auto|].
        destruct HS as [<-|[<-|HS]]; auto. apply Hp. simpl; auto.
Qed.
