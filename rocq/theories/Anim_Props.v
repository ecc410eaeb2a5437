(** Properties C142 and C143: the animation of a roadmap. *)
From Coq Require Import Arith ZArith QArith List Bool Lia Lqa.
From Verif Require Import Anim_Model.
Import ListNotations.

(** ** Specification *)

(** Points of the plane; a point of a path may have more coordinates, which are not drawn. *)
Definition planar (p : pt) : Prop := length p = 2%nat.
Definition flat (p : pt) : pt := firstn 2 p.
Definition segment (samples : list pt) (col : colour) (e : nat * nat) : line :=
  mkLine (nth (fst e) samples []) (nth (snd e) samples []) col.
Fixpoint steps (sol : list pt) : list line :=
  match sol with
  | u :: (v :: _) as rest => mkLine (flat u) (flat v) Lime :: steps rest
  | _ => []
  end.

(** What is seen, image by image: the samples appear [nb] at a time, then the edges [eb] at
    a time, then the path step by step, or ten images in red; twenty images of the result. *)
Definition picture_solved (samples : list pt) (edges : list (nat * nat)) (sol : list pt) (j i : nat) : canvas :=
  mkCanvas samples Blue (firstn j (map (segment samples Blue) edges) ++ firstn i (steps sol)).
Definition picture_failed (samples : list pt) (edges : list (nat * nat)) : canvas :=
  mkCanvas samples Red (map (segment samples Red) edges).
Definition result (samples : list pt) (edges : list (nat * nat)) (sol : list pt) : canvas :=
  match sol with
  | [] => picture_failed samples edges
  | _ => mkCanvas samples Blue (map (segment samples Blue) edges ++ steps sol)
  end.
Definition expected (samples : list pt) (edges : list (nat * nat)) (sol : list pt) (nb eb : nat) : list canvas :=
  map (fun k => mkCanvas (firstn (S k * nb) samples) Blue []) (seq 0 (S (length samples / nb))) ++
  map (fun k => picture_solved samples edges sol (S k * eb) 0) (seq 0 (S (length edges / eb))) ++
  match sol with
  | [] => repeat (picture_failed samples edges) 10
  | _ => map (fun k => picture_solved samples edges sol (length edges) (S k)) (seq 0 (length sol - 1))
  end ++
  repeat (result samples edges sol) 20.

(** A roadmap in the plane: edges join samples. *)
Definition plane_roadmap (samples : list pt) (edges : list (nat * nat)) (sol : list pt) : Prop :=
  samples <> [] /\ Forall planar samples /\
  Forall (fun e => fst e < length samples /\ snd e < length samples)%nat edges /\
  Forall (fun p => 2 <= length p)%nat sol.

(** ** Slices and ranges *)
Lemma range_of_nat n : range (Z.of_nat n + 1) = map Z.of_nat (seq 0 (S n)).
Proof. unfold range. replace (Z.to_nat (Z.of_nat n + 1)) with (S n) by lia. reflexivity. Qed.

Lemma quot_of_nat n b : (0 < b)%nat -> Z.quot (Z.of_nat n) (Z.of_nat b) = Z.of_nat (n / b).
Proof. intros. rewrite Z.quot_div_nonneg by lia. rewrite <- Nat2Z.inj_div. reflexivity. Qed.

Lemma upto_of_nat {A} (l : list A) n : upto l (Z.of_nat n) = firstn n l.
Proof. unfold upto. destruct (Z.ltb_spec (Z.of_nat n) 0); [lia|]. rewrite Nat2Z.id. reflexivity. Qed.

Lemma slice_of_nat {A} (l : list A) a b : slice l (Z.of_nat a) (Z.of_nat b) = skipn a (firstn b l).
Proof. unfold slice. destruct (Z.ltb_spec (Z.of_nat a) 0); [lia|]. rewrite Nat2Z.id, upto_of_nat. reflexivity. Qed.

Lemma batch_covers n b : (0 < b)%nat -> (n <= S (n / b) * b)%nat.
Proof. intros. pose proof (Nat.div_mod n b ltac:(lia)). pose proof (Nat.mod_upper_bound n b ltac:(lia)). nia. Qed.

Lemma firstn_join {A} (l : list A) a b : (a <= b)%nat -> firstn a l ++ skipn a (firstn b l) = firstn b l.
Proof.
  intros. rewrite <- (firstn_skipn a (firstn b l)) at 2. f_equal. rewrite firstn_firstn. f_equal. lia.
Qed.

(** ** Playing *)
Lemma Ok_eq {A} (a b : A) : Ok a = Ok b -> a = b.
Proof. congruence. Qed.

Section Play.
  Variables samples sol : list pt.

  Lemma play_app c f1 f2 i1 i2 :
    play samples sol c f1 = Ok i1 -> play samples sol (last i1 c) f2 = Ok i2 ->
    play samples sol c (f1 ++ f2) = Ok (i1 ++ i2).
  Proof.
    revert c i1. induction f1 as [|f f1 IH]; intros c i1 E1 E2.
    - injection E1 as <-. exact E2.
    - cbn [play app] in *. destruct (update samples sol c f) as [c'|]; [|discriminate].
      destruct (play samples sol c' f1) as [j1|] eqn:P; [|discriminate]. injection E1 as <-.
      assert (L : last (c' :: j1) c = last j1 c') by (clear; revert c'; induction j1 as [|x j1 IH]; intros; [reflexivity|];
        transitivity (last (x :: j1) c); [reflexivity|]; rewrite IH; symmetry; destruct j1; [reflexivity|];
        transitivity (last (c0 :: j1) c'); [reflexivity|]; clear; revert c0; induction j1; intros; [reflexivity|];
        exact (IHj1 a)).
      rewrite L in E2. rewrite (IH c' j1 P E2). reflexivity.
  Qed.

  Lemma play_map (F : nat -> frame) (J : nat -> canvas) n a :
    (forall k, (a <= k < a + n)%nat -> update samples sol (J k) (F k) = Ok (J (S k))) ->
    play samples sol (J a) (map F (seq a n)) = Ok (map J (seq (S a) n)).
  Proof.
    revert a. induction n as [|n IH]; intros a H; [reflexivity|].
    cbn [seq map play]. rewrite H by lia. rewrite IH; [reflexivity|]. intros. apply H. lia.
  Qed.

  Lemma play_fix c f n : update samples sol c f = Ok c -> play samples sol c (repeat f n) = Ok (repeat c n).
  Proof. intros H. induction n as [|n IH]; [reflexivity|]. cbn [repeat play]. rewrite H, IH. reflexivity. Qed.

  Lemma last_map_seq (J : nat -> canvas) a n d : last (map J (seq a (S n))) d = J (a + n)%nat.
  Proof.
    rewrite seq_S, map_app. cbn [map]. rewrite last_last. reflexivity.
  Qed.

  Lemma plot_all es c : Forall planar samples ->
    Forall (fun e => fst e < length samples /\ snd e < length samples)%nat es ->
    plot_edges samples es c = Ok (mkCanvas (shown c) (dots c) (lines c ++ map (segment samples Blue) es)).
  Proof.
    intros Pl. revert c. induction es as [|[a b] es IH]; intros c H.
    - cbn [plot_edges map]. rewrite app_nil_r. destruct c; reflexivity.
    - inversion H as [|? ? [Ha Hb] H']; subst. cbn [fst snd] in *. cbn [plot_edges fst snd].
      rewrite (nth_error_nth' samples [] Ha), (nth_error_nth' samples [] Hb).
      rewrite Forall_forall in Pl.
      pose proof (Pl _ (nth_In samples [] Ha)) as La. pose proof (Pl _ (nth_In samples [] Hb)) as Lb.
      unfold planar in La, Lb.
      cbn [map]. unfold segment at 1. cbn [fst snd].
      destruct (nth a samples []) as [|ux [|uy [|? ?]]]; try discriminate La.
      destruct (nth b samples []) as [|vx [|vy [|? ?]]]; try discriminate Lb.
      rewrite IH by exact H'. cbn [shown dots lines]. rewrite <- app_assoc. reflexivity.
  Qed.
End Play.

Lemma steps_nth sol i u v : nth_error sol i = Some u -> nth_error sol (S i) = Some v ->
  firstn (S i) (steps sol) = firstn i (steps sol) ++ [mkLine (flat u) (flat v) Lime].
Proof.
  revert sol. induction i as [|i IH]; intros sol Hu Hv.
  - destruct sol as [|a [|b sol]]; try discriminate. injection Hu as ->. injection Hv as ->. reflexivity.
  - destruct sol as [|a [|b sol]]; try (destruct i; discriminate).
    change (steps (a :: b :: sol)) with (mkLine (flat a) (flat b) Lime :: steps (b :: sol)).
    rewrite !firstn_cons. rewrite (IH (b :: sol) Hu Hv). reflexivity.
Qed.

Lemma steps_length sol : length (steps sol) = (length sol - 1)%nat.
Proof.
  induction sol as [|a [|b sol] IH]; try reflexivity.
  change (steps (a :: b :: sol)) with (mkLine (flat a) (flat b) Lime :: steps (b :: sol)).
  cbn [length]. rewrite IH. cbn [length]. lia.
Qed.

(** One pass over the frames, from a canvas with dots of colour [d] and lines [l0] on it. *)
Section Pass.
  Variables (samples : list pt) (edges : list (nat * nat)) (sol : list pt) (nb eb : nat).
  Variables (d : colour) (l0 : list line).
  Hypothesis (Rm : plane_roadmap samples edges sol) (Hnb : (0 < nb)%nat) (Heb : (0 < eb)%nat).

  Definition done_lines : list line := l0 ++ map (segment samples Blue) edges.
  Definition pass_end : canvas :=
    match sol with
    | [] => mkCanvas samples Red (map redden done_lines)
    | _ => mkCanvas samples d (done_lines ++ steps sol)
    end.
  Definition pass_images : list canvas :=
    map (fun k => mkCanvas (firstn (S k * nb) samples) d l0) (seq 0 (S (length samples / nb))) ++
    map (fun k => mkCanvas samples d (l0 ++ firstn (S k * eb) (map (segment samples Blue) edges)))
        (seq 0 (S (length edges / eb))) ++
    match sol with
    | [] => repeat (mkCanvas samples Red (map redden done_lines)) 10
    | _ => map (fun k => mkCanvas samples d (done_lines ++ firstn (S k) (steps sol))) (seq 0 (length sol - 1))
    end ++
    repeat pass_end 20.

  Lemma pass_plays c fs : dots c = d -> lines c = l0 ->
    all_frames (length samples) edges sol (Z.of_nat nb) (Z.of_nat eb) = Ok fs ->
    play samples sol c fs = Ok pass_images.
  Proof.
    intros Dc Lc. unfold all_frames, sampling_frames, edge_frames.
    destruct (Z.eqb_spec (Z.of_nat nb) 0); [lia|]. destruct (Z.eqb_spec (Z.of_nat eb) 0); [lia|].
    rewrite !quot_of_nat, !range_of_nat, !map_map by lia. intros E. apply Ok_eq in E. subst fs.
    destruct Rm as (Ne & Pl & Es & So).
    set (I1 := map (fun k => mkCanvas (firstn (S k * nb) samples) d l0) (seq 0 (S (length samples / nb)))).
    assert (P1 : play samples sol c (map (fun x => Sampling ((Z.of_nat x + 1) * Z.of_nat nb)) (seq 0 (S (length samples / nb)))) = Ok I1).
    { pose (J := fun k => match k with O => c | S k => mkCanvas (firstn (S k * nb) samples) d l0 end).
      change c with (J O). rewrite (play_map samples sol _ J).
      - f_equal. unfold I1. rewrite <- seq_shift, map_map. reflexivity.
      - intros k _. cbn [update]. f_equal. unfold J at 3.
        replace ((Z.of_nat k + 1) * Z.of_nat nb)%Z with (Z.of_nat (S k * nb)) by nia. rewrite upto_of_nat.
        f_equal; destruct k; cbn [J dots lines]; auto. }
    assert (L1 : last I1 c = mkCanvas samples d l0).
    { unfold I1. rewrite last_map_seq. f_equal. apply firstn_all2. apply batch_covers. exact Hnb. }
    set (E1 := map (segment samples Blue) edges).
    set (I2 := map (fun k => mkCanvas samples d (l0 ++ firstn (S k * eb) E1)) (seq 0 (S (length edges / eb)))).
    assert (P2 : play samples sol (mkCanvas samples d l0)
       (map (fun x => Connecting (slice edges (Z.of_nat x * Z.of_nat eb) ((Z.of_nat x + 1) * Z.of_nat eb))) (seq 0 (S (length edges / eb)))) = Ok I2).
    { pose (J := fun k => mkCanvas samples d (l0 ++ firstn (k * eb) E1)).
      assert (J0 : mkCanvas samples d l0 = J O) by (unfold J; cbn [Nat.mul firstn]; rewrite app_nil_r; reflexivity).
      rewrite J0. rewrite (play_map samples sol _ J).
      - f_equal. unfold I2. rewrite <- seq_shift, map_map. reflexivity.
      - intros k _. cbn [update].
        replace (Z.of_nat k * Z.of_nat eb)%Z with (Z.of_nat (k * eb)) by nia.
        replace ((Z.of_nat k + 1) * Z.of_nat eb)%Z with (Z.of_nat (S k * eb)) by nia.
        rewrite slice_of_nat. rewrite plot_all.
        + unfold J. cbn [shown dots lines]. rewrite <- app_assoc. do 3 f_equal. unfold E1.
          rewrite <- skipn_map, <- firstn_map. apply firstn_join. nia.
        + exact Pl.
        + rewrite Forall_forall in *. intros e He. apply Es.
          rewrite <- (firstn_skipn (S k * eb) edges). apply in_or_app. left.
          rewrite <- (firstn_skipn (k * eb) (firstn (S k * eb) edges)). apply in_or_app. right. exact He. }
    assert (L2 : last I2 (mkCanvas samples d l0) = mkCanvas samples d done_lines).
    { unfold I2. rewrite last_map_seq. f_equal. unfold done_lines. f_equal. apply firstn_all2.
      unfold E1. rewrite map_length. apply batch_covers. exact Heb. }
    assert (P3 : exists I3, play samples sol (mkCanvas samples d done_lines) (path_frames sol) = Ok I3 /\ last I3 (mkCanvas samples d done_lines) = pass_end /\ I3 = match sol with
            | [] => repeat (mkCanvas samples Red (map redden done_lines)) 10
            | _ => map (fun k => mkCanvas samples d (done_lines ++ firstn (S k) (steps sol))) (seq 0 (length sol - 1))
            end).
    { unfold path_frames, pass_end. destruct sol as [|p0 sol0] eqn:Esol.
      - exists (repeat (mkCanvas samples Red (map redden done_lines)) 10). split; [|split; reflexivity].
        change (repeat NonPathing 10) with (NonPathing :: repeat NonPathing 9). cbn [play update shown lines].
        rewrite (play_fix _ _ (mkCanvas samples Red (map redden done_lines))); [reflexivity|].
        cbn [update shown lines]. f_equal. f_equal. rewrite map_map. reflexivity.
      - rewrite <- Esol in *.
        pose (J := fun k => mkCanvas samples d (done_lines ++ firstn k (steps sol))).
        exists (map (fun k => J (S k)) (seq 0 (length sol - 1))). split; [|split].
        + assert (J0 : mkCanvas samples d done_lines = J O) by (unfold J; cbn [firstn]; rewrite app_nil_r; reflexivity).
          rewrite J0. rewrite (play_map samples sol _ J); [f_equal; rewrite <- seq_shift, map_map; reflexivity|].
          intros k Hk. cbn [update].
          destruct (nth_error sol k) as [u|] eqn:Hu; [|apply nth_error_None in Hu; lia].
          destruct (nth_error sol (S k)) as [v|] eqn:Hv; [|apply nth_error_None in Hv; lia].
          rewrite Forall_forall in So. pose proof (So _ (nth_error_In _ _ Hu)) as Lu. pose proof (So _ (nth_error_In _ _ Hv)) as Lv.
          unfold J at 4. rewrite (steps_nth sol k u v Hu Hv).
          destruct u as [|ux [|uy u]]; try (cbn in Lu; lia). destruct v as [|vx [|vy v]]; try (cbn in Lv; lia).
          cbn [J shown dots lines flat firstn]. rewrite <- app_assoc. reflexivity.
        + destruct (length sol - 1)%nat as [|m] eqn:Lm.
          * cbn [seq map last]. f_equal. pose proof (steps_length sol). rewrite Lm in H. destruct (steps sol); [|discriminate].
            rewrite app_nil_r. reflexivity.
          * rewrite last_map_seq. unfold J. f_equal. f_equal. apply firstn_all2. rewrite steps_length, Lm. lia.
        + reflexivity. }
    destruct P3 as (I3 & P3 & L3 & E3).
    unfold pass_images. rewrite <- E3.
    apply (play_app samples sol _ _ _ I1); [exact P1|]. rewrite L1.
    apply (play_app samples sol _ _ _ I2); [exact P2|]. rewrite L2.
    apply (play_app samples sol _ _ _ I3); [exact P3|]. rewrite L3.
    apply play_fix. reflexivity.
  Qed.

  Lemma pass_last c : last pass_images c = pass_end.
  Proof.
    unfold pass_images. rewrite !app_assoc. change 20%nat with (19 + 1)%nat.
    rewrite repeat_app, app_assoc. apply last_last.
  Qed.
End Pass.

(** ** Limits of the axes *)
Lemma trunc_bounds x : inject_Z (trunc x - 1) < x /\ x < inject_Z (trunc x + 1).
Proof.
  destruct x as [n d]. unfold trunc, Qlt. cbn [Qnum Qden inject_Z].
  pose proof (Z.quot_rem' n (Zpos d)) as E. pose proof (Z.rem_bound_abs n (Zpos d) ltac:(lia)) as B.
  set (q := Z.quot n (Zpos d)) in *. set (r := Z.rem n (Zpos d)) in *. clearbody q r.
  split; nia.
Qed.

Lemma fold_qmin axis rest x :
  let m := fold_left (fun m (p : pt) => qmin m (nth axis p 0%Q)) rest x in
  m <= x /\ forall p, In p rest -> m <= nth axis p 0%Q.
Proof.
  revert x. induction rest as [|r rest IH]; intros x; cbv zeta in *; cbn [fold_left].
  - split; [apply Qle_refl|intros p []].
  - destruct (IH (qmin x (nth axis r 0%Q))) as [A B].
    assert (C : qmin x (nth axis r 0%Q) <= x /\ qmin x (nth axis r 0%Q) <= nth axis r 0%Q).
    { unfold qmin. destruct (Qle_bool x (nth axis r 0%Q)) eqn:L.
      - split; [apply Qle_refl|apply Qle_bool_iff; exact L].
      - split; [|apply Qle_refl]. apply Qlt_le_weak, Qnot_le_lt. rewrite <- Qle_bool_iff, L. discriminate. }
    split; [eapply Qle_trans; [exact A|apply C]|].
    intros p [<- | Hp]; [eapply Qle_trans; [exact A|apply C]|apply B; exact Hp].
Qed.

Lemma fold_qmax axis rest x :
  let m := fold_left (fun m (p : pt) => qmax m (nth axis p 0%Q)) rest x in
  x <= m /\ forall p, In p rest -> nth axis p 0%Q <= m.
Proof.
  revert x. induction rest as [|r rest IH]; intros x; cbv zeta in *; cbn [fold_left].
  - split; [apply Qle_refl|intros p []].
  - destruct (IH (qmax x (nth axis r 0%Q))) as [A B].
    assert (C : x <= qmax x (nth axis r 0%Q) /\ nth axis r 0%Q <= qmax x (nth axis r 0%Q)).
    { unfold qmax. destruct (Qle_bool x (nth axis r 0%Q)) eqn:L.
      - split; [apply Qle_bool_iff; exact L|apply Qle_refl].
      - split; [apply Qle_refl|]. apply Qlt_le_weak, Qnot_le_lt. rewrite <- Qle_bool_iff, L. discriminate. }
    split; [eapply Qle_trans; [apply C|exact A]|].
    intros p [<- | Hp]; [eapply Qle_trans; [apply C|exact A]|apply B; exact Hp].
Qed.

(** strictly between the limits *)
Definition in_view (l : Z * Z) (x : Q) : Prop := inject_Z (fst l) < x /\ x < inject_Z (snd l).

Lemma limits_view samples axis l : limits samples axis = Ok l ->
  forall p, In p samples -> in_view l (nth axis p 0%Q).
Proof.
  destruct samples as [|s rest]; [discriminate|]. cbn [limits].
  destruct (Nat.ltb axis (length s)); [|discriminate]. intros E. apply Ok_eq in E. subst l.
  intros p Hp. unfold in_view. cbn [fst snd].
  pose proof (fold_qmin axis rest (nth axis s 0%Q)) as [A1 B1]. pose proof (fold_qmax axis rest (nth axis s 0%Q)) as [A2 B2].
  cbv zeta in *.
  assert (Lo : fold_left (fun m (p : pt) => qmin m (nth axis p 0%Q)) rest (nth axis s 0%Q) <= nth axis p 0%Q)
    by (destruct Hp as [<- | Hp]; auto).
  assert (Hi : nth axis p 0%Q <= fold_left (fun m (p : pt) => qmax m (nth axis p 0%Q)) rest (nth axis s 0%Q))
    by (destruct Hp as [<- | Hp]; auto).
  split.
  - eapply Qlt_le_trans; [apply (proj1 (trunc_bounds _))|exact Lo].
  - eapply Qle_lt_trans; [exact Hi|apply (proj2 (trunc_bounds _))].
Qed.

Lemma limits_planar samples axis : samples <> [] -> Forall planar samples -> (axis < 2)%nat ->
  exists l, limits samples axis = Ok l.
Proof.
  intros Ne Pl Ha. destruct samples as [|s rest]; [congruence|]. inversion Pl as [|? ? P1 P2]; subst.
  cbn [limits]. rewrite P1. destruct (Nat.ltb_spec axis 2); [|lia]. eauto.
Qed.

(** ** The theorems *)
Lemma frames_exist n edges sol nb eb : (0 < nb)%nat -> (0 < eb)%nat ->
  exists k fs, all_frames n edges sol (Z.of_nat nb) (Z.of_nat eb) = Ok (Sampling k :: fs).
Proof.
  intros Hnb Heb. unfold all_frames, sampling_frames, edge_frames.
  destruct (Z.eqb_spec (Z.of_nat nb) 0); [lia|]. destruct (Z.eqb_spec (Z.of_nat eb) 0); [lia|].
  rewrite !quot_of_nat, !range_of_nat by lia. cbn [seq map app]. eauto.
Qed.

Lemma expected_pass samples edges sol nb eb : expected samples edges sol nb eb = pass_images samples edges sol nb eb Blue [].
Proof.
  unfold expected, pass_images, pass_end, done_lines, picture_solved, picture_failed, result.
  assert (R : map redden (map (segment samples Blue) edges) = map (segment samples Red) edges) by (rewrite map_map; reflexivity).
  cbn [app]. f_equal. f_equal.
  - apply map_ext. intros k. cbn [firstn]. rewrite app_nil_r. reflexivity.
  - destruct sol as [|p0 sol].
    + rewrite R. reflexivity.
    + f_equal. apply map_ext. intros k. rewrite (firstn_all2 (map _ edges)) by (rewrite map_length; lia). reflexivity.
Qed.

(** C142.  The saved animation shows, image by image, first the samples, then the edges,
    then the path (or the red roadmap), and the result twenty times. *)
Theorem animation_images : forall samples edges sol nb eb,
  plane_roadmap samples edges sol -> (0 < nb)%nat -> (0 < eb)%nat ->
  exists m, animate 1 samples (length samples) edges sol (Z.of_nat nb) (Z.of_nat eb) = Ok m /\
            images m = expected samples edges sol nb eb.
Proof.
  intros samples edges sol nb eb Rm Hnb Heb. pose proof Rm as (Ne & Pl & _).
  destruct (limits_planar samples 0 Ne Pl ltac:(lia)) as [xl EX]. destruct (limits_planar samples 1 Ne Pl ltac:(lia)) as [yl EY].
  destruct (frames_exist (length samples) edges sol nb eb Hnb Heb) as (k & fs & EF).
  unfold animate. rewrite EX, EY, EF. cbn [hd update].
  set (c0 := mkCanvas (upto samples k) (dots blank) (lines blank)).
  cbn [play_rounds].
  rewrite (pass_plays samples edges sol nb eb Blue [] Rm Hnb Heb c0 _ eq_refl eq_refl EF).
  eexists. split; [reflexivity|]. cbn [images]. rewrite app_nil_r. symmetry. apply expected_pass.
Qed.
Print Assumptions animation_images.

(** The last twenty images: every sample, every edge once, in order, and the whole path. *)
Theorem animation_result : forall samples edges sol nb eb m,
  plane_roadmap samples edges sol -> (0 < nb)%nat -> (0 < eb)%nat ->
  animate 1 samples (length samples) edges sol (Z.of_nat nb) (Z.of_nat eb) = Ok m ->
  (length (images m) = S (length samples / nb) + S (length edges / eb) +
     match sol with [] => 10 | _ => length sol - 1 end + 20)%nat /\
  forall i, (length (images m) - 20 <= i < length (images m))%nat ->
    nth i (images m) blank = result samples edges sol.
Proof.
  intros samples edges sol nb eb m Rm Hnb Heb E.
  destruct (animation_images samples edges sol nb eb Rm Hnb Heb) as (m' & E' & I). rewrite E in E'. apply Ok_eq in E'. subst m'.
  set (front := map (fun k => mkCanvas (firstn (S k * nb) samples) Blue []) (seq 0 (S (length samples / nb))) ++
     map (fun k => picture_solved samples edges sol (S k * eb) 0) (seq 0 (S (length edges / eb))) ++
     match sol with [] => repeat (picture_failed samples edges) 10
     | _ => map (fun k => picture_solved samples edges sol (length edges) (S k)) (seq 0 (length sol - 1)) end).
  assert (I' : images m = front ++ repeat (result samples edges sol) 20).
  { rewrite I. unfold expected, front. rewrite <- !app_assoc. reflexivity. }
  assert (L : length front = (S (length samples / nb) + S (length edges / eb) +
     match sol with [] => 10 | _ => length sol - 1 end)%nat).
  { unfold front. rewrite !app_length, !map_length, !seq_length.
    destruct sol; rewrite ?repeat_length, ?map_length, ?seq_length; lia. }
  rewrite I', app_length, repeat_length, L. split; [lia|].
  intros i Hi. rewrite app_nth2 by lia.
  apply (repeat_spec 20). apply nth_In. rewrite repeat_length. lia.
Qed.
Print Assumptions animation_result.

(** Every sample, and so every edge, lies strictly inside the axes. *)
Theorem animation_in_view : forall rounds samples n edges sol nb eb m p,
  animate rounds samples n edges sol nb eb = Ok m -> In p samples ->
  in_view (x_limits m) (nth 0 p 0%Q) /\ in_view (y_limits m) (nth 1 p 0%Q).
Proof.
  intros rounds samples n edges sol nb eb m p E Hp. unfold animate in E.
  destruct (limits samples 0) as [xl|] eqn:EX; [|discriminate]. destruct (limits samples 1) as [yl|] eqn:EY; [|discriminate].
  destruct (all_frames n edges sol nb eb) as [fs|]; [|discriminate].
  destruct (update samples sol blank (hd Hold fs)) as [c0|]; [|discriminate].
  destruct (play_rounds samples sol rounds c0 fs) as [imgs|]; [|discriminate].
  apply Ok_eq in E. subst m. cbn [x_limits y_limits].
  split; [apply (limits_view samples 0)|apply (limits_view samples 1)]; auto.
Qed.
Print Assumptions animation_in_view.

Example animation_case :
  let samples := [[0;0];[1;0];[1;1]]%Q in let edges := [(0,1);(1,2)]%nat in let sol := [[0;0];[1;0];[1;1]]%Q in
  plane_roadmap samples edges sol /\ animate 1 samples 3 edges [] 2 1 <> Err ZeroDivisionError /\
  length (expected samples edges [] 2 1) = 35%nat /\
  nth 3 (expected samples edges sol 2 1) blank =
    mkCanvas samples Blue [mkLine [0;0]%Q [1;0]%Q Blue; mkLine [1;0]%Q [1;1]%Q Blue].
Proof.
  cbv zeta. split; [|split; [|split]]; try (vm_compute; congruence).
  split; [discriminate|]. split; [repeat constructor|]. split; repeat constructor.
Qed.

(** The points of the path need not be in view: a start far from the samples is not shown. *)
Theorem animation_path_in_view_refuted : exists samples edges sol m p,
  plane_roadmap samples edges sol /\ animate 1 samples (length samples) edges sol 5 5 = Ok m /\
  In p sol /\ ~ in_view (x_limits m) (nth 0 p 0%Q).
Proof.
  exists [[0;0];[1;0]]%Q, [(0,1)]%nat, [[-3;0];[0;0];[1;0]]%Q.
  eexists. exists [-3;0]%Q. split; [|split; [vm_compute; reflexivity|split; [left; reflexivity|]]].
  - split; [discriminate|]. split; [repeat constructor|]. split; repeat constructor.
  - unfold in_view, Qlt. cbn. lia.
Qed.
Print Assumptions animation_path_in_view_refuted.

(** C143.  Repeating the animation never clears it: after the r-th round the lines of the
    picture are there r times; after a failure everything, dots included, is red. *)
Lemma rounds_play samples edges sol nb eb r fs : plane_roadmap samples edges sol -> (0 < nb)%nat -> (0 < eb)%nat ->
  all_frames (length samples) edges sol (Z.of_nat nb) (Z.of_nat eb) = Ok fs ->
  forall c, sol = [] \/ dots c = Blue -> exists imgs, play_rounds samples sol (S r) c fs = Ok imgs /\
    last imgs c = match sol with
                  | [] => mkCanvas samples Red (map redden (lines c ++ concat (repeat (map (segment samples Blue) edges) (S r))))
                  | _ => mkCanvas samples Blue (lines c ++ concat (repeat (map (segment samples Blue) edges ++ steps sol) (S r)))
                  end.
Proof.
  intros Rm Hnb Heb EF. induction r as [|r IH]; intros c Hc.
  - change (play_rounds samples sol 1 c fs) with
      (match play samples sol c fs with Err e => Err e | Ok imgs => Ok (imgs ++ []) end : anim_res (list canvas)).
    rewrite (pass_plays samples edges sol nb eb (dots c) (lines c) Rm Hnb Heb c fs eq_refl eq_refl EF).
    eexists. split; [reflexivity|]. rewrite app_nil_r, pass_last. unfold pass_end, done_lines.
    cbn [repeat concat]. rewrite !app_nil_r. destruct sol; [reflexivity|].
    destruct Hc as [Hc|Hc]; [discriminate|]. rewrite Hc, app_assoc. reflexivity.
  - set (R := S r) in *. cbn [play_rounds].
    rewrite (pass_plays samples edges sol nb eb (dots c) (lines c) Rm Hnb Heb c fs eq_refl eq_refl EF).
    rewrite pass_last.
    destruct (IH (pass_end samples edges sol (dots c) (lines c))) as (imgs & EI & LI).
    { destruct sol; [auto|]. right. destruct Hc as [Hc|Hc]; [discriminate|]. exact Hc. }
    rewrite EI. eexists. split; [reflexivity|].
    assert (Ni : imgs <> []).
    { intros ->. unfold R in EI. cbn [play_rounds] in EI.
      destruct (play samples sol _ fs) as [i1|] eqn:P1; [|discriminate].
      destruct (play_rounds samples sol r _ fs) as [i2|]; [|discriminate]. apply Ok_eq in EI.
      apply app_eq_nil in EI. destruct EI as [-> _].
      destruct (frames_exist (length samples) edges sol nb eb Hnb Heb) as (k & fs' & EF'). rewrite EF in EF'. apply Ok_eq in EF'.
      subst fs. cbn [play update] in P1. destruct (play samples sol _ fs'); discriminate. }
    destruct (exists_last Ni) as (i0 & z & ->). rewrite last_last in LI. rewrite app_assoc, last_last, LI.
    unfold pass_end, done_lines. change (repeat ?x (S R)) with (x :: repeat x R).
    destruct sol as [|p0 sol0].
    + cbn [lines]. f_equal. rewrite !map_app, !map_map.
      change (repeat (map (segment samples Blue) edges) (S R)) with (map (segment samples Blue) edges :: repeat (map (segment samples Blue) edges) R).
      cbn [concat]. rewrite !map_app, !map_map, <- app_assoc. reflexivity.
    + cbn [lines]. f_equal.
      change (repeat (map (segment samples Blue) edges ++ steps (p0 :: sol0)) (S R)) with
        ((map (segment samples Blue) edges ++ steps (p0 :: sol0)) :: repeat (map (segment samples Blue) edges ++ steps (p0 :: sol0)) R).
      cbn [concat]. rewrite <- !app_assoc. reflexivity.
Qed.

Theorem animation_repeats : forall samples edges sol nb eb r,
  plane_roadmap samples edges sol -> (0 < nb)%nat -> (0 < eb)%nat ->
  exists m, animate (S r) samples (length samples) edges sol (Z.of_nat nb) (Z.of_nat eb) = Ok m /\
    last (images m) blank =
      match sol with
      | [] => mkCanvas samples Red (concat (repeat (map (segment samples Red) edges) (S r)))
      | _ => mkCanvas samples Blue (concat (repeat (map (segment samples Blue) edges ++ steps sol) (S r)))
      end.
Proof.
  intros samples edges sol nb eb r Rm Hnb Heb. pose proof Rm as (Ne & Pl & _).
  destruct (limits_planar samples 0 Ne Pl ltac:(lia)) as [xl EX]. destruct (limits_planar samples 1 Ne Pl ltac:(lia)) as [yl EY].
  destruct (frames_exist (length samples) edges sol nb eb Hnb Heb) as (k & fs & EF).
  unfold animate. rewrite EX, EY, EF. cbn [hd update].
  set (c0 := mkCanvas (upto samples k) (dots blank) (lines blank)).
  destruct (rounds_play samples edges sol nb eb r _ Rm Hnb Heb EF c0 (or_intror eq_refl)) as (imgs & EI & LI).
  rewrite EI. eexists. split; [reflexivity|]. cbn [images].
  assert (Ld : last imgs blank = last imgs c0).
  { destruct imgs as [|i0 imgs].
    - exfalso. cbn [play_rounds] in EI. rewrite (pass_plays samples edges sol nb eb Blue [] Rm Hnb Heb c0 _ eq_refl eq_refl EF) in EI.
      destruct (play_rounds samples sol r _ _); [|discriminate]. apply Ok_eq in EI. apply app_eq_nil in EI. destruct EI as [EI _].
      unfold pass_images in EI. discriminate EI.
    - clear. revert i0. induction imgs as [|x imgs IH]; intros; [reflexivity|]. exact (IH x). }
  rewrite Ld, LI. destruct sol; [|reflexivity]. cbn [c0 lines blank app]. f_equal.
  rewrite concat_map. f_equal. clear. induction (S r) as [|n IH]; [reflexivity|]. cbn [repeat map]. rewrite IH, map_map. reflexivity.
Qed.
Print Assumptions animation_repeats.

Theorem animation_repeat_same_refuted : exists samples edges sol m1 m2,
  plane_roadmap samples edges sol /\
  animate 1 samples (length samples) edges sol 5 5 = Ok m1 /\ animate 2 samples (length samples) edges sol 5 5 = Ok m2 /\
  nth 0 (images m2) blank <> nth (length (images m1)) (images m2) blank /\
  last (images m1) blank <> last (images m2) blank.
Proof.
  exists [[0;0];[1;0]]%Q, [(0,1)]%nat, ([] : list pt). eexists. eexists.
  split; [|split; [vm_compute; reflexivity|split; [vm_compute; reflexivity|split; vm_compute; congruence]]].
  split; [discriminate|]. split; [repeat constructor|]. split; repeat constructor.
Qed.
Print Assumptions animation_repeat_same_refuted.

(** Failures: an empty roadmap, a batch size of zero, and a roadmap in space with an edge. *)
Theorem animation_raises : forall rounds samples n edges sol nb eb,
  (samples = [] -> animate rounds samples n edges sol nb eb = Err ValueError) /\
  (samples <> [] -> Forall (fun p => 2 <= length p)%nat samples -> nb = 0%Z \/ eb = 0%Z ->
     animate rounds samples n edges sol nb eb = Err ZeroDivisionError) /\
  (samples <> [] -> Forall (fun p => 3 <= length p)%nat samples -> (0 < rounds)%nat -> edges <> [] ->
   Forall (fun e => fst e < length samples /\ snd e < length samples)%nat edges ->
   n = length samples -> (0 < nb)%Z -> (0 < eb)%Z ->
     animate rounds samples n edges sol nb eb = Err ValueError).
Proof.
  intros rounds samples n edges sol nb eb. split; [|split].
  - intros ->. reflexivity.
  - intros Ne Pl Z0. destruct samples as [|s rest]; [congruence|]. inversion Pl as [|? ? P1 _]; subst.
    unfold animate. cbn [limits]. destruct (Nat.ltb_spec 0 (length s)); [|lia]. destruct (Nat.ltb_spec 1 (length s)); [|lia].
    unfold all_frames, sampling_frames, edge_frames.
    destruct (Z.eqb_spec nb 0); [reflexivity|]. destruct (Z.eqb_spec eb 0); [reflexivity|]. lia.
  - intros Ne Pl Hr He Es -> Hnb Heb.
    destruct samples as [|s rest]; [congruence|]. set (samples := s :: rest) in *.
    assert (P1 : (3 <= length s)%nat) by (inversion Pl; auto).
    destruct (frames_exist (length samples) edges sol (Z.to_nat nb) (Z.to_nat eb) ltac:(lia) ltac:(lia)) as (k & fs & EF).
    rewrite !Z2Nat.id in EF by lia.
    unfold animate. unfold samples at 1 2. cbn [limits].
    destruct (Nat.ltb_spec 0 (length s)); [|lia]. destruct (Nat.ltb_spec 1 (length s)); [|lia].
    rewrite EF. cbn [hd update].
    assert (PB : forall c, play samples sol c (Sampling k :: fs) = Err ValueError).
    { intros c. revert EF. unfold all_frames, sampling_frames, edge_frames.
      destruct (Z.eqb_spec nb 0); [lia|]. destruct (Z.eqb_spec eb 0); [lia|].
      rewrite <- (Z2Nat.id nb), <- (Z2Nat.id eb) by lia.
      rewrite !quot_of_nat, !range_of_nat, !map_map by lia. intros E. apply Ok_eq in E. rewrite <- E.
      set (NN := S (length samples / Z.to_nat nb)). clearbody NN. revert c. generalize 0%nat at 1.
      induction NN as [|NN IH]; intros a c.
      - cbn [seq map app]. cbn [play update].
        replace (Z.of_nat 0 * Z.of_nat (Z.to_nat eb))%Z with (Z.of_nat 0) by lia.
        replace ((Z.of_nat 0 + 1) * Z.of_nat (Z.to_nat eb))%Z with (Z.of_nat (Z.to_nat eb)) by lia.
        rewrite slice_of_nat. cbn [skipn].
        destruct (Z.to_nat eb) as [|eb'] eqn:Eeb; [lia|]. destruct edges as [|[a0 b0] edges']; [congruence|].
        cbn [firstn plot_edges fst snd]. inversion Es as [|? ? [Ha Hb] _]; subst. cbn [fst snd] in *.
        rewrite (nth_error_nth' samples [] Ha), (nth_error_nth' samples [] Hb).
        rewrite Forall_forall in Pl. pose proof (Pl _ (nth_In samples [] Ha)) as La.
        destruct (nth a0 samples []) as [|? [|? [|? ?]]]; cbn [length] in La; try lia. reflexivity.
      - cbn [seq map app play update]. rewrite IH. reflexivity. }
    destruct rounds as [|rounds]; [lia|]. cbn [play_rounds]. rewrite PB. reflexivity.
Qed.
Print Assumptions animation_raises.

Example animation_raises_case : animate 1 [[0;0;0];[1;0;0]]%Q 2 [(0,1)]%nat [] 5 5 = Err ValueError /\
  animate 1 [[0;0;0];[1;0;0]]%Q 2 [] [] 5 0 = Err ZeroDivisionError.
Proof. split; vm_compute; reflexivity. Qed.
