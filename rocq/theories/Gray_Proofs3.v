(** The reference curve of the Gray-code corridor. *)
From Coq Require Import Arith ZArith QArith Qround List Bool Lia Lqa Qfield.
From Verif Require Import Gray_Model Gray_Spec Gray_Proofs Gray_Proofs2.
Import ListNotations.
Open Scope Q_scope.

Lemma add_last_spec p v : (1 <= length p)%nat -> length (add_last p v) = length p /\
  forall i, (i < length p)%nat -> nth i (add_last p v) 0 = if (i =? length p - 1)%nat then nth i p 0 + v else nth i p 0.
Proof.
  intro H. unfold add_last. split; [apply set_nth_length; lia|]. intros i Hi.
  rewrite set_nth_nth by lia. destruct (Nat.eqb_spec i (length p - 1)) as [->|]; auto.
Qed.
Lemma add_dir_spec p v d : length p = length d -> length (add_dir p v d) = length p /\
  forall i, (i < length p)%nat -> nth i (add_dir p v d) 0 = nth i p 0 + v * inject_Z (nth i d 0%Z).
Proof.
  intro L. unfold add_dir. split; [rewrite map_length, combine_length; lia|]. intros i Hi.
  rewrite nth_map_lt with (da := (0, 0%Z)) by (rewrite combine_length; lia).
  rewrite combine_nth by auto. reflexivity.
Qed.

Lemma Qceiling_unique x z : inject_Z z - 1 < x -> x <= inject_Z z -> Qceiling x = z.
Proof.
  intros A B. pose proof (Qle_ceiling x) as C. pose proof (Qceiling_lt x) as D.
  unfold Z.sub in D. rewrite inject_Z_plus in D. change (inject_Z (-(1))) with (-(1)) in D.
  assert (E1 : inject_Z z < inject_Z (Qceiling x + 1)) by (rewrite inject_Z_plus; change (inject_Z 1) with 1; lra).
  assert (E2 : inject_Z (Qceiling x) < inject_Z (z + 1)) by (rewrite inject_Z_plus; change (inject_Z 1) with 1; lra).
  rewrite <- Zlt_Qlt in E1, E2. lia.
Qed.

Lemma qclip_id x : 0 <= x <= 1 -> qclip x 0 1 == x.
Proof.
  intros [A B]. unfold qclip. destruct (Qle_bool x 0) eqn:E.
  - apply Qle_bool_iff in E. lra.
  - destruct (Qle_bool 1 x) eqn:E'; [|reflexivity]. apply Qle_bool_iff in E'. lra.
Qed.

Lemma last_is_nth {A} (l : list A) x : last l x = nth (length l - 1) l x.
Proof.
  induction l as [|a l IH]; auto. destruct l as [|b l]; auto.
  change (last (a :: b :: l) x) with (last (b :: l) x). rewrite IH. simpl. now rewrite Nat.sub_0_r.
Qed.

Section Curve.
  Variables (dim : nat) (path : list cube).
  Hypothesis K : corridor dim path.
  Hypothesis Hdim : (1 <= dim)%nat.
  Let n := length path.
  Hypothesis Hn : (2 <= n)%nat.
  Hypothesis first_cube : nth 0 path [] = repeat 0%Z dim.
  Hypothesis second_cube : forall i, (i < dim)%nat ->
    nth i (nth 1 path []) 0%Z = if (i =? dim - 1)%nat then 1%Z else 0%Z.
  Hypothesis last_step : forall i, (i < dim)%nat ->
    nth i (nth (n - 2) path []) 0%Z = (nth i (nth (n - 1) path []) 0 + if (i =? dim - 1)%nat then 1 else 0)%Z.

  Lemma path_len k : (k < n)%nat -> length (nth k path []) = dim.
  Proof. intro H. destruct K as (_ & HL & _). apply HL, nth_In. exact H. Qed.

  Lemma last_nth : last path [] = nth (n - 1) path [].
  Proof. apply last_is_nth. Qed.

  Lemma curve_polyline t k s : 0 <= t <= 1 -> (S k < n)%nat -> 0 <= s <= 1 ->
    t * (inject_Z (Z.of_nat n) - 1) == inject_Z (Z.of_nat k) + s ->
    exists p, curve_point dim path t = Ok p /\
      same_point p (at_time s (centre (nth k path [])) (centre (nth (S k) path []))).
  Proof.
    intros Ht Hk Hs E.
    assert (Lk := path_len k ltac:(lia)). assert (LSk := path_len (S k) ltac:(lia)).
    set (c := nth k path []) in *. set (d := nth (S k) path []) in *.
    assert (Lc : length (centre c) = dim) by (unfold centre; now rewrite map_length).
    assert (Ld : length (centre d) = dim) by (unfold centre; now rewrite map_length).
    assert (Nc : forall i, (i < dim)%nat -> nth i (centre c) 0 = inject_Z (nth i c 0%Z) + (1#2)).
    { intros i Hi. apply (center_nth c). lia. }
    assert (Nd : forall i, (i < dim)%nat -> nth i (centre d) 0 = inject_Z (nth i d 0%Z) + (1#2)).
    { intros i Hi. apply (center_nth d). lia. }
    assert (SP : forall p, length p = dim ->
      (forall i, (i < dim)%nat -> nth i p 0 == inject_Z (nth i c 0%Z) + (1#2) + s * (inject_Z (nth i d 0%Z) - inject_Z (nth i c 0%Z))) ->
      same_point p (at_time s (centre c) (centre d))).
    { intros p Lp H. split; [rewrite at_time_length; lia|]. intros i Hi. rewrite at_time_nth by lia.
      rewrite H, Nc, Nd by lia. ring. }
    assert (Cd : consecutive path c d) by (apply (consecutive_nth path _ _ []); exists k; auto).
    destruct K as (N & HL & HS).
    unfold curve_point. fold n.
    set (T := qclip t 0 1 * curve_arclength n).
    assert (HT : T == inject_Z (Z.of_nat k) + s).
    { unfold T. rewrite qclip_id by auto. rewrite <- E. unfold curve_arclength. ring. }
    assert (K0 : 0 <= inject_Z (Z.of_nat k)) by (change 0 with (inject_Z 0); rewrite <- Zle_Qle; lia).
    (* the first leg *)
    assert (First : forall v, v == s -> k = 0%nat -> s <= 1#2 \/ True ->
       exists p, Ok (add_last (start_point dim) v) = Ok p /\ same_point p (at_time s (centre c) (centre d))).
    { intros v Hv -> _. eexists. split; [reflexivity|].
      assert (Ls : length (start_point dim) = dim) by apply repeat_length.
      destruct (add_last_spec (start_point dim) v ltac:(lia)) as [L G]. apply SP; [lia|].
      intros i Hi. rewrite G by lia. rewrite Ls. unfold start_point. rewrite nth_repeat_lt by auto.
      unfold c, d. rewrite first_cube, nth_repeat_lt, second_cube by auto.
      change (inject_Z 0) with 0. destruct (i =? dim - 1)%nat; [change (inject_Z 1) with 1|change (inject_Z 0) with 0]; rewrite ?Hv; ring. }
    (* legs towards the exit of cube k *)
    assert (Exit : forall v, v == s ->
       exists p, match successors path c with [] => Err StopIteration | succ :: _ => Ok (add_dir (center c) v (zsub succ c)) end = Ok p /\
         same_point p (at_time s (centre c) (centre d))).
    { intros v Hv. destruct (succ_hd path c d N Cd) as [l ->]. eexists. split; [reflexivity|].
      destruct (add_dir_spec (center c) v (zsub d c)) as [L G]; [rewrite center_length, zsub_length; lia|].
      rewrite center_length in *. apply SP; [lia|]. intros i Hi. rewrite G by lia.
      rewrite center_nth, zsub_nth by lia. unfold Z.sub. rewrite inject_Z_plus, inject_Z_opp, Hv. ring. }
    (* legs from the entrance of cube k + 1 *)
    assert (Entr : forall v, v == 1 - s ->
       exists p, match predecessors path d with [] => Err StopIteration | pred :: _ => Ok (add_dir (center d) v (zsub pred d)) end = Ok p /\
         same_point p (at_time s (centre c) (centre d))).
    { intros v Hv. destruct (pred_hd path d c N Cd) as [l ->]. eexists. split; [reflexivity|].
      destruct (add_dir_spec (center d) v (zsub c d)) as [L G]; [rewrite center_length, zsub_length; lia|].
      rewrite center_length in *. apply SP; [lia|]. intros i Hi. rewrite G by lia.
      rewrite center_nth, zsub_nth by lia. unfold Z.sub. rewrite inject_Z_plus, inject_Z_opp, Hv. ring. }
    destruct (Qle_bool T 0) eqn:T0.
    - (* t = 0 *)
      apply Qle_bool_iff in T0. assert (k = 0%nat).
      { assert (Z : inject_Z (Z.of_nat k) <= inject_Z 0) by (change (inject_Z 0) with 0; lra).
        rewrite <- Zle_Qle in Z. lia. }
      simpl (1 =? 1)%Z. cbv iota. apply First; auto. subst k. rewrite HT. change (inject_Z (Z.of_nat 0)) with 0. ring.
    - assert (Tpos : 0 < T) by (apply Qnot_le_lt; intro C; apply Qle_bool_iff in C; congruence).
      assert (D2 : T / (1#2) == 2 * T) by field.
      destruct (Qlt_le_dec 0 s) as [Spos|S0]; [destruct (Qlt_le_dec (1#2) s) as [Sbig|Ssmall]|].
      + (* second half of the step *)
        assert (L : Qceiling (T / (1#2)) = (2 * Z.of_nat k + 2)%Z).
        { rewrite D2. apply Qceiling_unique; rewrite inject_Z_plus, inject_Z_mult; change (inject_Z 2) with 2; lra. }
        rewrite L. destruct (Z.eqb_spec (2 * Z.of_nat k + 2) 1) as [C|_]; [lia|].
        assert (I : (1#2) - (T - (inject_Z (2 * Z.of_nat k + 2) - 1) * (1#2)) == 1 - s).
        { rewrite HT, inject_Z_plus, inject_Z_mult. change (inject_Z 2) with 2. ring. }
        destruct (Z.eqb_spec (2 * Z.of_nat k + 2) (1 + 2 * (Z.of_nat n - 2) + 1)) as [C|C].
        * eexists. split; [reflexivity|]. rewrite last_nth.
          assert (Kn : k = (n - 2)%nat) by lia. assert (SKn : (n - 1)%nat = S k) by lia.
          rewrite SKn. fold d. set (v := (1#2) - _) in *.
          assert (Lz : length (center d) = dim) by (rewrite center_length; lia).
          destruct (add_last_spec (center d) v ltac:(lia)) as [L' G]. apply SP; [lia|].
          intros i Hi. rewrite G by lia. rewrite Lz, center_nth by lia.
          assert (Q : inject_Z (nth i c 0%Z) == inject_Z (nth i d 0%Z) + if (i =? dim - 1)%nat then 1 else 0).
          { unfold c, d. rewrite Kn, <- Kn, <- SKn, Kn, last_step by auto. rewrite inject_Z_plus. destruct (i =? dim - 1)%nat; reflexivity. }
          destruct (i =? dim - 1)%nat; rewrite Q, ?I; ring.
        * replace ((2 * Z.of_nat k + 2) mod 2)%Z with 0%Z.
          2: { replace (2 * Z.of_nat k + 2)%Z with ((Z.of_nat k + 1) * 2)%Z by lia. now rewrite Z_mod_mult. }
          replace (Z.to_nat ((2 * Z.of_nat k + 2) / 2)) with (S k).
          2: { replace (2 * Z.of_nat k + 2)%Z with ((Z.of_nat k + 1) * 2)%Z by lia. rewrite Z_div_mult by lia. lia. }
          fold d. simpl (0 =? 0)%Z. cbv iota. apply Entr. exact I.
      + (* first half of the step *)
        assert (L : Qceiling (T / (1#2)) = (2 * Z.of_nat k + 1)%Z).
        { rewrite D2. apply Qceiling_unique; rewrite inject_Z_plus, inject_Z_mult; change (inject_Z 2) with 2; change (inject_Z 1) with 1; lra. }
        rewrite L. destruct (Z.eqb_spec (2 * Z.of_nat k + 1) 1) as [C|C].
        * assert (k = 0%nat) by lia. apply First; auto. subst k. rewrite HT. change (inject_Z (Z.of_nat 0)) with 0. ring.
        * destruct (Z.eqb_spec (2 * Z.of_nat k + 1) (1 + 2 * (Z.of_nat n - 2) + 1)) as [C'|_]; [lia|].
          replace ((2 * Z.of_nat k + 1) mod 2)%Z with 1%Z.
          2: { replace (2 * Z.of_nat k + 1)%Z with (1 + Z.of_nat k * 2)%Z by lia. now rewrite Z_mod_plus_full. }
          replace (Z.to_nat ((2 * Z.of_nat k + 1) / 2)) with k.
          2: { replace (2 * Z.of_nat k + 1)%Z with (1 + Z.of_nat k * 2)%Z by lia. rewrite Z_div_plus_full by lia.
               change (1 / 2)%Z with 0%Z. lia. }
          fold c. simpl (1 =? 0)%Z. cbv iota. apply Exit.
          rewrite HT, inject_Z_plus, inject_Z_mult. change (inject_Z 2) with 2. change (inject_Z 1) with 1. ring.
      + (* at the centre of cube k, k > 0 *)
        assert (S0' : s == 0) by lra.
        assert (Kpos : (1 <= k)%nat).
        { destruct k; [|lia]. exfalso. change (inject_Z (Z.of_nat 0)) with 0 in HT. lra. }
        assert (L : Qceiling (T / (1#2)) = (2 * Z.of_nat k)%Z).
        { rewrite D2. apply Qceiling_unique; rewrite inject_Z_mult; change (inject_Z 2) with 2; lra. }
        rewrite L. destruct (Z.eqb_spec (2 * Z.of_nat k) 1) as [C|_]; [lia|].
        destruct (Z.eqb_spec (2 * Z.of_nat k) (1 + 2 * (Z.of_nat n - 2) + 1)) as [C'|_]; [lia|].
        replace ((2 * Z.of_nat k) mod 2)%Z with 0%Z by (rewrite Z.mul_comm; now rewrite Z_mod_mult).
        replace (Z.to_nat ((2 * Z.of_nat k) / 2)) with k by (rewrite Z.mul_comm, Z_div_mult; lia).
        fold c. simpl (0 =? 0)%Z. cbv iota.
        assert (Cb : consecutive path (nth (k - 1) path []) c).
        { apply (consecutive_nth path _ _ []). exists (k - 1)%nat. replace (S (k - 1)) with k by lia. split; [lia|auto]. }
        destruct (pred_hd path c _ N Cb) as [l ->]. eexists. split; [reflexivity|].
        assert (Lb := path_len (k - 1) ltac:(lia)). set (b := nth (k - 1) path []) in *.
        set (v := (1#2) - _).
        assert (V : v == 0).
        { unfold v. rewrite HT, S0', inject_Z_mult. change (inject_Z 2) with 2. ring. }
        destruct (add_dir_spec (center c) v (zsub b c)) as [L' G]; [rewrite center_length, zsub_length; lia|].
        rewrite center_length in *. apply SP; [lia|]. intros i Hi. rewrite G by lia.
        rewrite center_nth by lia. rewrite V, S0'. ring.
  Qed.
End Curve.

(** Points between the centres of consecutive cubes are half a unit from the closed faces. *)
Lemma between_centres_free dim path c d s : corridor dim path -> consecutive path c d -> 0 <= s <= 1 ->
  corridor_free path (1#2) (at_time s (centre c) (centre d)).
Proof.
  intros K Cd Hs. pose proof K as (N & HL & HS). destruct (consecutive_In path c d Cd) as [Ic Id].
  assert (Lc := HL c Ic). assert (Ld := HL d Id).
  destruct (HS c d Cd) as (_ & k & Hk & A & E).
  set (x := at_time s (centre c) (centre d)).
  assert (Lx : length x = dim) by (unfold x; rewrite at_time_length; unfold centre; rewrite !map_length; lia).
  assert (X : forall i, (i < dim)%nat -> nth i x 0 == inject_Z (nth i c 0%Z) + (1#2) + s * (inject_Z (nth i d 0%Z) - inject_Z (nth i c 0%Z))).
  { intros i Hi. unfold x. rewrite at_time_nth by (unfold centre; rewrite !map_length; lia).
    rewrite (center_nth c) by lia. rewrite (center_nth d) by lia. ring. }
  assert (Xj : forall i, (i < dim)%nat -> i <> k -> nth i x 0 == inject_Z (nth i c 0%Z) + (1#2)).
  { intros i Hi Ne. rewrite X by auto. rewrite (E i Ne). ring. }
  assert (Dk : (nth k d 0 = nth k c 0 + 1)%Z \/ (nth k d 0 = nth k c 0 - 1)%Z) by lia.
  assert (Oc : opens path c k (nth k d 0 - nth k c 0)%Z) by (exists d; split; [auto|lia]).
  assert (Od : opens path d k (nth k c 0 - nth k d 0)%Z) by (exists c; split; [auto|lia]).
  assert (Xk := X k ltac:(lia)).
  (* in c or in d? *)
  assert (InC : inject_Z (nth k c 0%Z) <= nth k x 0 < inject_Z (nth k c 0%Z) + 1 \/ inject_Z (nth k d 0%Z) <= nth k x 0 < inject_Z (nth k d 0%Z) + 1).
  { destruct Dk as [D|D]; rewrite D in *; unfold Z.sub in *; rewrite ?inject_Z_plus in *; change (inject_Z 1) with 1 in *; change (inject_Z (-(1))) with (-(1)) in *;
    set (z := inject_Z (nth k c 0%Z)) in *.
    - destruct (Qlt_le_dec s (1#2)); [left|right]; lra.
    - destruct (Qlt_le_dec (1#2) s); [right|left]; lra. }
  destruct InC as [B|B]; [exists c|exists d]; (split; [auto|]); (split; [split; [lia|]|]); intros i Hi;
    (destruct (Nat.eq_dec i k) as [->|Ne]; [|pose proof (Xj i ltac:(lia) Ne) as Xi; rewrite ?(E i Ne) in *]).
  - auto.
  - lra.
  - split; intro C.
    + destruct Dk as [D|D]; rewrite D in *.
      * exfalso. rewrite Xk, inject_Z_plus in C. change (inject_Z 1) with 1 in C. set (z := inject_Z (nth k c 0%Z)) in *. lra.
      * now replace (-1)%Z with (nth k c 0 - 1 - nth k c 0)%Z by lia.
    + destruct Dk as [D|D]; rewrite D in *.
      * now replace 1%Z with (nth k c 0 + 1 - nth k c 0)%Z by lia.
      * exfalso. unfold Z.sub in *. rewrite Xk, inject_Z_plus in C. change (inject_Z (-(1))) with (-(1)) in C. set (z := inject_Z (nth k c 0%Z)) in *. lra.
  - split; intro C; exfalso; lra.
  - auto.
  - lra.
  - split; intro C.
    + destruct Dk as [D|D].
      * now replace (-1)%Z with (nth k c 0 - nth k d 0)%Z by lia.
      * exfalso. replace (nth k c 0%Z) with (nth k d 0 + 1)%Z in Xk by lia.
        rewrite Xk, inject_Z_plus in C. change (inject_Z 1) with 1 in C. set (z := inject_Z (nth k d 0%Z)) in *. lra.
    + destruct Dk as [D|D].
      * exfalso. replace (nth k c 0%Z) with (nth k d 0 - 1)%Z in Xk by lia. unfold Z.sub in Xk.
        rewrite Xk, inject_Z_plus in C. change (inject_Z (-(1))) with (-(1)) in C. set (z := inject_Z (nth k d 0%Z)) in *. lra.
      * now replace 1%Z with (nth k c 0 - nth k d 0)%Z by lia.
  - split; intro C; exfalso; lra.
Qed.

Lemma corridor_free_same path th p q : same_point p q -> corridor_free path th p -> corridor_free path th q.
Proof.
  intros [L E] (c & Hc & [Lc C] & M). exists c. split; auto. split.
  - split; [lia|]. intros i Hi. rewrite <- E by lia. apply C. lia.
  - intros i Hi. rewrite <- E by lia. apply M. auto.
Qed.

(** ** First and last cubes of the linear list *)
Lemma gray_second n : (1 <= n)%nat -> exists m, gray n = repeat 0%Z n :: (repeat 0%Z (n - 1) ++ [1%Z]) :: m.
Proof.
  destruct n as [|n]; [lia|]. intros _. induction n as [|n [m E]].
  - simpl. eauto.
  - cbn [gray]. cbn [gray] in E. rewrite E. simpl. rewrite !Nat.sub_0_r. eauto.
Qed.

Lemma nth_units n i : (i < S n)%nat -> nth i (repeat 0%Z n ++ [1%Z]) 0%Z = if (i =? n)%nat then 1%Z else 0%Z.
Proof.
  intro H. destruct (Nat.eqb_spec i n) as [->|Ne].
  - rewrite app_nth2; rewrite repeat_length; [|lia]. now rewrite Nat.sub_diag.
  - rewrite app_nth1 by (rewrite repeat_length; lia). apply nth_repeat_lt. lia.
Qed.

Lemma linear_second dim len : (2 <= dim)%nat -> (1 <= len)%nat ->
  exists m, linear_list dim len = repeat 0%Z dim :: (repeat 0%Z (dim - 1) ++ [1%Z]) :: m.
Proof.
  intros Hd Hl. destruct len as [|len]; [lia|]. clear Hl. induction len as [|len [m IH]].
  - rewrite linear_S. simpl app. unfold layer, prepend_coord. simpl Nat.even. cbv iota.
    destruct (gray_second (dim - 1) ltac:(lia)) as [m ->]. destruct dim as [|[|dim]]; try lia.
    cbn. rewrite ?Nat.sub_0_r. eauto.
  - rewrite linear_S, IH. simpl. eauto.
Qed.

(** the last two code words *)
Lemma gray_last_two n : (2 <= n)%nat -> exists m, gray n = m ++ [1%Z :: repeat 0%Z (n - 2) ++ [1%Z]; 1%Z :: repeat 0%Z (n - 1)].
Proof.
  destruct n as [|n]; [lia|]. intro H. destruct (gray_second n ltac:(lia)) as [m E]. cbn [gray]. rewrite E.
  simpl rev. rewrite !map_app. simpl map. replace (S n - 2)%nat with (n - 1)%nat by lia. replace (S n - 1)%nat with n by lia.
  rewrite <- app_assoc. simpl. rewrite app_assoc. rewrite app_comm_cons. rewrite app_comm_cons.
  eexists. f_equal.
Qed.

Lemma linear_last_two dim len : (2 <= dim)%nat -> (1 <= len)%nat -> (3 <= dim)%nat \/ Nat.even len = true ->
  exists m p, linear_list dim len = m ++ [p ++ [1%Z]; p ++ [0%Z]] /\ length p = (dim - 1)%nat.
Proof.
  intros Hd Hl Hx. destruct len as [|len]; [lia|]. rewrite linear_S. unfold layer, prepend_coord.
  destruct (Nat.even len) eqn:Ev.
  - assert (H3 : (3 <= dim)%nat). { destruct Hx as [|Hx]; auto. rewrite Nat.even_succ, <- Nat.negb_even, Ev in Hx. discriminate. }
    destruct (gray_last_two (dim - 1) ltac:(lia)) as [m ->]. rewrite map_app. simpl map.
    exists (linear_list dim len ++ map (cons (Z.of_nat len)) m), (Z.of_nat len :: 1%Z :: repeat 0%Z (dim - 1 - 2)).
    rewrite <- app_assoc. simpl. split; [|rewrite repeat_length; lia].
    repeat f_equal. replace (dim - 1 - 1)%nat with ((dim - 1 - 2) + 1)%nat by lia. now rewrite repeat_app.
  - destruct (gray_second (dim - 1) ltac:(lia)) as [m ->]. simpl rev. rewrite !map_app. simpl map.
    exists (linear_list dim len ++ map (cons (Z.of_nat len)) (rev m)), (Z.of_nat len :: repeat 0%Z (dim - 1 - 1)).
    rewrite <- !app_assoc. simpl. split; [|rewrite repeat_length; lia].
    repeat f_equal. replace (dim - 1)%nat with ((dim - 1 - 1) + 1)%nat at 1 by lia. now rewrite repeat_app.
Qed.
