(** C140, C141: the two plot scripts *)
From Coq Require Import List Bool Arith ZArith QArith Qpower Lia NArith String Ascii.
From Verif Require Import Log_Model Log_Props.
Import ListNotations.
Close Scope Q_scope.
Local Open Scope string_scope.

(** ** Statements *)
Definition logs (t : tree) : tree := filter (fun f => ends_with ".log" (fst f)) t.
(** the line after the last line with [sub] that is not the last line of the file *)
Definition after_last (sub : string) (lines : list string) (x : string) : Prop :=
  exists l1 l l2, lines = (l1 ++ l :: x :: l2)%list /\ has sub l /\
    forall m1 m y m2, lines = (m1 ++ m :: y :: m2)%list -> has sub m -> List.length m1 <= List.length l1.
(** the last line with a property *)
Definition last_line (p : string -> Prop) (lines : list string) (l : string) : Prop :=
  exists l1 l2, lines = (l1 ++ l :: l2)%list /\ p l /\ Forall (fun x => ~ p x) l2.
(** the leftmost "name=value," of a line *)
Definition field_parts (name s a v b : string) : Prop := s = a ++ name ++ v ++ "," ++ b /\ v <> "" /\ ~ In " "%char (chars v) /\ ~ In ","%char (chars v).
Definition field (name s v : string) : Prop :=
  exists a b, field_parts name s a v b /\ forall a' v' b', field_parts name s a' v' b' -> String.length a <= String.length a'.

(** ** Numbers in logs *)
Lemma float_strip s : py_float (strip s) = py_float s.
Proof. unfold py_float. now rewrite strip_idem. Qed.
Lemma strip_first c s : is_space c = false -> exists t, strip (String c s) = String c t.
Proof. intro E. unfold strip. simpl. rewrite E. simpl. destruct (rstrip s) eqn:R; [rewrite E|]; eauto. Qed.
Lemma float_M s : py_float (String "M" s) = None.
Proof. unfold py_float. destruct (strip_first "M" s eq_refl) as (t & ->). reflexivity. Qed.
(** a decimal numeral: its value *)
Definition digit_char (d : nat) : ascii := ascii_of_nat (48 + d).
Definition numeral (ds : list nat) : string := string_of_list_ascii (map digit_char ds).
Fixpoint dec_value (ds : list nat) : Z := match ds with [] => 0 | d :: ds' => Z.of_nat d * 10 ^ Z.of_nat (List.length ds') + dec_value ds' end%Z.
Lemma digit_ok d : d < 10 -> digit (digit_char d) = Some (Z.of_nat d).
Proof. intro H. do 10 (destruct d as [|d]; [reflexivity|]). lia. Qed.
Definition no_digit (s : string) : Prop := match s with "" => True | String c _ => digit c = None /\ c <> "_"%char end.
Lemma more_numeral ds : Forall (fun d => d < 10) ds -> forall v n s, no_digit s -> more_digits v n (numeral ds ++ s) = ((v * 10 ^ Z.of_nat (List.length ds) + dec_value ds)%Z, n + List.length ds, s).
Proof.
  induction 1 as [|d ds H F IH]; intros v n s N.
  - cbn [numeral map string_of_list_ascii dec_value List.length]. simpl (_ ++ _). replace (v * 10 ^ Z.of_nat 0 + 0)%Z with v by (simpl; lia). rewrite Nat.add_0_r.
    destruct s as [|c s]; [reflexivity|]. destruct N as [N1 N2]. cbn [more_digits]. rewrite N1. destruct s as [|c2 s]; [reflexivity|]. destruct (Ascii.eqb_spec c "_"); [contradiction|reflexivity].
  - change (numeral (d :: ds) ++ s) with (String (digit_char d) (numeral ds ++ s)). cbn [more_digits]. rewrite (digit_ok d H), (IH _ _ _ N). cbn [dec_value List.length].
    rewrite Nat2Z.inj_succ, Z.pow_succ_r by lia. f_equal; [f_equal; [ring|lia]].
Qed.
Lemma digit_black d : d < 10 -> is_space (digit_char d) = false /\ sign (String (digit_char d) "") = (false, String (digit_char d) "").
Proof. intro H. do 10 (destruct d as [|d]; [split; reflexivity|]). lia. Qed.
Lemma numeral_strip d ds s : d < 10 -> ends_black (numeral (d :: ds) ++ s) -> strip (numeral (d :: ds) ++ s) = numeral (d :: ds) ++ s.
Proof.
  intros H E. unfold strip. change (numeral (d :: ds) ++ s) with (String (digit_char d) (numeral ds ++ s)) in *. cbn [lstrip]. rewrite (proj1 (digit_black d H)).
  replace (String (digit_char d) (numeral ds ++ s)) with (String (digit_char d) (numeral ds ++ s) ++ "") at 1 by apply app_nil_s. apply rstrip_black; auto. intros x [].
Qed.
Lemma black_last t c : is_space c = false -> ends_black (t ++ String c "").
Proof. intro E. exists t, c. split; auto. rewrite <- space_white. congruence. Qed.
Lemma numeral_app a b : numeral (a ++ b) = numeral a ++ numeral b.
Proof. unfold numeral. rewrite map_app. induction (map digit_char a) as [|x l IH]; simpl; congruence. Qed.
Lemma numeral_black ds : Forall (fun d => d < 10) ds -> ds <> [] -> forall s, ends_black (s ++ numeral ds).
Proof.
  intros F N s. destruct (exists_last N) as (l & d & ->). rewrite numeral_app, <- app_assoc_s. apply black_last. apply digit_black. apply Forall_app in F. destruct F as [_ F]. now inversion F.
Qed.
Lemma sign_digit d s : d < 10 -> sign (String (digit_char d) s) = (false, String (digit_char d) s).
Proof. intro H. do 10 (destruct d as [|d]; [reflexivity|]). lia. Qed.
Lemma lower_digit d s t : d < 10 -> String.eqb (lowercase (String (digit_char d) s)) (String "i" t) = false /\ String.eqb (lowercase (String (digit_char d) s)) (String "n" t) = false.
Proof. intro H. do 10 (destruct d as [|d]; [split; reflexivity|]). lia. Qed.
(** Numbers written by str: digits, and digits with a fraction. *)
Theorem int_numeral : forall ds, ds <> [] -> Forall (fun d => d < 10) ds -> py_int (numeral ds) = Some (dec_value ds).
Proof.
  intros ds N F. unfold py_int. destruct ds as [|d ds]; [contradiction|]. inversion F as [|x y H F']; subst. rewrite <- (app_nil_s (numeral (d :: ds))), numeral_strip, app_nil_s; auto.
  - change (numeral (d :: ds)) with (String (digit_char d) (numeral ds)). rewrite sign_digit by auto. cbn [digits]. rewrite digit_ok by auto. rewrite <- (app_nil_s (numeral ds)), more_numeral by (auto; exact I). reflexivity.
  - rewrite app_nil_s. apply (numeral_black (d :: ds) F N "").
Qed.
Theorem float_numeral : forall ds fs, ds <> [] -> fs <> [] -> Forall (fun d => d < 10) ds -> Forall (fun d => d < 10) fs ->
  exists q, py_float (numeral ds ++ "." ++ numeral fs) = Some (Fin q) /\
  (q == inject_Z (dec_value ds) + inject_Z (dec_value fs) / inject_Z (10 ^ Z.of_nat (List.length fs)))%Q.
Proof.
  intros ds fs N M F G. destruct ds as [|d ds]; [contradiction|]. destruct fs as [|f fs]; [contradiction|]. inversion F as [|x y H F']; subst. inversion G as [|x y K G']; subst.
  unfold py_float. rewrite numeral_strip; auto. 2: { rewrite <- app_assoc_s. apply numeral_black; auto. }
  change (numeral (d :: ds) ++ "." ++ numeral (f :: fs)) with (String (digit_char d) (numeral ds ++ "." ++ numeral (f :: fs))). rewrite sign_digit by auto. cbv zeta.
  rewrite !(proj1 (lower_digit _ _ _ H)), (proj2 (lower_digit _ _ _ H)). cbn [orb digits]. rewrite digit_ok by auto. rewrite more_numeral; auto. 2: { split; [reflexivity|discriminate]. }
  change ("." ++ numeral (f :: fs)) with (String "." (String (digit_char f) (numeral fs))). cbn [digits]. rewrite digit_ok by auto.
  rewrite <- (app_nil_s (numeral fs)), !more_numeral by (auto; exact I). cbn [exponent]. eexists. split; [reflexivity|]. unfold neg.
  set (n := List.length fs). change (List.length (f :: fs)) with (S n). replace (1 + n) with (S n) by lia.
  assert (P : (0 < 10 ^ Z.of_nat (S n))%Z) by (apply Z.pow_pos_nonneg; lia).
  assert (Q10 : ((10 # 1) ^ (- Z.of_nat (S n)) == / inject_Z (10 ^ Z.of_nat (S n)))%Q).
  { rewrite Qpower_opp. apply Qinv_comp. change (10 # 1)%Q with (inject_Z 10). symmetry. apply Zpower_Qpower. lia. }
  rewrite Q10. cbn [dec_value]. fold n.
  replace ((10 * (Z.of_nat d * 10 ^ Z.of_nat (List.length ds) + dec_value ds) + Z.of_nat f) * 10 ^ Z.of_nat n + dec_value fs)%Z
    with ((Z.of_nat d * 10 ^ Z.of_nat (List.length ds) + dec_value ds) * 10 ^ Z.of_nat (S n) + (Z.of_nat f * 10 ^ Z.of_nat n + dec_value fs))%Z.
  2: { rewrite Nat2Z.inj_succ, Z.pow_succ_r by lia. ring. }
  set (a := (Z.of_nat d * 10 ^ Z.of_nat (List.length ds) + dec_value ds)%Z). set (b := (Z.of_nat f * 10 ^ Z.of_nat n + dec_value fs)%Z). rewrite inject_Z_plus, inject_Z_mult. field. intro X. unfold Qeq in X. cbn [Qnum Qden inject_Z] in X. lia.
Qed.

(** ** Dictionaries *)
Section Dict.
Context {K A : Type} (eqb : K -> K -> bool) (eqb_ok : forall x y, eqb x y = true <-> x = y).
Lemma eqb_same x : eqb x x = true. Proof. now apply eqb_ok. Qed.
Lemma eqb_other x y : x <> y -> eqb x y = false. Proof. intro N. destruct (eqb x y) eqn:E; auto. apply eqb_ok in E. contradiction. Qed.
Lemma dget_cons k k' (v : A) d : dget eqb k ((k', v) :: d) = if eqb k' k then Some v else dget eqb k d.
Proof. unfold dget. simpl. now destruct (eqb k' k). Qed.
Lemma dget_dset k (v : A) d k' : dget eqb k' (dset eqb k v d) = if eqb k k' then Some v else dget eqb k' d.
Proof.
  induction d as [|(k1, v1) d IH]; cbn [dset]; [rewrite dget_cons; auto|]. destruct (eqb k1 k) eqn:E.
  - apply eqb_ok in E. subst k1. rewrite !dget_cons. now destruct (eqb k k').
  - rewrite !dget_cons, IH. destruct (eqb k1 k') eqn:E1; auto. destruct (eqb k k') eqn:E2; auto. apply eqb_ok in E1, E2. subst. rewrite eqb_same in E. discriminate.
Qed.
Lemma dset_keys k (v : A) d : map fst (dset eqb k v d) = if existsb (fun x => eqb (fst x) k) d then map fst d else (map fst d ++ [k])%list.
Proof. induction d as [|(k1, v1) d IH]; auto. cbn [dset existsb fst]. destruct (eqb k1 k) eqn:E; auto. cbn [map fst orb]. rewrite IH. now destruct (existsb _ d). Qed.
Lemma dget_none k (d : list (K * A)) : dget eqb k d = None <-> ~ In k (map fst d).
Proof.
  induction d as [|(k1, v1) d IH]; [simpl; split; auto|]. rewrite dget_cons. cbn [map fst In]. destruct (eqb k1 k) eqn:E.
  - apply eqb_ok in E. split; [discriminate|]. intro X. exfalso. auto.
  - rewrite IH. split; [intros X [Y|Y]; [subst; rewrite eqb_same in E; discriminate|auto]|tauto].
Qed.
Lemma dget_in k (v : A) d : NoDup (map fst d) -> (In (k, v) d <-> dget eqb k d = Some v).
Proof.
  induction d as [|(k1, v1) d IH]; intro ND; [simpl; split; [contradiction|discriminate]|]. inversion ND as [|x y N ND']; subst. rewrite dget_cons. cbn [In]. destruct (eqb k1 k) eqn:E.
  - apply eqb_ok in E. subst k1. split; [intros [X|X]; [congruence|exfalso; apply N, in_map_iff; exists (k, v); auto]|]. left. congruence.
  - rewrite <- IH by auto. split; [intros [X|X]; auto; injection X as -> ->; rewrite eqb_same in E; discriminate|auto].
Qed.
Lemma dset_nodup k (v : A) d : NoDup (map fst d) -> NoDup (map fst (dset eqb k v d)).
Proof.
  intro ND. rewrite dset_keys. destruct (existsb _ d) eqn:E; auto.
  assert (N : ~ In k (map fst d)). { intro X. apply in_map_iff in X. destruct X as ((k', v') & Y & Z). simpl in Y. subst k'. rewrite <- not_true_iff_false in E. apply E, existsb_exists. exists (k, v'). split; auto. apply eqb_same. }
  clear E. induction (map fst d) as [|x l IH]; simpl; [repeat constructor; auto|]. inversion ND; subst. constructor; [|apply IH; auto; intro; apply N; now right].
  intro X. apply in_app_iff in X. destruct X as [X|[X|[]]]; [contradiction|]. apply N. now left.
Qed.
Lemma dset_new k (v : A) d : dget eqb k d = None -> dset eqb k v d = (d ++ [(k, v)])%list.
Proof. induction d as [|(k1, v1) d IH]; auto. rewrite dget_cons. cbn [dset]. destruct (eqb k1 k); [discriminate|]. intro H. simpl. now rewrite IH. Qed.
Lemma dset_twice k (v w : A) d : dset eqb k w (dset eqb k v d) = dset eqb k w d.
Proof. induction d as [|(k1, v1) d IH]; cbn [dset]; [now rewrite eqb_same|]. destruct (eqb k1 k) eqn:E; cbn [dset]; rewrite E; congruence. Qed.
End Dict.
Lemma seqb x y : String.eqb x y = true <-> x = y. Proof. apply String.eqb_eq. Qed.

(** ** C141: bound_plot *)
Fixpoint la (sub : string) (lines : list string) : option string :=
  match lines with
  | l :: ((x :: _) as rest) => match la sub rest with Some y => Some y | None => if contains sub l then Some x else None end
  | _ => None
  end.
Lemma la_cons sub l x r : la sub (l :: x :: r) = match la sub (x :: r) with Some y => Some y | None => if contains sub l then Some x else None end.
Proof. reflexivity. Qed.
Lemma la_none sub lines : la sub lines = None -> forall m1 m y m2, lines = (m1 ++ m :: y :: m2)%list -> ~ has sub m.
Proof.
  induction lines as [|l lines IH]; intros H m1 m y m2 E; [destruct m1; discriminate|]. destruct lines as [|x lines].
  - destruct m1 as [|? [|? ?]]; discriminate E.
  - rewrite la_cons in H. destruct (la sub (x :: lines)) eqn:L; [discriminate H|]. destruct (contains sub l) eqn:C; [discriminate H|].
    destruct m1 as [|m0 m1]; [injection E as <- <- <-; rewrite <- contains_has; congruence|]. injection E as _ E. eapply IH; eauto.
Qed.
Lemma la_spec sub lines x : la sub lines = Some x <-> after_last sub lines x.
Proof.
  split.
  - revert x. induction lines as [|l lines IH]; intros x H; [discriminate|]. destruct lines as [|z lines]; [discriminate|]. rewrite la_cons in H.
    destruct (la sub (z :: lines)) as [y|] eqn:L.
    + injection H as <-. destruct (IH y eq_refl) as (l1 & l0 & l2 & E & C & M). exists (l :: l1), l0, l2. split; [simpl; congruence|]. split; auto.
      intros [|m0 m1] m w m2 E' C'; simpl; [lia|]. injection E' as _ E'. apply M in E'; auto. simpl. lia.
    + destruct (contains sub l) eqn:C; [|discriminate]. injection H as <-. exists [], l, lines. split; auto. split; [now apply contains_has|].
      intros [|m0 m1] m w m2 E' C'; auto. exfalso. injection E' as _ E'. exact (la_none _ _ L _ _ _ _ E' C').
  - intros (l1 & l & l2 & E & C & M). subst lines. induction l1 as [|l0 l1 IH].
    + simpl app in *. rewrite la_cons. rewrite (proj2 (contains_has sub l) C).
      destruct (la sub (x :: l2)) as [y|] eqn:L; auto. exfalso.
      assert (X : exists m1 m w m2, x :: l2 = (m1 ++ m :: w :: m2)%list /\ has sub m).
      { clear M. revert y L. generalize (x :: l2). intro l'. induction l' as [|a l' IHl]; intros y L; [discriminate|]. destruct l' as [|b l']; [discriminate|]. rewrite la_cons in L.
        destruct (la sub (b :: l')) as [u|] eqn:L'; [|destruct (contains sub a) eqn:Ca; [|discriminate]; exists [], a, b, l'; split; auto; now apply contains_has].
        destruct (IHl u eq_refl) as (m1 & m & w & m2 & E & H). exists (a :: m1), m, w, m2. split; auto. simpl. congruence. }
      destruct X as (m1 & m & w & m2 & E & H). specialize (M (l :: m1) m w m2). simpl in M. rewrite E in M. specialize (M eq_refl H). lia.
    + assert (R : la sub (l1 ++ l :: x :: l2) = Some x).
      { apply IH. intros m1 m y m2 E H. specialize (M (l0 :: m1) m y m2). simpl in M. rewrite E in M. specialize (M eq_refl H). lia. }
      simpl app. destruct (l1 ++ l :: x :: l2)%list as [|z rest] eqn:Z; [destruct l1; discriminate|]. rewrite la_cons. rewrite R. reflexivity.
Qed.
Definition upd (file : string) (x : option string) (d d' : fdict) : Prop :=
  match x with None => d' = d | Some l => exists v, py_float l = Some v /\ d' = dset String.eqb file v d end.
Lemma upd_first file (v : pyfloat) x d d' : upd file (Some x) d d' -> forall d0, d = dset String.eqb file v d0 -> upd file (Some x) d0 d'.
Proof. intros (w & W & E) d0 ->. exists w. split; auto. rewrite E. apply (dset_twice String.eqb seqb). Qed.
Lemma bound_cons file line next r st : bound_lines file (line :: next :: r) st =
    bind (if contains "Delta:" line then bind (need ValueError (py_float (strip next))) (fun v => Ok (dset String.eqb file v (fst st), snd st)) else Ok st) (fun st1 =>
    bind (if contains "Found solution in" line then bind (need ValueError (py_float (strip next))) (fun v => Ok (fst st1, dset String.eqb file v (snd st1))) else Ok st1) (fun st2 =>
    bound_lines file (next :: r) st2)).
Proof. reflexivity. Qed.
Lemma bound_lines_spec file lines : forall st st', bound_lines file lines st = Ok st' ->
  upd file (la "Delta:" lines) (fst st) (fst st') /\ upd file (la "Found solution in" lines) (snd st) (snd st').
Proof.
  induction lines as [|l lines IH]; intros st st' H; [injection H as <-; split; reflexivity|]. destruct lines as [|x lines]; [injection H as <-; split; reflexivity|].
  rewrite bound_cons in H. rewrite !la_cons.
  rewrite float_strip in H.
  assert (X : exists st1 : fdict * fdict, bind (if contains "Delta:" l then bind (need ValueError (py_float x)) (fun v => Ok (dset String.eqb file v (fst st), snd st)) else Ok st) (fun s => Ok s) = Ok st1 /\
    exists st2 : fdict * fdict, bind (if contains "Found solution in" l then bind (need ValueError (py_float x)) (fun v => Ok (fst st1, dset String.eqb file v (snd st1))) else Ok st1) (fun s => Ok s) = Ok st2 /\ bound_lines file (x :: lines) st2 = Ok st').
  { destruct (if contains "Delta:" l then _ else _) as [st1|e]; [|discriminate]. exists st1. split; auto. cbn [bind] in H. destruct (if contains "Found solution in" l then _ else _) as [st2|e]; [|discriminate]. exists st2. auto. }
  destruct X as (st1 & E1 & st2 & E2 & H'). destruct (IH _ _ H') as [U1 U2].
  assert (A1 : (contains "Delta:" l = false /\ st1 = st) \/ (contains "Delta:" l = true /\ exists v, py_float x = Some v /\ st1 = (dset String.eqb file v (fst st), snd st))).
  { destruct (contains "Delta:" l); [right|left; injection E1; auto]. destruct (py_float x) as [v|]; [|discriminate]. split; auto. exists v. split; auto. now injection E1. }
  assert (A2 : (contains "Found solution in" l = false /\ st2 = st1) \/ (contains "Found solution in" l = true /\ exists v, py_float x = Some v /\ st2 = (fst st1, dset String.eqb file v (snd st1)))).
  { destruct (contains "Found solution in" l); [right|left; injection E2; auto]. destruct (py_float x) as [v|]; [|discriminate]. split; auto. exists v. split; auto. now injection E2. }
  clear E1 E2 H H' IH. split.
  - assert (F1 : fst st2 = fst st1) by (destruct A2 as [[_ ->]|[_ (v & _ & ->)]]; reflexivity). rewrite F1 in U1. clear A2 F1.
    revert U1. destruct (la "Delta:" (x :: lines)) as [y|]; intro U1.
    + destruct A1 as [[_ ->]|[_ (v & _ & ->)]]; [exact U1|exact (upd_first _ v _ _ _ U1 _ eq_refl)].
    + simpl in U1. rewrite U1. destruct A1 as [[-> ->]|[-> (v & V & ->)]]; [reflexivity|]. exists v. auto.
  - assert (S1 : snd st1 = snd st) by (destruct A1 as [[_ ->]|[_ (v & _ & ->)]]; reflexivity).
    revert U2. destruct (la "Found solution in" (x :: lines)) as [y|]; intro U2.
    + destruct A2 as [[_ ->]|[_ (v & _ & ->)]]; [now rewrite <- S1|]. rewrite <- S1. exact (upd_first _ v _ _ _ U2 _ eq_refl).
    + simpl in U2. rewrite U2. destruct A2 as [[-> ->]|[-> (v & V & ->)]]; [exact S1|]. exists v. split; auto. simpl. now rewrite S1.
Qed.
Definition reads (sub content : string) (v : pyfloat) : Prop := exists x, after_last sub (readlines content) x /\ py_float x = Some v.
Definition keeps (sub : string) (t : tree) (d d' : fdict) : Prop := (NoDup (map fst d) -> NoDup (map fst d')) /\
  forall f v, dget String.eqb f d' = Some v <-> (dget String.eqb f d = Some v \/ exists content, In (f, content) (logs t) /\ reads sub content v).
Lemma upd_keeps sub file content d d1 : upd file (la sub (readlines content)) d d1 -> dget String.eqb file d = None ->
  (NoDup (map fst d) -> NoDup (map fst d1)) /\ forall f v, dget String.eqb f d1 = Some v <-> (dget String.eqb f d = Some v \/ (f = file /\ reads sub content v)).
Proof.
  intros U N. destruct (la sub (readlines content)) as [x|] eqn:L.
  - destruct U as (w & W & ->). split; [apply dset_nodup, seqb|]. intros f v. rewrite (dget_dset _ seqb). destruct (String.eqb_spec file f) as [<-|E].
    + rewrite N. split; [intro H; right; split; auto; exists x; rewrite <- la_spec; split; auto; congruence|]. intros [H|(_ & y & Y & P)]; [discriminate|]. rewrite <- la_spec in Y. congruence.
    + split; [auto|]. intros [H|(X & _)]; [auto|congruence].
  - simpl in U. subst d1. split; auto. intros f v. split; [auto|]. intros [H|(_ & y & Y & _)]; auto. rewrite <- la_spec in Y. congruence.
Qed.
Lemma bound_tree_spec t : forall st st', bound_tree t st = Ok st' -> NoDup (map fst (logs t)) ->
  (forall f, In f (map fst (logs t)) -> dget String.eqb f (fst st) = None /\ dget String.eqb f (snd st) = None) ->
  keeps "Delta:" t (fst st) (fst st') /\ keeps "Found solution in" t (snd st) (snd st').
Proof.
  unfold logs. induction t as [|(file, content) t IH]; intros st st' H ND NO.
  - injection H as <-. split; (split; [auto|]); intros f v; (split; [auto|intros [X|(c & [] & _)]; auto]).
  - cbn [bound_tree] in H. cbn [filter fst] in ND, NO. unfold keeps, logs. cbn [filter fst]. destruct (ends_with ".log" file) eqn:EW.
    + destruct (bound_lines file (readlines content) st) as [st1|e] eqn:B; [|discriminate]. cbn [bind] in H. destruct (bound_lines_spec _ _ _ _ B) as [U1 U2].
      cbn [map fst] in ND, NO. inversion ND as [|x y N ND']; subst. destruct (NO file (or_introl eq_refl)) as [Z1 Z2].
      destruct (upd_keeps _ _ _ _ _ U1 Z1) as [K1 K2]. destruct (upd_keeps _ _ _ _ _ U2 Z2) as [L1 L2].
      destruct (IH _ _ H ND') as [[I1 I2] [J1 J2]].
      { intros f Hf. assert (Df : f <> file) by congruence. destruct (NO f (or_intror Hf)) as [Y1 Y2]. split.
        - destruct (dget String.eqb f (fst st1)) as [v|] eqn:G; auto. apply K2 in G. destruct G as [G|(G & _)]; congruence.
        - destruct (dget String.eqb f (snd st1)) as [v|] eqn:G; auto. apply L2 in G. destruct G as [G|(G & _)]; congruence. }
      split; (split; [auto|]); intros f v; [rewrite I2, K2|rewrite J2, L2]; (split;
        [intros [[X|(X & R)]|(c & Hc & R)]; auto; right; [exists content; subst; split; auto; now left|exists c; split; auto; now right]
        |intros [X|(c & [Hc|Hc] & R)]; [auto|injection Hc as <- <-; auto|right; exists c; auto]]).
    + apply IH; auto.
Qed.
Lemma bound_points_spec numbers samples : forall l, bound_points numbers samples = Ok l -> forall x y, In (x, y) l <-> exists k, In (k, y) samples /\ dget String.eqb k numbers = Some x.
Proof.
  induction samples as [|(k, v) samples IH]; intros l H x y; [injection H as <-; split; [intros []|intros (k & [] & _)]|]. cbn [bound_points] in H.
  destruct (dget String.eqb k numbers) as [w|] eqn:G; [|discriminate]. cbn [need bind] in H. destruct (bound_points numbers samples) as [l'|e] eqn:B; [|discriminate]. injection H as <-.
  cbn [In]. rewrite (IH _ eq_refl). split.
  - intros [X|(k' & Hk & E)]; [injection X as <- <-; exists k; auto|exists k'; auto].
  - intros (k' & [X|Hk] & E); [injection X as <- <-; left; congruence|right; exists k'; auto].
Qed.
(** If the script draws, its points are the runs with both numbers, and every run that found a solution is drawn. *)
Theorem bound_plot_exact : forall t pts, NoDup (map fst (logs t)) -> bound_plot t = Ok pts -> pts <> [] /\
  (forall x y, In (x, y) pts <-> exists file content, In (file, content) (logs t) /\ reads "Delta:" content x /\ reads "Found solution in" content y) /\
  (forall file content y, In (file, content) (logs t) -> reads "Found solution in" content y -> exists x, reads "Delta:" content x).
Proof.
  intros t pts ND H. unfold bound_plot in H. destruct (bound_tree t ([], [])) as [[n s]|e] eqn:B; [|discriminate]. cbn [bind fst snd] in H.
  destruct (bound_points n s) as [l|e] eqn:P; [|discriminate]. cbn [bind] in H.
  assert (E : pts = l /\ pts <> []) by (destruct l; [discriminate|]; injection H as <-; split; congruence). destruct E as [-> NE]. clear H. split; auto.
  destruct (bound_tree_spec _ _ _ B ND) as [[N1 N2] [S1 S2]]; [intros; split; reflexivity|]. cbn [fst snd] in *. specialize (S1 ltac:(constructor)).
  assert (U : forall f c c', In (f, c) (logs t) -> In (f, c') (logs t) -> c = c').
  { intros f c c' H1 H2. pose proof (proj1 (dget_in String.eqb seqb f c (logs t) ND) H1) as G1. pose proof (proj1 (dget_in String.eqb seqb f c' (logs t) ND) H2) as G2. congruence. }
  split.
  - intros x y. rewrite (bound_points_spec _ _ _ P). split.
    + intros (k & Hk & G). apply (dget_in _ seqb) in Hk; auto. apply S2 in Hk. apply N2 in G. destruct Hk as [Hk|(c & Hc & R)]; [discriminate|]. destruct G as [G|(c' & Hc' & R')]; [discriminate|].
      rewrite (U _ _ _ Hc' Hc) in R'. exists k, c. auto.
    + intros (file & content & Hf & R1 & R2). exists file. split; [apply (dget_in _ seqb); auto; apply S2|apply N2]; right; exists content; auto.
  - intros file content y Hf R. assert (G : In (file, y) s) by (apply (dget_in _ seqb); auto; apply S2; right; exists content; auto).
    assert (X : exists x, dget String.eqb file n = Some x).
    { clear - P G. revert l P. induction s as [|(k, v) s IH]; intros l P; [destruct G|]. cbn [bound_points] in P. destruct (dget String.eqb k n) as [w|] eqn:D; [|discriminate]. cbn [need bind] in P.
      destruct (bound_points n s) as [l'|] eqn:B; [|discriminate]. destruct G as [G|G]; [injection G as -> ->; eauto|eapply IH; eauto]. }
    destruct X as (x & X). apply N2 in X. destruct X as [X|(c & Hc & R')]; [discriminate|]. rewrite (U _ _ _ Hc Hf) in R'. eauto.
Qed.

(** The lines that a run writes: the sizes follow the clearance. *)
Lemma bind_raise {A B} (x : outcome A) (f : A -> outcome B) e : x = Raise e -> bind x f = Raise e.
Proof. now intros ->. Qed.
Lemma bound_lines_raise file l1 a b l2 : has "Delta:" a -> py_float b = None -> forall st, exists e, bound_lines file (l1 ++ a :: b :: l2) st = Raise e.
Proof.
  intros D F. induction l1 as [|l l1 IH]; intro st.
  - simpl app. rewrite bound_cons, float_strip, (proj2 (contains_has _ _) D), F. simpl. eauto.
  - destruct (l1 ++ a :: b :: l2)%list as [|x r] eqn:E; [destruct l1; discriminate|]. simpl app. rewrite E, bound_cons.
    destruct (if contains "Delta:" l then _ else _) as [st1|e]; [|simpl; eauto]. cbn [bind]. destruct (if contains "Found solution in" l then _ else _) as [st2|e]; [|simpl; eauto]. cbn [bind]. apply IH.
Qed.
Lemma bound_tree_raise t : forall file content st, In (file, content) (logs t) -> (forall st, exists e, bound_lines file (readlines content) st = Raise e) -> exists e, bound_tree t st = Raise e.
Proof.
  unfold logs. induction t as [|(f, c) t IH]; intros file content st H R; [destruct H|]. cbn [filter fst] in H. cbn [bound_tree]. destruct (ends_with ".log" f).
  - destruct H as [H|H].
    + injection H as -> ->. destruct (R st) as (e & ->). simpl. eauto.
    + destruct (bound_lines f (readlines c) st) as [st1|e]; [|simpl; eauto]. cbn [bind]. eapply IH; eauto.
  - cbn [bind]. eapply IH; eauto.
Qed.
(** what a value prints: one line, not ending in a blank *)
Definition printed (s : string) : Prop := one_line s /\ ends_black s.
Lemma printed_app a s : one_line a -> printed s -> printed (a ++ s).
Proof.
  intros O [P (t & c & -> & N)]. split.
  - intros x Hx. rewrite chars_app in Hx. apply in_app_iff in Hx. destruct Hx as [Hx|Hx]; [exact (O x Hx)|exact (P x Hx)].
  - exists (a ++ t), c. split; auto. now rewrite app_assoc_s.
Qed.
Lemma print_printed s : printed s -> py_print [s] = [s].
Proof. intros [O E]. rewrite <- (app_nil_s s) at 1. apply print_line; auto. intros x []. Qed.
Lemma print_one_line args : Forall one_line (py_print args).
Proof.
  unfold py_print. rewrite (proj2 write_space), app_nil_r. induction args as [|a args IH]; [constructor|]. destruct args as [|a2 args]; [apply write_lines|].
  change (print_args (a :: a2 :: args)) with (write a ++ write " " ++ print_args (a2 :: args))%list. apply Forall_app. split; [apply write_lines|]. now rewrite (proj1 write_space).
Qed.
Lemma run_log_lines r : Forall one_line (r_solver r) -> Forall one_line (run_log r).
Proof.
  intro S. unfold run_log. rewrite !Forall_app. repeat match goal with |- _ /\ _ => split end; auto using print_one_line.
  - apply Forall_forall. intros l Hl. apply in_flat_map in Hl. destruct Hl as (t & _ & Hl). apply in_app_iff in Hl.
    destruct Hl as [Hl|Hl]; [pose proof (print_one_line [fst t]) as F|pose proof (print_one_line [snd t]) as F]; rewrite Forall_forall in F; auto.
  - destruct (r_time r); [apply print_one_line|constructor].
Qed.
Ltac plain := apply one_line_b; intros ? Hplain; simpl in Hplain; repeat (destruct Hplain as [<-|Hplain]; [reflexivity|]); destruct Hplain.
Lemma one_delta : one_line "Delta: ". Proof. plain. Qed.
Lemma one_min : one_line "Min samples: ". Proof. plain. Qed.
Lemma one_time : one_line "Time: ". Proof. plain. Qed.
(** bound_plot raises as soon as one of its logs was written by run.py. *)
Theorem bound_plot_run_raises : forall t file r, In (file, log_file (run_log r)) (logs t) -> Forall one_line (r_solver r) -> printed (r_delta r) -> printed (r_min r) ->
  exists e, bound_plot t = Raise e.
Proof.
  intros t file r I S D M. unfold bound_plot. destruct (bound_tree_raise t file _ ([], []) I) as (e & E); [|rewrite E; simpl; eauto].
  intro st. rewrite read_log by (apply run_log_lines, S). unfold run_log. rewrite (print_printed _ (printed_app _ _ one_delta D)), (print_printed _ (printed_app _ _ one_min M)).
  rewrite !map_app. rewrite !app_assoc. rewrite <- !(app_assoc _ (map _ ["Delta: " ++ r_delta r])). rewrite <- !app_assoc. cbn [map app]. rewrite !app_assoc.
  match goal with |- exists e, bound_lines _ (?l ++ ?a :: ?b :: ?l2)%list _ = _ => apply (bound_lines_raise file l a b l2) end.
  - exists "", (" " ++ r_delta r ++ eol). simpl. reflexivity.
  - apply float_M.
Qed.

(** ** C140: time_success_plot *)
Lemma app_inj_l (a b c : string) : a ++ b = a ++ c -> b = c.
Proof. induction a as [|x a IH]; simpl; auto. intro H. injection H. auto. Qed.
Lemma span_spec s : s = fst (span_field s) ++ snd (span_field s) /\ ~ In " "%char (chars (fst (span_field s))) /\ ~ In ","%char (chars (fst (span_field s))) /\
  (snd (span_field s) = "" \/ exists c t, snd (span_field s) = String c t /\ (c = " "%char \/ c = ","%char)).
Proof.
  induction s as [|c s (E & N1 & N2 & T)]; [repeat split; auto|]. cbn [span_field]. destruct (Ascii.eqb_spec c " ") as [->|C1]; [cbn [orb fst snd]; repeat split; eauto 6|].
  destruct (Ascii.eqb_spec c ",") as [->|C2]; [cbn [orb fst snd]; repeat split; eauto 6|]. cbn [orb]. destruct (span_field s) as [v t]. cbn [fst snd] in *. repeat split; auto.
  - simpl. congruence.
  - intros [X|X]; auto.
  - intros [X|X]; auto.
Qed.
Lemma span_of v b : ~ In " "%char (chars v) -> ~ In ","%char (chars v) -> span_field (v ++ "," ++ b) = (v, "," ++ b).
Proof.
  induction v as [|c v IH]; intros N1 N2; [reflexivity|]. cbn [append span_field]. destruct (Ascii.eqb_spec c " ") as [->|C1]; [exfalso; apply N1; now left|].
  destruct (Ascii.eqb_spec c ",") as [->|C2]; [exfalso; apply N2; now left|]. cbn [orb]. simpl append in IH. rewrite IH; [reflexivity|intro; apply N1; now right|intro; apply N2; now right].
Qed.
Lemma drop_app name s : drop (String.length name) (name ++ s) = s.
Proof. induction name; simpl; auto. Qed.
Lemma field_at_spec name s v : field_at name s = Some v <-> exists b, field_parts name s "" v b.
Proof.
  unfold field_at, field_parts. split.
  - destruct (prefix name s) eqn:P; [|discriminate]. apply prefix_starts in P. destruct P as (r & ->). rewrite drop_app. destruct (span_spec r) as (E & N1 & N2 & T). destruct (span_field r) as [w t]. cbn [fst snd] in *.
    destruct w as [|c w]; [discriminate|]. destruct T as [->|(c' & t' & -> & [-> | ->])]; try discriminate. intro H. injection H as <-. exists t'. repeat split; auto; [|discriminate]. simpl. now rewrite E.
  - intros (b & -> & NE & N1 & N2). change ("" ++ name ++ v ++ "," ++ b) with (name ++ v ++ "," ++ b). rewrite (proj2 (prefix_starts name _)) by (eexists; reflexivity). rewrite drop_app, span_of by auto. destruct v; [contradiction|reflexivity].
Qed.
Theorem search_exact : forall name s v, search name s = Some v <-> field name s v.
Proof.
  intros name s v. unfold field. induction s as [|c s IH].
  - cbn [search]. destruct (field_at name "") as [w|] eqn:F.
    + split.
      * intro H. injection H as <-. apply field_at_spec in F. destruct F as (b & F). exists "", b. split; auto. intros. simpl. lia.
      * intros (a & b & P & _). assert (a = "") as -> by (destruct P as (P & _); destruct a; [auto|discriminate]). rewrite <- F. apply field_at_spec. eauto.
    + split; [discriminate|]. intros (a & b & P & _). assert (a = "") as -> by (destruct P as (P & _); destruct a; [auto|discriminate]). assert (X : field_at name "" = Some v) by (apply field_at_spec; eauto). congruence.
  - cbn [search]. destruct (field_at name (String c s)) as [w|] eqn:F.
    + split.
      * intro H. injection H as <-. apply field_at_spec in F. destruct F as (b & F). exists "", b. split; auto. intros. simpl. lia.
      * intros (a & b & P & M). apply field_at_spec in F. destruct F as (b' & F). pose proof (M _ _ _ F) as L. simpl in L. assert (a = "") as -> by (destruct a; [auto|simpl in L; lia]).
        assert (X : field_at name (String c s) = Some v) by (apply field_at_spec; eauto). assert (Y : field_at name (String c s) = Some w) by (apply field_at_spec; eauto). congruence.
    + rewrite IH. split.
      * intros (a & b & (E & P) & M). exists (String c a), b. split; [split; auto; exact (f_equal (String c) E)|]. intros a' v' b' (E' & P'). destruct a' as [|c' a'].
        -- exfalso. assert (X : field_at name (String c s) = Some v') by (apply field_at_spec; exists b'; split; auto). congruence.
        -- simpl in E'. injection E' as <- E'. simpl. apply le_n_S. apply (M a' v' b'). split; auto.
      * intros (a & b & (E & P) & M). destruct a as [|c' a].
        -- exfalso. assert (X : field_at name (String c s) = Some v) by (apply field_at_spec; exists b; split; auto). congruence.
        -- simpl in E. injection E as <- E. exists a, b. split; [split; auto|]. intros a' v' b' (E' & P'). specialize (M (String c a') v' b'). simpl in M. apply le_S_n, M. split; auto. exact (f_equal (String c) E').
Qed.

(** the last line with a test *)
Definition ll (p : string -> bool) (lines : list string) : option string := find p (rev lines).
Lemma ll_cons p l lines : ll p (l :: lines) = match ll p lines with Some x => Some x | None => if p l then Some l else None end.
Proof. unfold ll. cbn [rev]. generalize (rev lines). intro m. induction m as [|a m IH]; simpl; [destruct (p l); auto|]. destruct (p a); auto. Qed.
Lemma ll_spec p P lines x : (forall s, p s = true <-> P s) -> ll p lines = Some x <-> last_line P lines x.
Proof.
  intro R. unfold last_line. induction lines as [|l lines IH]; [split; [discriminate|intros (l1 & l2 & E & _); destruct l1; discriminate]|]. rewrite ll_cons. destruct (ll p lines) as [y|] eqn:L.
  - rewrite IH. split.
    + intros (l1 & l2 & E & H). exists (l :: l1), l2. split; auto. simpl. congruence.
    + intros (l1 & l2 & E & Px & F). destruct l1 as [|l0 l1]; [|injection E as <- E; exists l1, l2; auto]. injection E as <- <-. exfalso.
      clear IH. assert (X : In y lines /\ p y = true) by (unfold ll in L; split; [apply in_rev|]; now apply find_some in L). destruct X as [X1 X2]. rewrite Forall_forall in F. apply (F y X1). now apply R.
  - assert (N : Forall (fun s => ~ P s) lines) by (apply Forall_forall; intros s Hs X; apply R in X; unfold ll in L; pose proof (find_none _ _ L s (proj1 (in_rev lines s) Hs)); congruence).
    destruct (p l) eqn:Pl.
    + split; [intro H; injection H as <-; exists [], lines; repeat split; auto; now apply R|]. intros (l1 & l2 & E & Px & F). destruct l1 as [|l0 l1]; injection E as <- E; [auto|]. exfalso. subst lines.
      apply Forall_app in N. destruct N as [_ N]. inversion N; subst. contradiction.
    + split; [discriminate|]. intros (l1 & l2 & E & Px & F). destruct l1 as [|l0 l1]; injection E as <- E; [apply R in Px; congruence|]. exfalso. subst lines.
      apply Forall_app in N. destruct N as [_ N]. inversion N; subst. contradiction.
Qed.
(** what a run's log says *)
Definition says_adaptive (l : string) (b : bool) : Prop := exists a, field "adaptive_n=" l a /\ (b = true <-> a = "True").
Definition says_int (name l : string) (v : Z) : Prop := exists s, field name l s /\ py_int s = Some v.
Definition says_solved (l : string) (b : bool) : Prop := b = true <-> has "True" (strip l).
Definition says_time (l : string) (v : pyfloat) : Prop := py_float (remove_all "Time: " 0 (strip l)) = Some v.
Definition says {A} (p : string -> Prop) (R : string -> A -> Prop) (content : string) (v : A) : Prop := exists l, last_line p (readlines content) l /\ R l v.
Definition updg {A} (R : string -> A -> Prop) (file : string) (x : option string) (d d' : list (string * A)) : Prop :=
  match x with None => d' = d | Some l => exists v, R l v /\ d' = dset String.eqb file v d end.
Lemma updg_step {A} R file p l lines (d d1 d' : list (string * A)) :
  updg R file (ll p lines) d1 d' -> updg R file (if p l then Some l else None) d d1 -> updg R file (ll p (l :: lines)) d d'.
Proof.
  intros U V. rewrite ll_cons. destruct (ll p lines) as [y|]; cbn [updg] in *.
  - destruct U as (v & V1 & ->). exists v. split; auto. destruct (p l); cbn [updg] in V; [destruct V as (w & _ & ->); apply (dset_twice _ seqb)|now subst].
  - now subst.
Qed.
Definition ns := contains "Namespace".
Definition sol := prefix "Solved:".
Definition tim := prefix "Time:".
Record reads_all (file : string) (f : (string -> bool) -> option string) (d d' : dicts) : Prop := {
  ra_succ : updg says_solved file (f sol) (d_succ d) (d_succ d');
  ra_time : updg says_time file (f tim) (d_time d) (d_time d');
  ra_adapt : updg says_adaptive file (f ns) (d_adapt d) (d_adapt d');
  ra_min : updg (says_int "min_samples=") file (f ns) (d_min d) (d_min d');
  ra_max : updg (says_int "max_samples=") file (f ns) (d_max d) (d_max d') }.
Lemma time_line_spec file line d d' : time_line file line d = Ok d' -> reads_all file (fun p => if p line then Some line else None) d d'.
Proof.
  unfold time_line. intro H.
  set (x := if contains "Namespace" line then _ else _) in H. destruct x as [d1|e] eqn:X; [|discriminate]. subst x. cbn [bind] in H.
  assert (N : d_succ d1 = d_succ d /\ d_time d1 = d_time d /\ updg says_adaptive file (if ns line then Some line else None) (d_adapt d) (d_adapt d1) /\
    updg (says_int "min_samples=") file (if ns line then Some line else None) (d_min d) (d_min d1) /\ updg (says_int "max_samples=") file (if ns line then Some line else None) (d_max d) (d_max d1)).
  { unfold ns. destruct (contains "Namespace" line); [|injection X as <-; repeat split; reflexivity].
    destruct (search "adaptive_n=" line) as [a|] eqn:S1; [|discriminate]. cbn [need bind] in X. destruct (search "min_samples=" line) as [mn|] eqn:S2; [|discriminate]. cbn [need bind] in X.
    destruct (py_int mn) as [mnv|] eqn:V2; [|discriminate]. cbn [need bind] in X. destruct (search "max_samples=" line) as [mx|] eqn:S3; [|discriminate]. cbn [need bind] in X.
    destruct (py_int mx) as [mxv|] eqn:V3; [|discriminate]. cbn [need bind] in X. injection X as <-. cbn [d_succ d_time d_adapt d_min d_max updg]. split; auto. split; auto. repeat split.
    - exists (String.eqb a "True"). split; auto. exists a. split; [now apply search_exact|apply String.eqb_eq].
    - exists mnv. split; auto. exists mn. split; auto. now apply search_exact.
    - exists mxv. split; auto. exists mx. split; auto. now apply search_exact. }
  destruct N as (N1 & N2 & N3 & N4 & N5). clear X.
  set (d2 := if prefix "Solved:" line then _ else _) in H.
  assert (S : updg says_solved file (if sol line then Some line else None) (d_succ d) (d_succ d2) /\ d_time d2 = d_time d /\ d_adapt d2 = d_adapt d1 /\ d_min d2 = d_min d1 /\ d_max d2 = d_max d1).
  { unfold d2, sol. destruct (prefix "Solved:" line); cbn [d_succ d_time d_adapt d_min d_max updg]; [|repeat split; auto]. rewrite N1. repeat split; auto. eexists. split; [|reflexivity]. apply contains_has. }
  clearbody d2. destruct S as (S1 & S2 & S3 & S4 & S5). rewrite <- S3 in N3. rewrite <- S4 in N4. rewrite <- S5 in N5.
  unfold tim in *. destruct (prefix "Time:" line) eqn:T.
  - destruct (py_float (remove_all "Time: " 0 (strip line))) as [v|] eqn:V; [|discriminate]. cbn [need bind] in H. injection H as <-. constructor; cbn [d_succ d_time d_adapt d_min d_max]; auto.
    unfold tim. rewrite T. exists v. rewrite S2. auto.
  - injection H as <-. constructor; auto. unfold tim. rewrite T. exact S2.
Qed.
Lemma time_lines_spec file lines : forall d d', time_lines file lines d = Ok d' -> reads_all file (fun p => ll p lines) d d'.
Proof.
  induction lines as [|l lines IH]; intros d d' H; [injection H as <-; constructor; reflexivity|]. cbn [time_lines] in H. destruct (time_line file l d) as [d1|e] eqn:E; [|discriminate]. cbn [bind] in H.
  destruct (time_line_spec _ _ _ _ E) as [A1 A2 A3 A4 A5]. destruct (IH _ _ H) as [B1 B2 B3 B4 B5]. constructor; eapply updg_step; eauto.
Qed.
Definition keepsg {A} p (R : string -> A -> Prop) (t : tree) (d d' : list (string * A)) : Prop :=
  (forall f v, dget String.eqb f d' = Some v -> dget String.eqb f d = Some v \/ exists content, In (f, content) (logs t) /\ says p R content v) /\
  (forall f, dget String.eqb f d = None -> (forall content, In (f, content) (logs t) -> Forall (fun l => ~ p l) (readlines content)) -> dget String.eqb f d' = None).
Lemma none_last p P lines : (forall s, p s = true <-> P s) -> ll p lines = None <-> Forall (fun l => ~ P l) lines.
Proof.
  intro R. rewrite Forall_forall. unfold ll. split.
  - intros H l Hl X. apply R in X. pose proof (find_none _ _ H l (proj1 (in_rev lines l) Hl)). congruence.
  - intro H. destruct (find p (rev lines)) as [l|] eqn:F; auto. apply find_some in F. destruct F as [F1 F2]. apply in_rev in F1. apply R in F2. exfalso. exact (H l F1 F2).
Qed.
Lemma updg_keeps {A} p P (R : string -> A -> Prop) file content (d d1 : list (string * A)) : (forall s, p s = true <-> P s) -> updg R file (ll p (readlines content)) d d1 ->
  (forall f v, dget String.eqb f d1 = Some v -> dget String.eqb f d = Some v \/ (f = file /\ says P R content v)) /\
  (forall f, dget String.eqb f d = None -> (f = file -> Forall (fun l => ~ P l) (readlines content)) -> dget String.eqb f d1 = None).
Proof.
  intros RP U. destruct (ll p (readlines content)) as [l|] eqn:L; cbn [updg] in U.
  - destruct U as (w & W & ->). split; intros f; rewrite (dget_dset _ seqb); destruct (String.eqb_spec file f) as [<-|E]; auto.
    + intros v H. injection H as <-. right. split; auto. exists l. split; auto. now apply (ll_spec p P).
    + intros _ F. specialize (F eq_refl). apply (none_last p P _ RP) in F. congruence.
  - subst d1. split; auto.
Qed.
Lemma keepsg_trans {A} P (R : string -> A -> Prop) file content t (d d1 d' : list (string * A)) : ends_with ".log" file = true ->
  (forall f v, dget String.eqb f d1 = Some v -> dget String.eqb f d = Some v \/ (f = file /\ says P R content v)) ->
  (forall f, dget String.eqb f d = None -> (f = file -> Forall (fun l => ~ P l) (readlines content)) -> dget String.eqb f d1 = None) ->
  keepsg P R t d1 d' -> keepsg P R ((file, content) :: t) d d'.
Proof.
  intros EW K1 K2 [L1 L2]. unfold keepsg, logs. cbn [filter fst]. rewrite EW. split.
  - intros f v H. apply L1 in H. destruct H as [H|(c & Hc & H)]; [|right; exists c; split; auto; now right]. apply K1 in H. destruct H as [H|(-> & H)]; auto. right. exists content. split; auto. now left.
  - intros f H F. apply L2; [apply K2; auto; intros ->; apply F; now left|]. intros c Hc. apply F. now right.
Qed.
Lemma is_ns s : ns s = true <-> has "Namespace" s. Proof. apply contains_has. Qed.
Lemma is_sol s : sol s = true <-> starts "Solved:" s. Proof. apply prefix_starts. Qed.
Lemma is_tim s : tim s = true <-> starts "Time:" s. Proof. apply prefix_starts. Qed.
Definition timed (f : string * string) : bool := ends_with ".log" (fst f) && existsb tim (readlines (snd f)).
Record tree_reads (t : tree) (d d' : dicts) : Prop := {
  tr_succ : keepsg (starts "Solved:") says_solved t (d_succ d) (d_succ d');
  tr_adapt : keepsg (has "Namespace") says_adaptive t (d_adapt d) (d_adapt d');
  tr_min : keepsg (has "Namespace") (says_int "min_samples=") t (d_min d) (d_min d');
  tr_max : keepsg (has "Namespace") (says_int "max_samples=") t (d_max d) (d_max d');
  tr_time : exists l, d_time d' = (d_time d ++ l)%list /\ Forall2 (fun fc kv => fst kv = fst fc /\ says (starts "Time:") says_time (snd fc) (snd kv)) (filter timed t) l }.
Lemma keepsg_skip {A} P (R : string -> A -> Prop) file content t (d d' : list (string * A)) : ends_with ".log" file = false -> keepsg P R t d d' -> keepsg P R ((file, content) :: t) d d'.
Proof. intros EW [K1 K2]. unfold keepsg, logs. cbn [filter fst]. rewrite EW. split; auto. Qed.
Lemma timed_ll file content : ends_with ".log" file = true -> timed (file, content) = match ll tim (readlines content) with Some _ => true | None => false end.
Proof.
  intro EW. unfold timed. cbn [fst snd]. rewrite EW. cbn [andb]. destruct (ll tim (readlines content)) as [l|] eqn:L.
  - unfold ll in L. apply find_some in L. destruct L as [L1 L2]. apply existsb_exists. exists l. split; auto. now apply in_rev.
  - apply not_true_iff_false. intro X. apply existsb_exists in X. destruct X as (l & L1 & L2). unfold ll in L. pose proof (find_none _ _ L l (proj1 (in_rev _ l) L1)). congruence.
Qed.
Lemma time_tree_spec t : forall d d', time_tree t d = Ok d' -> NoDup (map fst (logs t)) -> (forall f, In f (map fst (logs t)) -> dget String.eqb f (d_time d) = None) -> tree_reads t d d'.
Proof.
  induction t as [|(file, content) t IH]; intros d d' H ND NO.
  - injection H as <-. constructor; try (split; auto). exists []. split; [now rewrite app_nil_r|constructor].
  - cbn [time_tree] in H. unfold logs in ND, NO. cbn [filter fst] in ND, NO. destruct (ends_with ".log" file) eqn:EW.
    + destruct (time_lines file (readlines content) d) as [d1|e] eqn:E; [|discriminate]. cbn [bind] in H. destruct (time_lines_spec _ _ _ _ E) as [U1 U2 U3 U4 U5].
      cbn [map fst] in ND, NO. inversion ND as [|x y N ND']; subst.
      assert (X : exists l1, d_time d1 = (d_time d ++ l1)%list /\ Forall2 (fun fc kv => fst kv = fst fc /\ says (starts "Time:") says_time (snd fc) (snd kv)) (if timed (file, content) then [(file, content)] else []) l1 /\ incl (map fst l1) [file]).
      { rewrite timed_ll by auto. destruct (ll tim (readlines content)) as [l|] eqn:L; cbn [updg] in U2.
        - destruct U2 as (v & V & ->). exists [(file, v)]. split; [apply dset_new, NO; now left|]. split; [|apply incl_refl]. constructor; [|constructor]. split; auto. exists l. split; auto. now apply (ll_spec tim _ _ _ is_tim).
        - exists []. rewrite U2, app_nil_r. split; auto. split; [constructor|intros ? []]. }
      destruct X as (l1 & X1 & X2 & X3).
      destruct (IH _ _ H ND') as [I1 I2 I3 I4 (l & I5 & I6)].
      { intros f Hf. rewrite X1. apply (dget_none String.eqb seqb). rewrite map_app, in_app_iff. intros [Y|Y]; [apply (dget_none String.eqb seqb) in Y; [auto|apply NO; now right]|]. apply X3 in Y. destruct Y as [<-|[]]. contradiction. }
      destruct (updg_keeps _ _ _ _ _ _ _ is_sol U1) as [A1 A2]. destruct (updg_keeps _ _ _ _ _ _ _ is_ns U3) as [B1 B2]. destruct (updg_keeps _ _ _ _ _ _ _ is_ns U4) as [C1 C2]. destruct (updg_keeps _ _ _ _ _ _ _ is_ns U5) as [D1 D2].
      constructor; try (eapply keepsg_trans; eauto; fail). exists (l1 ++ l)%list. split; [rewrite I5, X1; now rewrite app_assoc|].
      cbn [filter]. replace (if timed (file, content) then (file, content) :: filter timed t else filter timed t) with ((if timed (file, content) then [(file, content)] else []) ++ filter timed t)%list by now destruct (timed (file, content)).
      now apply Forall2_app.
    + destruct (IH _ _ H ND NO) as [I1 I2 I3 I4 (l & I5 & I6)]. constructor; try (apply keepsg_skip; auto; fail). exists l. split; auto. cbn [filter]. replace (timed (file, content)) with false by (unfold timed; cbn [fst]; now rewrite EW). exact I6.
Qed.
Lemma geqb g h : group_eqb g h = true <-> g = h.
Proof.
  destruct g as [[a b] c], h as [[a' b'] c']. unfold group_eqb. cbn [fst snd]. rewrite !andb_true_iff, !Z.eqb_eq, Bool.eqb_true_iff. split; [intros [[-> ->] ->]; auto|]. intro H. injection H. auto.
Qed.
(** a run that is drawn: its group, whether it was solved, and its time *)
Definition drun := (group * bool * pyfloat)%type.
Definition runs_of (g : group) (rs : list drun) : list drun := filter (fun r => group_eqb (fst (fst r)) g) rs.
Definition collect (gs : groups) (rs : list drun) : groups := fold_left (fun gs r => add_run (fst (fst r)) (snd (fst r)) (snd r) gs) rs gs.
Definition grouped (rs : list drun) (gs : groups) : Prop := NoDup (map fst gs) /\ forall g, dget group_eqb g gs =
  match runs_of g rs with [] => None | l => Some (map (fun r => snd (fst r)) l, map snd l) end.
Lemma collect_grouped rs : forall rs0 gs, grouped rs0 gs -> grouped (rs0 ++ rs) (collect gs rs).
Proof.
  induction rs as [|[[g s] v] rs IH]; intros rs0 gs [ND G]; [rewrite app_nil_r; split; auto|]. cbn [collect fold_left fst snd].
  change (grouped (rs0 ++ (g, s, v) :: rs) (collect (add_run g s v gs) rs)). replace (rs0 ++ (g, s, v) :: rs)%list with ((rs0 ++ [(g, s, v)]) ++ rs)%list by now rewrite <- app_assoc.
  apply IH. unfold add_run, grouped. rewrite (G g). split.
  - destruct (runs_of g rs0); apply dset_nodup; auto using geqb.
  - intro h. assert (E : runs_of h (rs0 ++ [(g, s, v)]) = (runs_of h rs0 ++ if group_eqb g h then [(g, s, v)] else [])%list) by (unfold runs_of; rewrite filter_app; reflexivity). rewrite E.
    destruct (group_eqb g h) eqn:GH.
    + apply geqb in GH. subst h. destruct (runs_of g rs0) as [|r l]; cbv beta iota zeta; rewrite (dget_dset _ geqb), (eqb_same _ geqb); [reflexivity|]. cbn [app map]. now rewrite !map_app.
    + rewrite app_nil_r. destruct (runs_of g rs0) as [|r l]; cbv beta iota zeta; rewrite (dget_dset _ geqb), GH; apply G.
Qed.
Lemma group_runs_spec d times : forall gs gs', group_runs d times gs = Ok gs' ->
  exists rs, gs' = collect gs rs /\ Forall2 (fun kv (r : drun) => dget String.eqb (fst kv) (d_min d) = Some (fst (fst (fst (fst r)))) /\ dget String.eqb (fst kv) (d_max d) = Some (snd (fst (fst (fst r)))) /\
    dget String.eqb (fst kv) (d_adapt d) = Some (snd (fst (fst r))) /\ dget String.eqb (fst kv) (d_succ d) = Some (snd (fst r)) /\ snd kv = snd r) times rs.
Proof.
  induction times as [|(k, v) times IH]; intros gs gs' H; [injection H as <-; exists []; split; [reflexivity|constructor]|]. cbn [group_runs] in H.
  destruct (dget String.eqb k (d_min d)) as [mn|] eqn:E1; [|discriminate]. cbn [need bind] in H. destruct (dget String.eqb k (d_max d)) as [mx|] eqn:E2; [|discriminate]. cbn [need bind] in H.
  destruct (dget String.eqb k (d_adapt d)) as [a|] eqn:E3; [|discriminate]. cbn [need bind] in H. destruct (dget String.eqb k (d_succ d)) as [s|] eqn:E4; [|discriminate]. cbn [need bind] in H.
  destruct (IH _ _ H) as (rs & -> & F). exists ((mn, mx, a, s, v) :: rs). split; [reflexivity|]. constructor; [|exact F]. cbn [fst snd]. tauto.
Qed.
(** what the log of a run says, line by line *)
Definition read_run (content : string) (r : drun) : Prop :=
  says (has "Namespace") (says_int "min_samples=") content (fst (fst (fst (fst r)))) /\
  says (has "Namespace") (says_int "max_samples=") content (snd (fst (fst (fst r)))) /\
  says (has "Namespace") says_adaptive content (snd (fst (fst r))) /\
  says (starts "Solved:") says_solved content (snd (fst r)) /\
  says (starts "Time:") says_time content (snd r).
Definition timed_logs (t : tree) : tree := filter timed t.
Lemma timed_in t f : In f (timed_logs t) <-> In f (logs t) /\ exists l, In l (readlines (snd f)) /\ starts "Time:" l.
Proof.
  unfold timed_logs, timed, logs. rewrite !filter_In, andb_true_iff, existsb_exists. split.
  - intros (H & E & l & L1 & L2). repeat split; auto. exists l. split; auto. now apply is_tim.
  - intros ((H & E) & l & L1 & L2). repeat split; auto. exists l. split; auto. now apply is_tim.
Qed.
(** If the script draws, every group holds its timed runs in order: whether each was solved, and its time. *)
Theorem time_success_exact : forall t gs, NoDup (map fst (logs t)) -> time_success t = Ok gs ->
  exists rs, Forall2 (fun f r => read_run (snd f) r) (timed_logs t) rs /\ NoDup (map fst gs) /\
  forall g ss ts, In (g, (ss, ts)) gs <-> runs_of g rs <> [] /\ ss = map (fun r => snd (fst r)) (runs_of g rs) /\ ts = map snd (runs_of g rs).
Proof.
  intros t gs ND H. unfold time_success in H. destruct (time_tree t (mkDicts [] [] [] [] [])) as [d|e] eqn:T; [|discriminate]. cbn [bind] in H.
  destruct (time_tree_spec _ _ _ T ND) as [K1 K2 K3 K4 (l & K5 & K6)]; [intros; reflexivity|]. cbn [d_succ d_time d_adapt d_min d_max app] in *. rewrite K5 in H.
  destruct (group_runs_spec _ _ _ _ H) as (rs & -> & F). exists rs.
  assert (U : forall f c c', In (f, c) (logs t) -> In (f, c') (logs t) -> c = c').
  { intros f c c' H1 H2. pose proof (proj1 (dget_in String.eqb seqb f c (logs t) ND) H1) as G1. pose proof (proj1 (dget_in String.eqb seqb f c' (logs t) ND) H2) as G2. congruence. }
  split.
  - unfold timed_logs. assert (I : forall f, In f (filter timed t) -> In f (logs t)) by (intros f Hf; apply (timed_in t f); exact Hf).
    clear H K5. revert rs F. induction K6 as [|[f c] [k v] fs l [E S] K6 IH]; intros rs F; inversion F as [|? r ? rs' Hr F']; subst; constructor.
    + cbn [fst snd] in *. subst k. destruct Hr as (R1 & R2 & R3 & R4 & R5). subst v. specialize (I (f, c) (or_introl eq_refl)).
      assert (G : forall A p (R : string -> A -> Prop) dd x, keepsg p R t [] dd -> dget String.eqb f dd = Some x -> says p R c x).
      { intros A p R dd x [Q _] Hx. apply Q in Hx. destruct Hx as [Hx|(c' & Hc & Hx)]; [discriminate|]. now rewrite (U _ _ _ I Hc). }
      repeat split; eauto.
    + apply IH; auto. intros; apply I; now right.
  - destruct (collect_grouped rs [] [] (conj (NoDup_nil _) (fun g => eq_refl))) as [N G]. split; auto. intros g ss ts. rewrite (dget_in _ geqb) by auto. rewrite (G g). simpl app.
    destruct (runs_of g rs) as [|r rs']; [split; [discriminate|intros (X & _); contradiction]|]. split; [intro X; injection X as <- <-; repeat split; auto; discriminate|]. intros (_ & -> & ->). reflexivity.
Qed.
(** The plotted success rate is the fraction of solved runs among the timed ones. *)
Theorem success_rate_exact : forall ss, ss <> [] -> (success_mean ss * inject_Z (Z.of_nat (List.length ss)) == inject_Z (Z.of_nat (count_occ Bool.bool_dec ss true)))%Q /\ (0 <= success_mean ss <= 1)%Q.
Proof.
  intros ss N. assert (C : List.length (filter (fun b => b) ss) = count_occ Bool.bool_dec ss true /\ count_occ Bool.bool_dec ss true <= List.length ss).
  { clear N. induction ss as [|[] ss [IH1 IH2]]; auto; cbn [filter count_occ List.length]; destruct (Bool.bool_dec _ _); try discriminate; try contradiction; cbn [List.length]; split; lia. }
  destruct C as [C1 C2]. unfold success_mean. rewrite C1. set (n := List.length ss) in *. assert (P : (0 < inject_Z (Z.of_nat n))%Q) by (unfold n; destruct ss; [contradiction|]; unfold Qlt; simpl; lia).
  split; [field; intro X; rewrite X in P; discriminate P|]. split.
  - apply Qle_shift_div_l; auto. rewrite Qmult_0_l. unfold Qle. simpl. lia.
  - apply Qle_shift_div_r; auto. rewrite Qmult_1_l. unfold Qle. simpl. lia.
Qed.
(** A log with a time but no Namespace line stops the script. *)
Theorem time_success_raises : forall t file content, NoDup (map fst (logs t)) -> In (file, content) (timed_logs t) -> Forall (fun l => ~ has "Namespace" l) (readlines content) ->
  exists e, time_success t = Raise e.
Proof.
  intros t file content ND I N. destruct (time_success t) as [gs|e] eqn:H; [|eauto]. exfalso. destruct (time_success_exact t gs ND H) as (rs & F & _).
  assert (X : exists r, read_run content r). { clear - F I. induction F as [|f r fs rs Hr F IH]; [destruct I|]. destruct I as [->|I]; eauto. }
  destruct X as (r & (l & (l1 & l2 & E & P & _) & _) & _). rewrite Forall_forall in N. apply (N l); auto. rewrite E. apply in_elt.
Qed.
(** So every run of run.py that ended stops it: line 196 prints a dictionary. *)
Theorem time_success_run_raises : forall t file r time, NoDup (map fst (logs t)) -> In (file, log_file (run_log r)) (logs t) -> r_time r = Some time -> printed time ->
  Forall one_line (r_solver r) -> Forall (fun l => ~ has "Namespace" (l ++ eol)) (run_log r) -> exists e, time_success t = Raise e.
Proof.
  intros t file r time ND I T P S N. apply (time_success_raises t file (log_file (run_log r)) ND).
  - apply timed_in. split; auto. cbn [snd]. rewrite read_log by (apply run_log_lines, S). exists (("Time: " ++ time) ++ eol). split; [|exists (" " ++ time ++ eol); reflexivity].
    apply (in_map (fun l => l ++ eol)). unfold run_log. rewrite T, (print_printed _ (printed_app _ _ one_time P)), !in_app_iff. simpl. tauto.
  - rewrite read_log by (apply run_log_lines, S). apply Forall_forall. intros l Hl. apply in_map_iff in Hl. destruct Hl as (x & <- & Hx). rewrite Forall_forall in N. auto.
Qed.
(** the time that run.py prints is the time that is read *)
Lemma remove_none old : forall t, ~ has old t -> remove_all old 0 t = t.
Proof.
  intros t. induction t as [|c t IH]; intro N; auto. cbn [remove_all]. destruct (prefix old (String c t)) eqn:P.
  - exfalso. apply N. apply prefix_starts in P. destruct P as (b & E). exists "", b. exact E.
  - f_equal. apply IH. intros (a & b & E). apply N. exists (String c a), b. simpl. congruence.
Qed.
Theorem time_line_exact : forall x v, printed x -> lstrip x = x -> ~ has "Time: " x -> (says_time ("Time: " ++ x ++ eol) v <-> py_float x = Some v).
Proof.
  intros x v [O E] L N. unfold says_time. assert (S : strip ("Time: " ++ x ++ eol) = "Time: " ++ x).
  { unfold strip. change (lstrip ("Time: " ++ x ++ eol)) with ("Time: " ++ x ++ eol). rewrite <- app_assoc_s. apply rstrip_black; [|intros c [<-|[]]; apply space_white; reflexivity].
    destruct E as (t & c & -> & B). exists ("Time: " ++ t), c. split; auto. }
  assert (R : forall y, remove_all "Time: " 0 ("Time: " ++ y) = remove_all "Time: " 0 y) by (intros [|c y]; reflexivity).
  rewrite S, R. rewrite remove_none by auto. tauto.
Qed.

(** ** Concrete logs *)
Definition base_run (args : string) (solver : list string) (time : option string) : run :=
  mkRun args [("0.31", "0.35")] "0.05" "10" "100" "[('HFree',), ('Rover', 2)]" "('and', ('AtPose', 4, p1))" "PDDLProblem(...)" solver time.
(** the arguments as line 196 prints them, and as the script expects them *)
Definition dict_args : string := repr_dict [("min_samples", "10"); ("max_samples", "100"); ("delta", "0.05"); ("adaptive_n", "False"); ("simulate", "False")].
Definition ns_args : string := "Namespace(min_samples=10, max_samples=100, delta=0.05, adaptive_n=False, simulate=False)".
Definition done_run (args : string) : run := base_run args ["Attempt 1"; "Solved: True"] (Some "1.5").
Definition failed_run (args : string) : run := base_run args ["Attempt 1"; "Traceback (most recent call last):"] None.
Example dict_args_ex : dict_args = "{'min_samples': 10, 'max_samples': 100, 'delta': 0.05, 'adaptive_n': False, 'simulate': False}".
Proof. reflexivity. Qed.
Definition ns_tree : tree := [("a.log", log_file (run_log (done_run ns_args))); ("notes.txt", "Time: later"); ("b.log", log_file (run_log (failed_run ns_args)))].
Example time_success_ex : NoDup (map fst (logs ns_tree)) /\ time_success ns_tree = Ok [((10%Z, 100%Z, false), ([true], [Fin (15 # 10)%Q]))].
Proof. split; [|vm_compute; reflexivity]. change (NoDup ["a.log"; "b.log"]). repeat constructor; simpl; intuition discriminate. Qed.
(** logs with two lines for the same run in the format that bound_plot reads *)
Definition bound_log : string := log_file (flat_map py_print [["Delta:"; "0.05"]; ["Attempt"; "2"]; ["Found solution in"; "120"]]).
Example bound_plot_ex : bound_plot [("a.log", bound_log); ("c.txt", "Delta:")] = Ok [(Fin (5 # 100)%Q, Fin (120 # 1)%Q)].
Proof. vm_compute. reflexivity. Qed.
(** No run of run.py can be drawn: a solved and timed run stops both scripts. *)
Theorem time_success_reads_runs_refuted : exists r, Forall one_line (r_solver r) /\ r_args r = dict_args /\ r_time r = Some "1.5" /\ In "Solved: True" (run_log r) /\
  time_success [("1700000000.1.log", log_file (run_log r))] = Raise KeyError.
Proof. exists (done_run dict_args). repeat split; [repeat (apply Forall_cons; [plain|]); apply Forall_nil|]. vm_compute. tauto. Qed.
Theorem bound_plot_reads_runs_refuted : exists r, Forall one_line (r_solver r) /\ r_args r = dict_args /\ r_delta r = "0.05" /\ In "Found solution in" (run_log r) /\
  bound_plot [("1700000000.1.log", log_file (run_log r))] = Raise ValueError.
Proof. exists (base_run dict_args ["Found solution in"; "120"; "Solved: True"] (Some "1.5")). repeat split; [repeat (apply Forall_cons; [plain|]); apply Forall_nil|]. vm_compute. tauto. Qed.
Example time_success_run_ex : exists e, time_success [("a.log", log_file (run_log (done_run dict_args)))] = Raise e.
Proof.
  apply (time_success_run_raises _ "a.log" (done_run dict_args) "1.5").
  - change (NoDup ["a.log"]). repeat constructor. intros [].
  - left. reflexivity.
  - reflexivity.
  - split; [plain|]. exists "1.", "5"%char. split; auto. rewrite <- space_white. discriminate.
  - repeat (apply Forall_cons; [plain|]); apply Forall_nil.
  - repeat match goal with |- Forall _ (run_log _) => let l := eval vm_compute in (run_log (done_run dict_args)) in change (run_log (done_run dict_args)) with l end.
    repeat constructor; intro H; apply is_ns in H; vm_compute in H; discriminate.
Qed.
Example bound_plot_run_ex : exists e, bound_plot [("a.log", log_file (run_log (done_run dict_args)))] = Raise e.
Proof.
  apply (bound_plot_run_raises _ "a.log" (done_run dict_args)).
  - left. reflexivity.
  - repeat (apply Forall_cons; [plain|]); apply Forall_nil.
  - split; [plain|]. exists "0.0", "5"%char. split; auto. rewrite <- space_white. discriminate.
  - split; [plain|]. exists "1", "0"%char. split; auto. rewrite <- space_white. discriminate.
Qed.
(** The success rate is not over all runs: one that raised is left out, whatever its group. *)
Definition in_group (g : group) (content : string) : Prop :=
  says (has "Namespace") (says_int "min_samples=") content (fst (fst g)) /\ says (has "Namespace") (says_int "max_samples=") content (snd (fst g)) /\ says (has "Namespace") says_adaptive content (snd g).
Lemma in_group_ns content : ll ns (readlines content) = Some (ns_args ++ eol) -> in_group (10%Z, 100%Z, false) content.
Proof.
  intro L. apply (ll_spec _ _ _ _ is_ns) in L. repeat split; exists (ns_args ++ eol); (split; [exact L|]).
  - exists "10". split; [apply search_exact; vm_compute; reflexivity|vm_compute; reflexivity].
  - exists "100". split; [apply search_exact; vm_compute; reflexivity|vm_compute; reflexivity].
  - exists "False". split; [apply search_exact; vm_compute; reflexivity|split; discriminate].
Qed.
Theorem success_rate_all_runs_refuted : exists t g ss ts, NoDup (map fst (logs t)) /\ time_success t = Ok [(g, (ss, ts))] /\ Forall (fun f => in_group g (snd f)) (logs t) /\
  List.length (logs t) = 2 /\ List.length ss = 1 /\ (success_mean ss == 1)%Q.
Proof.
  exists ns_tree, (10%Z, 100%Z, false), [true], [Fin (15 # 10)%Q]. destruct time_success_ex as [ND E]. split; [exact ND|]. split; [exact E|]. split; [|repeat split; vm_compute; reflexivity].
  change (logs ns_tree) with [("a.log", log_file (run_log (done_run ns_args))); ("b.log", log_file (run_log (failed_run ns_args)))].
  repeat (apply Forall_cons; [apply in_group_ns; vm_compute; reflexivity|]). apply Forall_nil.
Qed.
(** Runs are told apart by the names of their files only, not by their directories: of two logs with the same name one is lost. *)
Theorem time_success_all_logs_refuted : exists t g s v, List.length (timed_logs t) = 2 /\ Forall (fun f => in_group g (snd f)) (timed_logs t) /\ time_success t = Ok [(g, ([s], [v]))].
Proof.
  exists [("a.log", log_file (run_log (done_run ns_args))); ("a.log", log_file (run_log (base_run ns_args ["Solved: False"] (Some "60.25"))))], (10%Z, 100%Z, false), false, (Fin (6025 # 100)%Q).
  split; [vm_compute; reflexivity|]. split; [|vm_compute; reflexivity].
  match goal with |- Forall _ (timed_logs ?t) => change (timed_logs t) with t end. repeat (apply Forall_cons; [apply in_group_ns; vm_compute; reflexivity|]). apply Forall_nil.
Qed.
Example success_rate_ex : (success_mean [true; false; true; true] == 3 # 4)%Q.
Proof. reflexivity. Qed.
Example int_numeral_ex : py_int (numeral [2; 0; 0; 0]) = Some 2000%Z /\ py_int " 1_000 " = Some 1000%Z /\ py_int "1__0" = None /\ py_float "-2.5e-1" = Some (Fin (- 25 # 100)%Q).
Proof. repeat split; vm_compute; reflexivity. Qed.
Example search_ex : search "adaptive_n=" ns_args = Some "False" /\ search "simulate=" ns_args = None.
Proof. split; vm_compute; reflexivity. Qed.
Example time_line_ex : says_time ("Time: " ++ "1.5" ++ eol) (Fin (15 # 10)%Q).
Proof. vm_compute. reflexivity. Qed.

Print Assumptions int_numeral.
Print Assumptions float_numeral.
Print Assumptions bound_plot_exact.
Print Assumptions bound_plot_run_raises.
Print Assumptions search_exact.
Print Assumptions time_success_exact.
Print Assumptions success_rate_exact.
Print Assumptions time_success_raises.
Print Assumptions time_success_run_raises.
Print Assumptions time_line_exact.
Print Assumptions time_success_reads_runs_refuted.
Print Assumptions bound_plot_reads_runs_refuted.
Print Assumptions success_rate_all_runs_refuted.
Print Assumptions time_success_all_logs_refuted.
