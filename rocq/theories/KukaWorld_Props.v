(** Property C162: the bodies of the kuka's world and what the planner is told of them. *)
From Coq Require Import Reals List Bool Arith ZArith String Ascii Lra Lia.
From Verif Require Import Space Pose Box_Model Bin_Model Bin_Props Submit_Model Submit_Props Prim_Model KukaWorld_Model.
Import ListNotations.
Open Scope string_scope.

(** ** Specification *)
(** the boxes of a body in the simulator: as many as [boxes], the same points in the same order *)
Definition same_boxes (links : list link) (base : vec) (boxes : list oobb) : Prop :=
  (forall i, link_box links base i = None <-> nth_error boxes i = None) /\
  forall i b o, link_box links base i = Some b -> nth_error boxes i = Some o -> forall p, in_oobb b p <-> in_oobb o p.
(** new numbers are new *)
Definition fresh (new_id : list nat -> nat) : Prop := forall l, ~ In (new_id l) l.
Definition is_block (w : R) (b : body) : Prop := b_solid b = Block w w (2 / 10).
Fixpoint has (c : ascii) (s : string) : Prop := match s with "" => False | String d r => d = c \/ has c r end.

(** ** Links *)
Lemma make_links_grey geoms poses colors : List.length geoms = List.length poses ->
  (List.length geoms <= List.length colors)%nat ->
  exists ls, make_links geoms poses colors = Ok ls /\ List.length ls = List.length geoms /\
    forall i l, nth_error ls i = Some l -> nth_error geoms i = Some (lk_half l) /\ nth_error poses i = Some (lk_point l) /\
      lk_parent l = O /\ nth_error colors i = Some (lk_colour l).
Proof.
  revert poses colors. induction geoms as [|g geoms IH]; intros [|p poses] colors E C; try discriminate.
  - exists []. split; [reflexivity|]. split; auto. intros [|i] l H; discriminate.
  - destruct colors as [|c colors]; [cbn in C; lia|]. cbn in E, C.
    destruct (IH poses colors) as (ls & M & L & N); try lia. exists (mkLink g p 0 c :: ls). cbn [make_links]. rewrite M. split; auto. split; [cbn; lia|].
    intros [|i] l H; cbn in H.
    + injection H as <-. repeat split; reflexivity.
    + exact (N i l H).
Qed.

(** what create_link_body makes, and when it raises *)
Theorem link_body_exact geoms poses colors :
  match create_link_body geoms poses colors with
  | Ok ls => List.length geoms = List.length poses /\ List.length ls = List.length geoms /\
      forall i, (i < List.length geoms)%nat -> exists l, nth_error ls i = Some l /\ nth_error geoms i = Some (lk_half l) /\ nth_error poses i = Some (lk_point l) /\
        lk_parent l = O /\ match colors with Some cs => nth_error cs i = Some (lk_colour l) | None => lk_colour l = (1 / 2, 1 / 2, 1 / 2, 1)%R end
  | Err AssertionFailed => List.length geoms <> List.length poses
  | Err IndexError => List.length geoms = List.length poses /\ exists cs, colors = Some cs /\ (List.length cs < List.length geoms)%nat
  | Err _ => False
  end.
Proof.
  unfold create_link_body. destruct (Nat.eqb_spec (List.length geoms) (List.length poses)) as [E|E]; auto.
  set (cs := match colors with Some c => c | None => repeat default_colour (List.length geoms) end).
  destruct (le_lt_dec (List.length geoms) (List.length cs)) as [C|C].
  - destruct (make_links_grey geoms poses cs E C) as (ls & -> & L & N). split; auto. split; auto. intros i H.
    destruct (nth_error ls i) as [l|] eqn:X; [|apply nth_error_None in X; lia]. exists l. split; auto. destruct (N i l X) as (A & B & D & F). repeat split; auto.
    unfold cs in F. destruct colors; auto. apply nth_error_In, repeat_spec in F. auto.
  - assert (M : make_links geoms poses cs = Err IndexError).
    { clearbody cs. revert poses cs E C. induction geoms as [|g geoms IH]; intros [|p poses] cs E C; cbn in *; try lia. destruct cs as [|c cs]; auto. cbn in C. rewrite IH by lia. auto. }
    rewrite M. split; auto. destruct colors as [c|]; [exists c; auto|]. unfold cs in C. rewrite repeat_length in C. lia.
Qed.
Print Assumptions link_body_exact.
Example two_links : create_link_body [vec3 1 1 1; vec3 1 2 3] [vec3 0 0 0; vec3 5 0 0] (Some [(1, 0, 0, 1)%R]) = Err IndexError.
Proof. reflexivity. Qed.

(** every link hangs on the base: its box is at its own position, wherever the other links are *)
Lemma link_box_base ls base i : (forall j l, nth_error ls j = Some l -> lk_parent l = O) ->
  link_box ls base i = option_map (fun l => mkOobb (fun k => - lk_half l k)%R (lk_half l) (vadd base (lk_point l))) (nth_error ls i).
Proof.
  intros P. unfold link_box. destruct (nth_error ls i) as [l|] eqn:E; [|reflexivity].
  assert (O : link_origin (List.length ls) ls base i = Some (vadd base (lk_point l))).
  { destruct (List.length ls); cbn [link_origin]; rewrite E, (P _ _ E); reflexivity. }
  rewrite O. reflexivity.
Qed.

Lemma shapes_centred indices w l h t shapes : create_hollow_shapes indices w l h t = Some shapes ->
  forall o, In o shapes -> forall k, o_lower o k = (- o_upper o k)%R.
Proof.
  unfold create_hollow_shapes. destruct (_ =? 3)%nat; [|discriminate]. intros [= <-] o I k.
  apply in_flat_map in I as (e & _ & I). apply in_map_iff in I as (s & <- & _). reflexivity.
Qed.

(** A hollow body consists in the simulator of exactly the boxes that are handed to the planner, when the base stands where
    the boxes are placed; every box is grey. *)
Theorem hollow_body_exact category color w l h t ls oobbs at_ : create_hollow category color w l h t = Ok (ls, oobbs) ->
  oobbs <> [] /\ same_boxes ls (vec3 (fst at_) (snd at_) 0) (map (place at_) oobbs) /\
  forall x, In x ls -> lk_colour x = (1 / 2, 1 / 2, 1 / 2, 1)%R.
Proof.
  unfold create_hollow. destruct (lookup category shape_indices) as [indices|]; [|discriminate].
  destruct (create_hollow_shapes indices w l h t) as [[|o os]|] eqn:S; try discriminate. set (shapes := o :: os) in *.
  pose proof (link_body_exact (map o_upper shapes) (map o_point shapes) None) as X.
  destruct (create_link_body (map o_upper shapes) (map o_point shapes) None) as [ls'|]; [|discriminate].
  intros [= <- <-]. destruct X as (_ & L & N). split; [discriminate|]. rewrite map_length in L, N.
  assert (P : forall j x, nth_error ls' j = Some x -> lk_parent x = O).
  { intros j x E. assert (B : (j < List.length shapes)%nat) by (rewrite <- L; apply nth_error_Some; congruence). destruct (N j B) as (y & Y & _ & _ & Z & _). congruence. }
  split; [split|].
  - intros i. rewrite link_box_base by auto. split; intros H.
    + apply nth_error_None. rewrite map_length, <- L. apply nth_error_None. destruct (nth_error ls' i); [discriminate|auto].
    + apply nth_error_None in H. rewrite map_length, <- L in H. apply nth_error_None in H. rewrite H. reflexivity.
  - intros i b o' B O p. rewrite link_box_base in B by auto. destruct (nth_error ls' i) as [x|] eqn:E; [|discriminate]. injection B as <-.
    rewrite nth_error_map in O. destruct (nth_error shapes i) as [s|] eqn:F; [|discriminate]. injection O as <-.
    assert (B : (i < List.length shapes)%nat) by (apply nth_error_Some; congruence). destruct (N i B) as (y & Y & H1 & H2 & _). rewrite E in Y. injection Y as <-.
    rewrite nth_error_map, F in H1, H2. injection H1 as H1. injection H2 as H2.
    unfold in_oobb. cbn [o_point o_lower o_upper place vadd]. rewrite <- H1, <- H2. unfold vadd.
    pose proof (shapes_centred _ _ _ _ _ _ S s (nth_error_In _ _ F)) as C.
    split; intros Q k K; specialize (Q k K); specialize (C k); lra.
  - intros x I. apply In_nth_error in I as [i E]. assert (B : (i < List.length shapes)%nat) by (rewrite <- L; apply nth_error_Some; congruence).
    destruct (N i B) as (y & Y & _ & _ & _ & Z). congruence.
Qed.
Print Assumptions hollow_body_exact.

(** when create_hollow raises: never for one of the six categories, KeyError for everything else *)
Theorem category_outcomes category color w l h t :
  (In category ["tray"; "bin"; "cubby"; "fence"; "x_walls"; "y_walls"] -> exists ls oobbs, create_hollow category color w l h t = Ok (ls, oobbs)) /\
  (~ In category ["tray"; "bin"; "cubby"; "fence"; "x_walls"; "y_walls"] -> create_hollow category color w l h t = Err KeyError).
Proof.
  split.
  - intros I. cbn [In] in I. decompose [or] I; clear I; try contradiction; subst category; eexists; eexists; reflexivity.
  - intros N. unfold create_hollow, shape_indices. cbn [lookup].
    repeat (match goal with |- context [String.eqb category ?s] => destruct (String.eqb_spec category s); [exfalso; apply N; subst; cbn; tauto|] end). reflexivity.
Qed.
Print Assumptions category_outcomes.

(** C162 refuted: the colour that is asked for is not given to the body *)
Theorem colour_ignored_refuted : exists category color w l h t ls oobbs x, create_hollow category color w l h t = Ok (ls, oobbs) /\
  In x ls /\ lk_colour x <> color.
Proof.
  exists "bin", (1, 0, 0, 1)%R, 1%R, 1%R, 1%R, (1 / 100)%R. eexists. eexists. eexists. split; [reflexivity|]. split; [left; reflexivity|].
  cbn [lk_colour default_colour]. unfold default_colour. intros [= H]. lra.
Qed.
Print Assumptions colour_ignored_refuted.

(** ** The world *)
Lemma nget_In {A} (d : list (nat * A)) k v : NoDup (map fst d) -> (nget k d = Some v <-> In (k, v) d).
Proof.
  induction d as [|[k' w] d IH]; cbn [map fst nget In]; intros N; [split; [discriminate|tauto]|]. inversion_clear N as [|? ? M N'].
  destruct (Nat.eqb_spec k' k) as [->|E].
  - split; [intros [= ->]; auto|]. intros [[= ->]|I]; auto. exfalso. apply M. apply (in_map fst _ _ I).
  - rewrite IH by auto. split; auto. intros [[= ? ->]|I]; [congruence|auto].
Qed.
Lemma nset_new {A} k (v : A) d : ~ In k (map fst d) -> nset k v d = (d ++ [(k, v)])%list.
Proof.
  induction d as [|[k' w] d IH]; cbn [map fst In nset List.app]; intros N; auto.
  destruct (Nat.eqb_spec k' k); [exfalso; apply N; auto|]. rewrite IH by tauto. auto.
Qed.
Lemma update_new {A} (items d : list (nat * A)) : NoDup (map fst (d ++ items)%list) -> update d items = (d ++ items)%list.
Proof.
  unfold update. revert d. induction items as [|[k v] items IH]; intros d N; [cbn; rewrite app_nil_r; auto|].
  cbn [fold_left fst snd]. rewrite nset_new.
  - rewrite IH; rewrite <- app_assoc; auto.
  - rewrite map_app in N. cbn [map fst] in N. apply NoDup_remove_2 in N. intros I. apply N, in_or_app. auto.
Qed.
Lemma map_fst_pair {A B} (f : A -> B) (l : list A) : map fst (map (fun x => (x, f x)) l) = l.
Proof. rewrite map_map. cbn. apply map_id. Qed.
Lemma map_fst_combine {A B} (l : list A) (m : list B) : List.length l = List.length m -> map fst (combine l m) = l.
Proof. revert m. induction l as [|a l IH]; intros [|b m] E; cbn in *; try lia; auto. f_equal. apply IH. lia. Qed.
Lemma nth_combine {A B} (l : list A) (m : list B) k a b : nth_error l k = Some a -> nth_error m k = Some b -> In (a, b) (combine l m).
Proof.
  revert m k. induction l as [|x l IH]; intros m [|k] E F; cbn in E; try discriminate; destruct m as [|y m]; cbn in F; try discriminate.
  - injection E as ->. injection F as ->. left. auto.
  - right. eapply IH; eauto.
Qed.
Lemma nth_combine_inv {A B} (l : list A) (m : list B) k a b : nth_error (combine l m) k = Some (a, b) -> nth_error l k = Some a /\ nth_error m k = Some b.
Proof.
  revert m k. induction l as [|x l IH]; intros m k E; cbn in E; [destruct k; discriminate|]. destruct m as [|y m]; [destruct k; discriminate|].
  destruct k as [|k]; cbn in E |- *; [injection E as -> ->; auto|auto].
Qed.

Lemma NoDup_app_remove_l {A} (l m : list A) : NoDup (l ++ m)%list -> NoDup m.
Proof. induction l as [|a l IH]; cbn; auto. intros H. inversion_clear H. auto. Qed.
Lemma NoDup_app_remove_r {A} (l m : list A) : NoDup (l ++ m)%list -> NoDup l.
Proof. induction l as [|a l IH]; cbn; intros H; [constructor|]. inversion_clear H as [|? ? M N]. constructor; auto. intros I. apply M, in_or_app. auto. Qed.

Section Fresh.
Variable new_id : list nat -> nat.
Hypothesis new : fresh new_id.
Lemma add_spec w b i w' : NoDup (map fst w) -> add new_id w b = (i, w') -> w' = (w ++ [(i, b)])%list /\ NoDup (map fst w').
Proof.
  intros N [= <- <-]. split; auto. rewrite map_app. cbn [map fst].
  apply (Permutation.Permutation_NoDup (l := new_id (map fst w) :: map fst w)); [apply Permutation.Permutation_cons_append|]. constructor; auto.
Qed.
Lemma add_all_spec bs : forall w ids w', NoDup (map fst w) -> add_all new_id w bs = (ids, w') ->
  w' = (w ++ combine ids bs)%list /\ List.length ids = List.length bs /\ NoDup (map fst w').
Proof.
  induction bs as [|b bs IH]; intros w ids w' N E; cbn [add_all] in E.
  - injection E as <- <-. rewrite app_nil_r. auto.
  - destruct (add new_id w b) as [i w1] eqn:A. destruct (add_all new_id w1 bs) as [is_ w2] eqn:B. injection E as <- <-.
    destruct (add_spec _ _ _ _ N A) as [-> N1]. destruct (IH _ _ _ N1 B) as (-> & L & N2). rewrite <- app_assoc in N2 |- *. cbn [combine List.length List.app] in *. auto.
Qed.

(** what load_world makes *)
Definition bin_body (ls : list link) (at_ : R * R) : body := mkBody (Linked ls) (vec3 (fst at_) (snd at_) 0).
Lemma load_spec grey w0 gap : NoDup (map fst w0) -> exists L ls oobbs,
  load_world new_id grey w0 gap = Ok L /\ create_hollow "bin" grey (container_size gap) (container_size gap) container_height thickness = Ok (ls, oobbs) /\
  List.length (movable L) = 8%nat /\ List.length (bins L) = 8%nat /\
  bodies L = (w0 ++ [(robot L, mkBody Robot (vec3 0 0 0)); (floor L, mkBody Floor (vec3 0 0 0)); (stove L, mkBody Stove (vec3 (1 / 2) 0 0))]
             ++ combine (movable L) (map radish (seq 0 8)) ++ combine (bins L) (map (bin_body ls) (bin_positions gap)))%list /\
  NoDup (map fst (bodies L)) /\
  NoDup (map fst w0 ++ [robot L; floor L; stove L] ++ movable L ++ bins L)%list /\
  obstacles L = map (fun at_ => map (place at_) oobbs) (bin_positions gap) /\
  names L = (map (fun b => (b, ("sink_" ++ show (Z.of_nat b))%string)) (bins L) ++ [(stove L, "stove"); (floor L, "floor")] ++ map (fun r => (r, ("radish_" ++ show (Z.of_nat r))%string)) (movable L))%list /\
  NoDup (map fst (names L)) /\
  links L = map (fun x => (fst x, if negb (contains "sink" (snd x)) then None else Some 4%nat)) (names L) /\
  fixed L = stove L :: bins L.
Proof.
  intros N. unfold load_world.
  destruct (add new_id w0 _) as [r w1] eqn:A1. destruct (add new_id w1 _) as [f w2] eqn:A2. destruct (add new_id w2 _) as [s w3] eqn:A3.
  destruct (add_all new_id w3 _) as [rs w4] eqn:A4. cbv zeta.
  destruct (category_outcomes "bin" grey (container_size gap) (container_size gap) container_height thickness) as [C _].
  destruct C as (ls & oobbs & C); [cbn; tauto|]. rewrite C. cbn iota beta.
  fold (bin_body ls).
  destruct (add_all new_id w4 _) as [bs w5] eqn:A5.
  destruct (add_spec _ _ _ _ N A1) as [-> N1]. destruct (add_spec _ _ _ _ N1 A2) as [-> N2]. destruct (add_spec _ _ _ _ N2 A3) as [-> N3].
  destruct (add_all_spec _ _ _ _ N3 A4) as (-> & L4 & N4). destruct (add_all_spec _ _ _ _ N4 A5) as (-> & L5 & N5).
  rewrite map_length, seq_length in L4. rewrite map_length in L5. change (List.length (bin_positions gap)) with 8%nat in L5. unfold num_radish in *.
  rewrite <- !app_assoc in N5. cbn [List.app] in N5.
  assert (ND : NoDup (map fst w0 ++ [r; f; s] ++ rs ++ bs)%list).
  { revert N5. rewrite map_app. cbn [map fst]. rewrite map_app, !map_fst_combine by (rewrite map_length; rewrite ?seq_length; auto). auto. }
  assert (NN : NoDup (bs ++ [s; f] ++ rs)%list).
  { apply NoDup_app_remove_l in ND. cbn [List.app] in ND. inversion_clear ND as [|? ? _ ND1]. 
    apply (Permutation.Permutation_NoDup (l := (f :: s :: rs ++ bs)%list)); auto. cbn [List.app].
    eapply Permutation.perm_trans; [apply Permutation.perm_swap|]. eapply Permutation.perm_trans; [|apply Permutation.Permutation_app_comm]. reflexivity. }
  set (nb := map (fun b => (b, ("sink_" ++ show (Z.of_nat b))%string)) bs). set (nr := map (fun r => (r, ("radish_" ++ show (Z.of_nat r))%string)) rs).
  assert (FB : map fst nb = bs) by apply map_fst_pair. assert (FR : map fst nr = rs) by apply map_fst_pair.
  assert (U : update (update (update [] nb) (update [] [(s, "stove"); (f, "floor")])) (update [] nr) = (nb ++ [(s, "stove"); (f, "floor")] ++ nr)%list).
  { assert (NB : NoDup bs) by (apply NoDup_app_remove_r in NN; auto). assert (NR : NoDup rs) by (do 2 apply NoDup_app_remove_l in NN; auto).
    assert (N2' : NoDup ([s; f] ++ rs)%list) by (apply NoDup_app_remove_l in NN; auto).
    rewrite (update_new nb []) by (cbn [List.app]; rewrite FB; auto). rewrite (update_new nr []) by (cbn [List.app]; rewrite FR; auto).
    rewrite (update_new [(s, "stove"); (f, "floor")] []) by (cbn [List.app map fst]; apply (NoDup_app_remove_r [s; f] rs); auto).
    cbn [List.app]. rewrite (update_new [(s, "stove"); (f, "floor")] nb).
    - rewrite update_new; [rewrite <- app_assoc; auto|]. rewrite !map_app, FB, FR. cbn [map fst]. rewrite <- app_assoc. auto.
    - rewrite map_app, FB. cbn [map fst]. rewrite app_assoc in NN. apply NoDup_app_remove_r in NN. auto. }
  rewrite U. eexists. exists ls, oobbs. split; [reflexivity|]. cbn [robot floor stove movable bins obstacles names links fixed bodies].
  split; auto. split; auto. split; auto. split; [rewrite <- !app_assoc; reflexivity|]. split; [rewrite <- !app_assoc; exact N5|]. split; auto. split; auto. split; auto.
  split; [|split; reflexivity]. rewrite !map_app, FB, FR. exact NN.
Qed.
End Fresh.

Ltac load new grey w0 gap N := destruct (load_spec _ new grey w0 gap N) as (L' & ls & oobbs & E' & C & LM & LB & HB & NB & ND & HO & HN & NN & HL & HF).

Lemma digits_no c u : ~ In c (list_ascii_of_string "0123456789") -> ~ has c (DecimalString.NilEmpty.string_of_uint u).
Proof. intros N. induction u; cbn [DecimalString.NilEmpty.string_of_uint has]; auto; intros [H|H]; auto; apply N; cbn; intuition. Qed.
Lemma show_no_letter c z : ~ In c (list_ascii_of_string "-0123456789") -> ~ has c (show z).
Proof.
  intros N. assert (D : ~ In c (list_ascii_of_string "0123456789")) by (intros H; apply N; right; exact H).
  assert (U : forall u, ~ has c (DecimalString.NilZero.string_of_uint u)).
  { intros u. destruct u; cbn [DecimalString.NilZero.string_of_uint]; try (apply digits_no; auto). cbn. intros [H|[]]. apply D. cbn. auto. }
  unfold show, DecimalString.NilZero.string_of_int. destruct (Z.to_int z); [apply U|]. cbn [has]. intros [H|H]; [|exact (U _ H)]. apply N. cbn. auto.
Qed.
Lemma prefix_has c p s : String.prefix p s = true -> has c p -> has c s.
Proof.
  revert s. induction p as [|d p IH]; intros s P H; [destruct H|]. destruct s as [|e s]; [discriminate|]. cbn [String.prefix] in P.
  destruct (ascii_dec d e) as [->|]; [|discriminate]. cbn [has] in H |- *. destruct H; auto.
Qed.
Lemma contains_has c sub s : contains sub s = true -> has c sub -> has c s.
Proof.
  intros C H. induction s as [|d s IH]; cbn [contains] in C; apply orb_true_iff in C as [C|C]; try discriminate.
  - exact (prefix_has c _ _ C H).
  - exact (prefix_has c _ _ C H).
  - right. auto.
Qed.
Lemma contains_sink z : contains "sink" ("sink_" ++ show z) = true.
Proof.
  cbn [append contains]. apply orb_true_iff. left. cbn [String.prefix].
  repeat (match goal with |- context [ascii_dec ?a ?b] => destruct (ascii_dec a b); [|congruence] end). destruct (String "_" (show z)); reflexivity.
Qed.
Lemma radish_sink z : contains "sink" ("radish_" ++ show z) = false.
Proof.
  destruct (contains "sink" ("radish_" ++ show z)) eqn:E; auto. exfalso.
  apply (contains_has "k") in E; [|cbn; auto 6]. cbn [append has] in E.
  repeat (destruct E as [E|E]; [discriminate|]). revert E. apply show_no_letter. cbn. intuition discriminate.
Qed.

(** Every new body except the robot has exactly one name, no two the same one. *)
Theorem names_exact new_id grey w0 gap L : fresh new_id -> NoDup (map fst w0) -> load_world new_id grey w0 gap = Ok L ->
  (forall b, In b (map fst (bodies L)) <-> In b (map fst w0) \/ b = robot L \/ exists n, nget b (names L) = Some n) /\
  nget (robot L) (names L) = None /\ (forall b, In b (map fst w0) -> nget b (names L) = None) /\
  (forall b c n, nget b (names L) = Some n -> nget c (names L) = Some n -> b = c).
Proof.
  intros new N E. load new grey w0 gap N. rewrite E in E'. injection E' as <-.
  assert (K : map fst (names L) = (bins L ++ [stove L; floor L] ++ movable L)%list).
  { rewrite HN, !map_app, !map_fst_pair. reflexivity. }
  assert (B : map fst (bodies L) = (map fst w0 ++ [robot L; floor L; stove L] ++ movable L ++ bins L)%list).
  { rewrite HB, !map_app. rewrite !map_fst_combine by (rewrite map_length, ?seq_length; auto). reflexivity. }
  assert (G : forall b, (exists n, nget b (names L) = Some n) <-> In b (bins L ++ [stove L; floor L] ++ movable L)%list).
  { intros b. rewrite <- K. split.
    - intros [n H]. apply nget_In in H; auto. apply (in_map fst _ _ H).
    - intros H. apply in_map_iff in H as ([b' n] & <- & H). exists n. apply nget_In; auto. }
  assert (NG : forall b, ~ In b (bins L ++ [stove L; floor L] ++ movable L)%list -> nget b (names L) = None).
  { intros b H. destruct (nget b (names L)) as [n|] eqn:Q; auto. exfalso. apply H, G. eauto. }
  split; [|split; [|split]].
  - intros b. rewrite G, B. rewrite !in_app_iff. cbn [In]. intuition.
  - apply NG. intros H. apply NoDup_app_remove_l in ND. cbn [List.app] in ND. inversion_clear ND as [|? ? M _]. apply M.
    rewrite !in_app_iff in H. cbn [In] in H |- *. rewrite in_app_iff. tauto.
  - intros b Hb. apply NG. intros H. clear - ND Hb H. induction (map fst w0) as [|a l IH]; [destruct Hb|]. cbn [List.app] in ND. inversion_clear ND as [|? ? M ND'].
    destruct Hb as [->|Hb]; auto. apply M. rewrite !in_app_iff in H. rewrite !in_app_iff. cbn [In] in *. rewrite in_app_iff. tauto.
  - intros b c n Hb Hc. apply nget_In in Hb; auto. apply nget_In in Hc; auto. rewrite HN, !in_app_iff, !in_map_iff in Hb, Hc. cbn [In] in Hb, Hc.
    assert (SI : forall x y, show (Z.of_nat x) = show (Z.of_nat y) -> x = y) by (intros x y H; apply show_inj in H; lia).
    assert (SX : forall x y, "sink_" ++ show (Z.of_nat x) = "sink_" ++ show (Z.of_nat y) -> x = y) by (intros x y H; apply app_inj_s in H; auto).
    assert (RX : forall x y, "radish_" ++ show (Z.of_nat x) = "radish_" ++ show (Z.of_nat y) -> x = y) by (intros x y H; apply app_inj_s in H; auto).
    assert (SR : forall s t, "sink_" ++ s <> "radish_" ++ t) by (intros s t; cbn [append]; discriminate).
    assert (SS : forall s, "sink_" ++ s <> "stove" /\ "sink_" ++ s <> "floor" /\ "radish_" ++ s <> "stove" /\ "radish_" ++ s <> "floor") by (intros s; cbn [append]; repeat split; discriminate).
    clear - Hb Hc SX RX SR SS.
    destruct Hb as [(x & Ex & _)|[[Ex|[Ex|[]]]|(x & Ex & _)]]; apply pair_equal_spec in Ex as [Eb En];
      destruct Hc as [(y & Ey & _)|[[Ey|[Ey|[]]]|(y & Ey & _)]]; apply pair_equal_spec in Ey as [Ec Em]; rewrite <- Em in En; clear Em; subst b c;
      first [exact (SX _ _ En) | exact (RX _ _ En) | reflexivity | exfalso; first [exact (SR _ _ En) | exact (SR _ _ (eq_sym En)) | discriminate En
       | exact (proj1 (SS _) En) | exact (proj1 (SS _) (eq_sym En)) | exact (proj1 (proj2 (SS _)) En) | exact (proj1 (proj2 (SS _)) (eq_sym En))
       | exact (proj1 (proj2 (proj2 (SS _))) En) | exact (proj1 (proj2 (proj2 (SS _))) (eq_sym En)) | exact (proj2 (proj2 (proj2 (SS _))) En) | exact (proj2 (proj2 (proj2 (SS _))) (eq_sym En)) ]].
Qed.
Print Assumptions names_exact.

Lemma bin_oobbs grey w h t ls oobbs : create_hollow "bin" grey w w h t = Ok (ls, oobbs) -> create_hollow_shapes bin_indices w w h t = Some oobbs.
Proof.
  unfold create_hollow. change (lookup "bin" shape_indices) with (Some bin_indices). cbn iota beta.
  destruct (create_hollow_shapes bin_indices w w h t) as [[|o os]|] eqn:E; try discriminate.
  generalize (map o_upper (o :: os)) (map o_point (o :: os)). intros g p. destruct (create_link_body g p None); [|discriminate]. intros [= _ <-]. reflexivity.
Qed.

(** Placement links: link 4 for the bins, none for the others; it is the bottom of the bin, whose upper face is
    [thickness] above the plane the bin stands on. *)
Theorem placement_exact new_id grey w0 gap L : fresh new_id -> NoDup (map fst w0) -> load_world new_id grey w0 gap = Ok L ->
  (forall b, In b (bins L) -> nget b (links L) = Some (Some 4%nat)) /\
  (forall b, b = stove L \/ b = floor L \/ In b (movable L) -> nget b (links L) = Some None) /\
  (forall k b at_, nth_error (bins L) k = Some b -> nth_error (bin_positions gap) k = Some at_ ->
     exists ls base box, nget b (bodies L) = Some (mkBody (Linked ls) base) /\ link_box ls base 4 = Some box /\
       forall p, in_oobb box p <-> (fst at_ - container_size gap / 2 <= p 0%nat <= fst at_ + container_size gap / 2 /\
                                    snd at_ - container_size gap / 2 <= p 1%nat <= snd at_ + container_size gap / 2 /\ 0 <= p 2%nat <= 1 / 100)%R).
Proof.
  intros new N E. load new grey w0 gap N. rewrite E in E'. injection E' as <-.
  assert (K : map fst (links L) = map fst (names L)) by (rewrite HL, map_map; reflexivity).
  assert (G : forall b n, In (b, n) (names L) -> nget b (links L) = Some (if negb (contains "sink" n) then None else Some 4%nat)).
  { intros b n I. apply nget_In; [rewrite K; auto|]. rewrite HL. apply (in_map (fun x => (fst x, if negb (contains "sink" (snd x)) then None else Some 4%nat)) _ _ I). }
  split; [|split].
  - intros b I. rewrite (G b ("sink_" ++ show (Z.of_nat b))); [rewrite contains_sink; reflexivity|]. rewrite HN. apply in_or_app. left. apply in_map_iff. eauto.
  - intros b [->|[->|I]].
    + rewrite (G (stove L) "stove"); [reflexivity|]. rewrite HN. apply in_or_app. right. left. reflexivity.
    + rewrite (G (floor L) "floor"); [reflexivity|]. rewrite HN. apply in_or_app. right. right. left. reflexivity.
    + rewrite (G b ("radish_" ++ show (Z.of_nat b))); [rewrite radish_sink; reflexivity|]. rewrite HN. apply in_or_app. right. right. right. apply in_map_iff. eauto.
  - intros k b at_ Hb Ha. exists ls, (vec3 (fst at_) (snd at_) 0).
    assert (B : nget b (bodies L) = Some (bin_body ls at_)).
    { apply nget_In; auto. rewrite HB. rewrite !in_app_iff. right. right. right. apply (nth_combine _ _ k); auto. rewrite nth_error_map, Ha. reflexivity. }
    destruct (hollow_body_exact _ _ _ _ _ _ _ _ at_ C) as (_ & [S1 S2] & _).
    assert (O : oobbs = bin (container_size gap) (container_size gap) container_height).
    { apply bin_oobbs in C. unfold bin. rewrite C. reflexivity. }
    assert (F : nth_error (map (place at_) oobbs) 4 = Some (place at_ (wall (vec3 (container_size gap) (container_size gap) container_height) thickness 2 (-1)))) by (rewrite O; reflexivity).
    destruct (link_box ls (vec3 (fst at_) (snd at_) 0) 4) as [box|] eqn:X; [|apply S1 in X; rewrite X in F; discriminate].
    exists box. split; auto. split; auto. intros p. rewrite (S2 4%nat box _ X F p). unfold in_oobb. cbn. unfold thickness, container_height. split.
    + intros H. pose proof (H 0%nat ltac:(lia)) as H0. pose proof (H 1%nat ltac:(lia)) as H1. pose proof (H 2%nat ltac:(lia)) as H2. cbn in H0, H1, H2. lra.
    + intros (H0 & H1 & H2) i Hi. destruct i as [|[|[|i]]]; [..|lia]; cbn; lra.
Qed.
Print Assumptions placement_exact.

(** The obstacles of the planner are the bins of the simulator: the k-th list holds exactly the boxes of the k-th bin.  The
    k-th object is inserted into the k-th bin (line 359), and its roadmap is built around the boxes of that bin (line 402). *)
Theorem insertion_pairs new_id grey w0 gap L : fresh new_id -> NoDup (map fst w0) -> load_world new_id grey w0 gap = Ok L ->
  obstacles L = sink_obstacle_oobbs gap /\
  sinks (names L) (fixed L) = Ok (bins L) /\
  List.length (combine (movable L) (bins L)) = 8%nat /\ map fst (combine (movable L) (bins L)) = movable L /\
  forall k r b, nth_error (combine (movable L) (bins L)) k = Some (r, b) ->
    exists body_r ls base obs, nget r (bodies L) = Some body_r /\ is_block (if (k =? 0)%nat then 6 / 100 else 1 / 1000)%R body_r /\
      nget b (bodies L) = Some (mkBody (Linked ls) base) /\ nth_error (obstacles L) k = Some obs /\
      nget r (body_obstacle_map L) = Some obs /\ List.length obs = 5%nat /\ same_boxes ls base obs.
Proof.
  intros new N E. load new grey w0 gap N. rewrite E in E'. injection E' as <-.
  assert (O : oobbs = bin (container_size gap) (container_size gap) container_height).
  { apply bin_oobbs in C. unfold bin. rewrite C. reflexivity. }
  split; [rewrite HO, O; reflexivity|].
  assert (G : forall b n, In (b, n) (names L) -> nget b (names L) = Some n) by (intros b n I; apply nget_In; auto).
  split.
  { rewrite HF. cbn [sinks]. rewrite (G (stove L) "stove"); [|rewrite HN; apply in_or_app; right; left; reflexivity].
    assert (S : forall l, incl l (bins L) -> sinks (names L) l = Ok l).
    { induction l as [|b l IH]; intros I; [reflexivity|]. cbn [sinks]. rewrite (G b ("sink_" ++ show (Z.of_nat b))).
      - rewrite contains_sink, IH; [reflexivity|]. intros x Hx. apply I. right. exact Hx.
      - rewrite HN. apply in_or_app. left. apply in_map_iff. exists b. split; auto. apply I. left. reflexivity. }
    rewrite S by apply incl_refl. reflexivity. }
  assert (LO : List.length (obstacles L) = 8%nat) by (rewrite HO, map_length; reflexivity).
  split; [rewrite combine_length, LM, LB; reflexivity|]. split; [apply map_fst_combine; congruence|].
  intros k r b Hk. apply nth_combine_inv in Hk as [Hr Hb].
  assert (K : (k < 8)%nat) by (rewrite <- LM; apply nth_error_Some; congruence).
  destruct (nth_error (bin_positions gap) k) as [at_|] eqn:Ha; [|apply nth_error_None in Ha; change (8 <= k)%nat in Ha; lia].
  exists (radish k), ls, (vec3 (fst at_) (snd at_) 0), (map (place at_) oobbs).
  assert (RI : nth_error (map radish (seq 0 8)) k = Some (radish k)).
  { rewrite nth_error_map. rewrite (nth_error_nth' (seq 0 8) 0%nat) by (rewrite seq_length; lia). rewrite seq_nth by lia. reflexivity. }
  assert (OI : nth_error (obstacles L) k = Some (map (place at_) oobbs)) by (rewrite HO, nth_error_map, Ha; reflexivity).
  split; [apply nget_In; auto; rewrite HB, !in_app_iff; right; right; left; apply (nth_combine _ _ k); auto|].
  split; [unfold is_block, radish, radish_width; cbn [b_solid]; destruct k; reflexivity|].
  split; [apply nget_In; auto; rewrite HB, !in_app_iff; right; right; right; apply (nth_combine _ _ k); auto; rewrite nth_error_map, Ha; reflexivity|].
  split; auto. split.
  - assert (NM : NoDup (movable L)).
    { apply NoDup_app_remove_l in ND. apply NoDup_app_remove_l in ND. apply NoDup_app_remove_r in ND. exact ND. }
    assert (FC : map fst (combine (movable L) (obstacles L)) = movable L) by (apply map_fst_combine; congruence).
    unfold body_obstacle_map. rewrite update_new by (cbn [List.app]; rewrite FC; auto). cbn [List.app]. apply nget_In; [rewrite FC; auto|]. apply (nth_combine _ _ k); auto.
  - split; [rewrite map_length, O; reflexivity|]. apply (hollow_body_exact _ _ _ _ _ _ _ _ at_ C).
Qed.
Print Assumptions insertion_pairs.

(** load_world always succeeds *)
Theorem load_world_succeeds new_id grey w0 gap : fresh new_id -> NoDup (map fst w0) -> exists L, load_world new_id grey w0 gap = Ok L.
Proof. intros new N. load new grey w0 gap N. eauto. Qed.
Print Assumptions load_world_succeeds.

(** ** The bodies planned around *)
(** In a world that was empty they are the bodies that get_fixed returns, except the floor. *)
Theorem fixed_exact new_id grey gap L : fresh new_id -> load_world new_id grey [] gap = Ok L ->
  forall b, In b (fixed L) <-> In b (get_fixed (map fst (bodies L)) (robot L) (movable L)) /\ b <> floor L.
Proof.
  intros new E b. load new grey (@nil (nat * body)) gap (NoDup_nil nat). rewrite E in E'. injection E' as <-.
  assert (B : map fst (bodies L) = ([robot L; floor L; stove L] ++ movable L ++ bins L)%list).
  { rewrite HB, !map_app. rewrite !map_fst_combine by (rewrite map_length, ?seq_length; auto). reflexivity. }
  unfold get_fixed. rewrite !filter_In, !negb_true_iff, Nat.eqb_neq, B, HF.
  assert (X : existsb (Nat.eqb b) (movable L) = false <-> ~ In b (movable L)).
  { rewrite <- not_true_iff_false, existsb_exists. split; intros H; [intros I; apply H; exists b; rewrite Nat.eqb_refl; auto|]. intros (y & I & Q). apply Nat.eqb_eq in Q as ->. auto. }
  rewrite X. cbn [map List.app] in ND. rewrite !in_app_iff. cbn [In].
  inversion_clear ND as [|? ? M1 ND1]. inversion_clear ND1 as [|? ? M2 ND2]. inversion_clear ND2 as [|? ? M3 ND3].
  cbn [In] in M1, M2, M3. rewrite !in_app_iff in M1, M2, M3.
  assert (D : forall x, In x (movable L) -> ~ In x (bins L)).
  { clear - ND3. induction (movable L) as [|a l IH]; intros x I; [destruct I|]. cbn [List.app] in ND3. inversion_clear ND3 as [|? ? M N]. destruct I as [->|I]; auto. intros J. apply M, in_or_app. auto. }
  split.
  - intros [<-|I]; [repeat split; try tauto; intros H; subst; tauto|]. split; [split|]; [split; [tauto|]| |].
    + intros ->. tauto.
    + intros I'. exact (D _ I' I).
    + intros ->. tauto.
  - intros [[[[[H|[H|[H|[]]]]|[H|H]] R] NM] NF]; subst; tauto.
Qed.
Print Assumptions fixed_exact.

(** C162 refuted: the floor is a body that is neither the robot's nor movable, and it is not among the bodies planned around. *)
Theorem floor_not_fixed_refuted : exists new_id grey gap L, fresh new_id /\ load_world new_id grey [] gap = Ok L /\
  In (floor L) (map fst (bodies L)) /\ floor L <> robot L /\ ~ In (floor L) (movable L) /\ ~ In (floor L) (fixed L).
Proof.
  set (new_id := fun l => S (list_max l)).
  assert (new : fresh new_id).
  { intros l I. pose proof (proj1 (list_max_le l (list_max l)) (le_n _)) as M. rewrite Forall_forall in M. specialize (M _ I). unfold new_id in M. lia. }
  exists new_id, default_colour, (4 / 100)%R.
  destruct (load_world_succeeds new_id default_colour [] (4 / 100)%R new (NoDup_nil nat)) as [L E]. exists L. split; auto. split; auto.
  pose proof (fixed_exact _ _ _ _ new E (floor L)) as X.
  load new default_colour (@nil (nat * body)) (4 / 100)%R (NoDup_nil nat). rewrite E in E'. injection E' as <-. 
  split; [rewrite HB; right; left; reflexivity|]. cbn [map List.app] in ND. inversion_clear ND as [|? ? M1 ND1]. inversion_clear ND1 as [|? ? M2 ND2].
  cbn [In] in M1, M2. rewrite in_app_iff in M2. split; [intros H; apply M1; auto|]. split; [tauto|]. tauto.
Qed.
Print Assumptions floor_not_fixed_refuted.

(** ... so a configuration in which the robot is in the floor is accepted: in every such world, whenever the first solution
    touches nothing else, get_ik_fn returns it. *)
Theorem robot_in_floor new_id grey gap L touch ik s p g sample q left_at : fresh new_id -> load_world new_id grey [] gap = Ok L ->
  ik (robot L) (sample 0%nat) (g_link g) (approach_from_grasp (approach_pose g) (end_effector_from_body p (grasp_pose g))) = (Some q, left_at) ->
  (forall b pa ja pb jb, touch (robot L) b pa ja pb jb = true -> b = floor L) ->
  fst (get_ik_fn touch ik s (robot L) p g (fixed L) true sample) = Some (BodyConf (robot L) q).
Proof.
  intros new E I T. unfold get_ik_fn. change (seq 0 num_attempts) with (0%nat :: seq 1 9). cbn [ik_attempts]. unfold set_joint_positions at 1. cbn [joints_at]. unfold put at 1. rewrite Nat.eqb_refl, I.
  match goal with |- context [existsb ?f (fixed L)] => assert (X : existsb f (fixed L) = false) end.
  { rewrite <- not_true_iff_false, existsb_exists. intros (b & F & B). unfold collides in B. apply T in B. subst b. apply (fixed_exact _ _ _ _ new E) in F. tauto. }
  rewrite X. reflexivity.
Qed.
Print Assumptions robot_in_floor.

Example default_world : match load_world (fun l => S (list_max l)) default_colour [] (4 / 100)%R with
  | Ok L => robot L = 1%nat /\ floor L = 2%nat /\ stove L = 3%nat /\ movable L = seq 4 8 /\ bins L = seq 12 8 /\
      nget 13%nat (names L) = Some "sink_13" /\ nget 4%nat (names L) = Some "radish_4" /\ fixed L = 3%nat :: seq 12 8 /\ nget 2%nat (links L) = Some None
  | Err _ => False
  end.
Proof. vm_compute. repeat split. Qed.
