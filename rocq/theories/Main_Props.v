(** Properties C150-C153: the command lines and main functions of the planning scripts. *)
From Coq Require Import ZArith QArith Qround String Ascii List Bool Lia Lqa.
From Verif Require Import Log_Model Anytime_Model Anytime_Props Main_Model.
Import ListNotations.
Open Scope string_scope.

(** ** C150: giving options *)
(** an option with its text, or a switch *)
Inductive given := Give (o : opt) (text : string) | Switch (o : opt).
Definition gopt (x : given) : opt := match x with Give o _ => o | Switch o => o end.
Definition words (x : given) : list string := match x with Give o s => [flag o; s] | Switch o => [flag o] end.
Definition gvalue (x : given) : option value := match x with Give o s => convert (okind o) s | Switch _ => Some (VBool true) end.
(** a text that can follow an option: it does not look like an option *)
Definition plain (s : string) : Prop := String.prefix "-" s = false \/ (exists n, s = String "-" n /\ n <> "" /\ all_digits n = true).
Definition given_ok (opts : list opt) (x : given) : Prop := In (gopt x) opts /\ gvalue x <> None /\
  match x with Give o s => plain s /\ okind o <> KFlag | Switch o => okind o = KFlag end.
Definition opts_ok (opts : list opt) : Prop := NoDup (map flag opts) /\
  forall o, In o opts -> flag o <> "--help" /\ String.prefix "--" (flag o) = true.
(** the value an option ends up with: the last one that was given, otherwise the default *)
Definition final_value (l : list given) (o : opt) : option value :=
  fold_left (fun acc x => if String.eqb (flag (gopt x)) (flag o) then gvalue x else acc) l (Some (default o)).

Lemma prefix_cons c d s t : String.prefix (String c s) (String d t) = true -> c = d /\ String.prefix s t = true.
Proof. cbn [String.prefix]. destruct (ascii_dec c d); [auto|discriminate]. Qed.
Lemma prefix_dash s : String.prefix "--" s = true -> exists r, s = String "-" (String "-" r).
Proof.
  destruct s as [|a s]; [discriminate|]. intro H. apply prefix_cons in H as [<- H]. destruct s as [|b s]; [discriminate|]. apply prefix_cons in H as [<- _]. eauto.
Qed.
Lemma find_flag opts o : NoDup (map flag opts) -> In o opts -> find (fun p => String.eqb (flag p) (flag o)) opts = Some o.
Proof.
  induction opts as [|p opts IH]; intros N I; [destruct I|]. cbn [map] in N. apply NoDup_cons_iff in N as [N1 N2]. cbn [find].
  destruct (String.eqb_spec (flag p) (flag o)) as [E|E].
  - destruct I as [->|I]; auto. exfalso. apply N1. rewrite E. now apply in_map.
  - destruct I as [->|I]; [congruence|auto].
Qed.
Lemma classify_flag opts o : opts_ok opts -> In o opts -> classify opts (flag o) = Some (TOpt o None).
Proof.
  intros [N F] I. destruct (F o I) as [H D]. unfold classify. destruct (prefix_dash _ D) as (r & E). rewrite E. cbn [Ascii.eqb Bool.eqb negb].
  rewrite <- E. cbn [find]. change (flag help_opt) with "--help". destruct (String.eqb_spec "--help" (flag o)); [congruence|].
  rewrite find_flag by auto. unfold as_token. destruct (String.eqb_spec (flag o) "--help"); [congruence|reflexivity].
Qed.
Lemma split_none s : all_digits s = true -> split_equals s = None.
Proof.
  induction s as [|c s IH]; auto. cbn [all_digits split_equals]. destruct (digit c) eqn:D; [|discriminate]. intro H. rewrite (IH H).
  destruct (Ascii.eqb_spec c "="); auto. subst. discriminate.
Qed.
Lemma find_nothing {A} (f : A -> bool) l : (forall a, In a l -> f a = false) -> find f l = None.
Proof. intro H. destruct (find f l) eqn:E; auto. apply find_some in E as [I E]. rewrite (H _ I) in E. discriminate. Qed.
Lemma negative_digits n : n <> "" -> all_digits n = true -> negative_number (String "-" n) = true.
Proof. intros H D. unfold negative_number. rewrite D. destruct (String.eqb_spec n ""); [congruence|reflexivity]. Qed.
Lemma classify_plain opts s : opts_ok opts -> plain s -> classify opts s = Some (TArg s).
Proof.
  intros [N F] [P|(n & -> & Hn & D)].
  - unfold classify. destruct s as [|c s]; auto. destruct (Ascii.eqb_spec c "-") as [->|]; auto. exfalso. destruct s; discriminate.
  - destruct n as [|c n]; [congruence|]. pose proof (negative_digits _ Hn D) as Neg. pose proof (split_none _ D) as Sp.
    assert (C : c <> "-"%char) by (intros ->; discriminate). assert (H : c <> "h"%char) by (intros ->; discriminate).
    assert (X : find (fun o => String.eqb (flag o) (String "-" (String c n))) (help_opt :: opts) = None).
    { apply find_nothing. intros o I. destruct (String.eqb_spec (flag o) (String "-" (String c n))) as [E|]; auto. exfalso. apply C.
      destruct I as [<-|I]; [injection E as E1; congruence|]. destruct (F o I) as [_ P]. rewrite E in P. apply prefix_cons in P as [_ P]. now apply prefix_cons in P as [P _]. }
    set (t := String c n) in *. unfold classify. cbn [Ascii.eqb Bool.eqb negb]. cbv zeta. rewrite X.
    destruct (String.eqb_spec t ""); [congruence|]. destruct (String.eqb_spec (String "-" t) "-h") as [E|]; [injection E; intros; congruence|].
    cbn [split_equals Ascii.eqb Bool.eqb]. rewrite Sp, Neg.
    assert (Pd : String.prefix "--" (String "-" t) = false).
    { apply not_true_iff_false. intro P. apply prefix_cons in P as [_ P]. apply prefix_cons in P as [P _]. congruence. }
    rewrite Pd. reflexivity.
Qed.

Lemma get_set_same n v ns : get_arg n (set_arg n v ns) = Some v.
Proof.
  unfold get_arg. induction ns as [|[m w] ns IH]; cbn [set_arg find]; [cbn; now rewrite String.eqb_refl|].
  destruct (String.eqb m n) eqn:E; cbn [find fst]; rewrite E; [reflexivity|exact IH].
Qed.
Lemma get_set_other n m v ns : n <> m -> get_arg n (set_arg m v ns) = get_arg n ns.
Proof.
  intro N. unfold get_arg. induction ns as [|[k w] ns IH]; cbn [set_arg find fst].
  - destruct (String.eqb_spec m n); [congruence|reflexivity].
  - destruct (String.eqb_spec k m) as [->|]; cbn [find fst]; [destruct (String.eqb_spec m n); [congruence|reflexivity]|]. destruct (String.eqb k n); [reflexivity|exact IH].
Qed.
Definition tokens (x : given) : list token := match x with Give o s => [TOpt o None; TArg s] | Switch o => [TOpt o None] end.
Definition store (ns : namespace) (x : given) : namespace := match gvalue x with Some v => set_arg (flag (gopt x)) v ns | None => ns end.
Lemma classify_app opts l : Forall (given_ok opts) l -> opts_ok opts -> classify_all opts (flat_map words l) = Some (flat_map tokens l).
Proof.
  intros F O. induction F as [|x l (I & V & P) F IH]; [reflexivity|].
  destruct x as [o s|o]; cbn [flat_map words tokens app classify_all gopt] in *; rewrite (classify_flag opts o O I), IH; [|reflexivity].
  rewrite (classify_plain opts s O (proj1 P)). reflexivity.
Qed.
Lemma scan_tokens opts l : Forall (given_ok opts) l -> forall ns, scan (flat_map tokens l) ns false = Args (fold_left store l ns).
Proof.
  induction 1 as [|x l (I & V & P) F IH]; intro ns; [reflexivity|]. cbn [flat_map fold_left]. destruct x as [o s|o]; cbn [tokens app scan].
  - destruct P as [_ K]. unfold store at 2. cbn [gvalue gopt] in *. destruct (okind o) eqn:E; try congruence; destruct (convert _ s) eqn:C; try congruence; apply IH.
  - rewrite P. unfold store at 2. cbn [gvalue gopt]. apply IH.
Qed.
Lemma get_store l o : forall ns, (forall x, In x l -> gvalue x <> None) -> get_arg (flag o) (fold_left store l ns) =
  fold_left (fun acc x => if String.eqb (flag (gopt x)) (flag o) then gvalue x else acc) l (get_arg (flag o) ns).
Proof.
  induction l as [|x l IH]; intros ns V; [reflexivity|]. cbn [fold_left]. rewrite IH by (intros; apply V; now right). f_equal. unfold store.
  specialize (V x (or_introl eq_refl)). destruct (gvalue x) as [v|]; [|congruence].
  destruct (String.eqb_spec (flag (gopt x)) (flag o)) as [->|]; [apply get_set_same|]. apply get_set_other. congruence.
Qed.
Lemma get_default opts o : NoDup (map flag opts) -> In o opts -> get_arg (flag o) (map (fun o => (flag o, default o)) opts) = Some (default o).
Proof.
  unfold get_arg. intros N I. induction opts as [|p opts IH]; [destruct I|]. cbn [map] in *. apply NoDup_cons_iff in N as [N1 N2]. cbn [find fst].
  destruct (String.eqb_spec (flag p) (flag o)) as [E|E].
  - destruct I as [->|I]; auto. exfalso. apply N1. rewrite E. now apply in_map.
  - destruct I as [->|I]; [congruence|auto].
Qed.
(** Options can be given in any order and number; the last value of each counts. *)
Theorem options_given opts l : opts_ok opts -> Forall (given_ok opts) l ->
  exists ns, parse_args opts (flat_map words l) = Args ns /\ forall o, In o opts -> get_arg (flag o) ns = final_value l o.
Proof.
  intros O F. exists (fold_left store l (map (fun o => (flag o, default o)) opts)). split.
  - unfold parse_args. rewrite classify_app by auto. now apply (scan_tokens opts).
  - intros o I. rewrite get_store; [|intros x Ix; rewrite Forall_forall in F; now apply F]. now rewrite get_default by (auto; apply O).
Qed.
(** A text is accepted exactly if the type of the option can read it. *)
Theorem option_text_exact opts o s : opts_ok opts -> In o opts -> okind o <> KFlag -> plain s ->
  ((exists ns, parse_args opts [flag o; s] = Args ns) <-> convert (okind o) s <> None) /\
  (convert (okind o) s = None -> parse_args opts [flag o; s] = UsageError).
Proof.
  intros O I K P. unfold parse_args. cbn [classify_all]. rewrite (classify_flag opts o O I), (classify_plain opts s O P). cbn [scan].
  set (c := match okind o with KFlag => _ | _ => _ end).
  assert (E : c = match convert (okind o) s with Some v => Args (set_arg (flag o) v (map (fun o => (flag o, default o)) opts)) | None => UsageError end)
    by (unfold c; destruct (okind o); try congruence; destruct (convert _ s); reflexivity).
  rewrite E. destruct (convert (okind o) s); split; try split; try congruence; eauto. intros [ns H]. discriminate.
Qed.
Print Assumptions options_given.
Print Assumptions option_text_exact.

Lemma kuka_opts_ok t : opts_ok (kuka_opts t).
Proof.
  split.
  - repeat constructor; cbn; intuition discriminate.
  - intros o I. repeat (destruct I as [<-|I]; [split; [discriminate|reflexivity]|]). destruct I.
Qed.
Example kuka_argv t : exists ns, parse_args (kuka_opts t) ["--seed"; "-3"; "--delta=0.05"; "--adaptive-n"; "--max"; "400"; "--seed"; "7"] = Args ns /\
  get_arg "--seed" ns = Some (VInt 7) /\ get_arg "--max-samples" ns = Some (VInt 400) /\ get_arg "--min-samples" ns = Some (VInt 500) /\ get_arg "--adaptive-n" ns = Some (VBool true).
Proof. eexists. split; [vm_compute; reflexivity|]. repeat split. Qed.
Example kuka_argv_bad t : parse_args (kuka_opts t) ["--m"; "400"] = UsageError /\ parse_args (kuka_opts t) ["--delta"; "-1e-3"] = UsageError /\
  parse_args (kuka_opts t) ["--vis"; "3"] = UsageError /\ parse_args (kuka_opts t) ["--seed"; "1"; "-h"] = HelpShown.
Proof. repeat split; vm_compute; reflexivity. Qed.
Example kuka_given_ok t : Forall (given_ok (kuka_opts t))
  [Give (mkOpt "--min-samples" KInt (VInt 500)) "40"; Switch (mkOpt "--vis" KFlag (VBool false)); Give (mkOpt "--min-samples" KInt (VInt 500)) "-5"].
Proof.
  apply Forall_cons; [|apply Forall_cons; [|apply Forall_cons; [|apply Forall_nil]]].
  - split; [now left|]. split; [discriminate|]. split; [left; reflexivity|discriminate].
  - split; [do 8 right; now left|]. split; [discriminate|reflexivity].
  - split; [now left|]. split; [discriminate|]. split; [|discriminate]. right. exists "5". split; [reflexivity|]. split; [discriminate|reflexivity].
Qed.

(** ** C151: what the options of the kuka script do *)
Section Kuka.
  Variable pi_12 : pyfloat.
  Context {World Problem Plan Gen : Type}.
  Variable load_world : value -> list nat -> Gen -> World * list nat * Gen.
  Variable from_problem : World -> settings -> Gen -> option Problem * Gen.
  Variable solve : Problem -> Gen -> answer Plan.
  Notation kuka_run := (kuka_run World Problem Plan Gen load_world from_problem solve).
  Notation kuka_main := (kuka_main pi_12 World Problem Plan Gen load_world from_problem solve).
  Notation attempts := (attempts World Problem Plan Gen load_world from_problem).
  Notation event := (event World Problem Plan).

  (** everything but the line that shows the arguments *)
  Definition acts (es : list event) : list event := filter (fun e => match e with EArgs _ _ _ _ => false | _ => true end) es.
  Definition unused : list string := ["--seed"; "--teleport"; "--randomize-delta"; "--num-targets"].
  (** Four of the thirteen options change nothing but the line that shows them. *)
  Theorem kuka_unused_options fuel ns ns' g : (forall n, ~ In n unused -> get_arg n ns = get_arg n ns') ->
    acts (fst (kuka_run fuel ns g)) = acts (fst (kuka_run fuel ns' g)) /\ snd (kuka_run fuel ns g) = snd (kuka_run fuel ns' g).
  Proof.
    intro H. unfold Main_Model.kuka_run, settings_of.
    rewrite <- !H by (cbn; intuition discriminate).
    destruct (get_arg "--vis" ns), (get_arg "--save-dir" ns), (get_arg "--delta" ns); auto.
    destruct (get_arg "--min-samples" ns), (get_arg "--max-samples" ns), (get_arg "--factor" ns), (get_arg "--adaptive-n" ns), (get_arg "--collision-buffer" ns), (get_arg "--theta-margin" ns); auto.
    destruct (attempts _ _ _ _ _) as [es [[[q b] g2]|]]; [|split; auto; unfold acts; cbn; reflexivity].
    destruct (solve q g2) as [[plan|]| |]; try destruct (truth _); (split; [|reflexivity]); unfold acts; cbn; reflexivity.
  Qed.
  (** In adaptive mode --min-samples changes nothing either. *)
  Theorem kuka_adaptive_min fuel ns ns' g : get_arg "--adaptive-n" ns = Some (VBool true) ->
    (forall n, n <> "--min-samples" -> get_arg n ns = get_arg n ns') -> (get_arg "--min-samples" ns = None <-> get_arg "--min-samples" ns' = None) ->
    acts (fst (kuka_run fuel ns g)) = acts (fst (kuka_run fuel ns' g)) /\ snd (kuka_run fuel ns g) = snd (kuka_run fuel ns' g).
  Proof.
    intros A H M. unfold Main_Model.kuka_run, settings_of.
    rewrite <- !(H "--vis"), <- !(H "--save-dir"), <- !(H "--delta"), <- !(H "--max-samples"), <- !(H "--factor"), <- !(H "--adaptive-n"), <- !(H "--collision-buffer"), <- !(H "--theta-margin") by discriminate.
    rewrite A.
    destruct (get_arg "--min-samples" ns), (get_arg "--min-samples" ns'); try (exfalso; destruct M as [M1 M2]; (discriminate (M1 eq_refl) || discriminate (M2 eq_refl)));
    destruct (get_arg "--vis" ns), (get_arg "--save-dir" ns), (get_arg "--delta" ns); auto;
    destruct (get_arg "--max-samples" ns), (get_arg "--factor" ns), (get_arg "--collision-buffer" ns), (get_arg "--theta-margin" ns); auto.
    cbn [truth]. destruct (attempts _ _ _ _ _) as [es [[[q b] g2]|]]; [|split; auto; unfold acts; cbn; reflexivity].
    destruct (solve q g2) as [[plan|]| |]; try destruct (truth _); (split; [|reflexivity]); unfold acts; cbn; reflexivity.
  Qed.

  (** The factor of a run is the default or an integer. *)
  Definition factor_ok (v : value) : Prop := v = VFloat (Fin (11 # 10)) \/ exists z, v = VInt z.
  Definition token_ok (t : token) : Prop := match t with TOpt o _ => flag o = "--factor" -> okind o = KInt | _ => True end.
  Lemma classify_ok s t : classify (kuka_opts pi_12) s = Some t -> token_ok t.
  Proof.
    assert (K : forall o e, In o (help_opt :: kuka_opts pi_12) -> token_ok (as_token o e)).
    { intros o e I. repeat (destruct I as [<-|I]; [cbn; try discriminate; auto|]). destruct I. }
    unfold classify. destruct s as [|c tl]; [intros [= <-]; exact Logic.I|]. destruct (negb _); [intros [= <-]; exact Logic.I|].
    destruct (find _ _) eqn:F1; [intros [= <-]; apply K; apply find_some in F1 as [F1 _]; exact F1|].
    destruct (String.eqb tl ""); [intros [= <-]; exact Logic.I|]. destruct (String.eqb (String c tl) "-h"); [intros [= <-]; exact Logic.I|].
    assert (R : forall r, Some (if negative_number (String c tl) then TArg (String c tl) else if has_space (String c tl) then TArg (String c tl) else TUnknown) = Some r -> token_ok r)
      by (intros r Hr; destruct (negative_number (String c tl)), (has_space (String c tl)); injection Hr as <-; exact Logic.I).
    destruct (match split_equals (String c tl) with Some (a, b) => (a, Some b) | None => (String c tl, None) end) as [name e].
    destruct (match e with Some _ => find (fun o => String.eqb (flag o) name) (help_opt :: kuka_opts pi_12) | None => None end) eqn:F2.
    - intros [= <-]. apply K. destruct e; [apply find_some in F2 as [F2 _]; exact F2|discriminate].
    - destruct (negb (String.prefix "--" name) || String.eqb name "--")%bool; [apply R|]. destruct (filter _ _) as [|o [|o2 l]] eqn:F3; [apply R| |discriminate]. intros [= <-]. apply K.
      assert (I : In o [o]) by now left. rewrite <- F3 in I. apply filter_In in I as [I _]. exact I.
  Qed.
  Lemma scan_factor ts : Forall token_ok ts -> forall ns b ns', (forall v, get_arg "--factor" ns = Some v -> factor_ok v) -> scan ts ns b = Args ns' ->
    forall v, get_arg "--factor" ns' = Some v -> factor_ok v.
  Proof.
    assert (Set_ : forall ns o v, (forall v, get_arg "--factor" ns = Some v -> factor_ok v) -> (flag o = "--factor" -> factor_ok v) ->
      forall w, get_arg "--factor" (set_arg (flag o) v ns) = Some w -> factor_ok w).
    { intros ns o v H K w. destruct (String.eqb_spec (flag o) "--factor") as [E|E]; [rewrite E, get_set_same; intros [= <-]; auto|]. rewrite get_set_other by congruence. apply H. }
    assert (Conv : forall o s v, token_ok (TOpt o None) -> convert (okind o) s = Some v -> flag o = "--factor" -> factor_ok v).
    { intros o s v T C E. rewrite (T E) in C. cbn in C. destruct (py_int s); [|discriminate]. injection C as <-. right. eauto. }
    intro F. remember (length ts) as n eqn:En. assert (L : (length ts <= n)%nat) by lia. clear En. revert ts F L.
    induction n as [|n IH]; intros [|t ts] F L ns b ns' H; cbn [length] in L; try lia.
    - cbn [scan]. destruct b; [discriminate|]. intros [= <-]. exact H.
    - cbn [scan]. destruct b; [discriminate|]. intros [= <-]. exact H.
    - apply Forall_cons_iff in F as [T F]. cbn [scan]. destruct t as [s|o [e|]|[e|]|]; try discriminate.
      + apply IH; auto. lia.
      + destruct (convert (okind o) e) eqn:C; [|discriminate]. apply IH; auto; [lia|]. apply Set_; auto. eapply Conv; eauto.
      + destruct (okind o) eqn:Ek.
        4: { apply IH; auto; [lia|]. apply Set_; auto. intro E. specialize (T E). congruence. }
        all: destruct ts as [|[s| | |] ts]; try discriminate; destruct (convert _ s) eqn:C; try discriminate;
          apply Forall_cons_iff in F as [_ F]; cbn [length] in L; apply IH; auto; [lia|]; apply Set_; auto; rewrite <- Ek in C; eapply Conv; eauto.
      + apply IH; auto. lia.
  Qed.
  Theorem kuka_factor_values fuel argv g es e w s : kuka_main fuel argv g = Ran _ _ _ es e -> In (EProblem World Problem Plan w s) es -> factor_ok (s_factor s).
  Proof.
    unfold Main_Model.kuka_main. destruct (parse_args _ argv) as [ns| |] eqn:P; try discriminate.
    assert (F : forall v, get_arg "--factor" ns = Some v -> factor_ok v).
    { unfold parse_args in P. destruct (classify_all _ argv) as [ts|] eqn:C; [|discriminate]. eapply scan_factor; [|  |exact P].
      - clear P. revert ts C. induction argv as [|a argv IH]; cbn [classify_all]; intros ts; [intros [= <-]; constructor|].
        destruct (classify _ a) eqn:Ca; [|discriminate]. destruct (classify_all _ argv) eqn:Cr; [|discriminate]. intros [= <-]. constructor; [eapply classify_ok; eauto|now apply IH].
      - intros v [= <-]. now left. }
    unfold Main_Model.kuka_run. destruct (get_arg "--vis" ns), (get_arg "--save-dir" ns), (get_arg "--delta" ns) as [gap|]; try (intros [= <- <-] []).
    destruct (settings_of ns) as [s0|] eqn:S0; [|intros [= <- <-] []].
    assert (F0 : factor_ok (s_factor s0)).
    { unfold settings_of in S0. destruct (get_arg "--min-samples" ns), (get_arg "--max-samples" ns), (get_arg "--factor" ns), (get_arg "--adaptive-n" ns), (get_arg "--collision-buffer" ns), (get_arg "--theta-margin" ns); try discriminate.
      injection S0 as <-. cbn. auto. }
    assert (At : forall fuel bodies g, In (EProblem World Problem Plan w s) (fst (attempts fuel gap s0 bodies g)) -> s = s0).
    { clear. induction fuel as [|fuel IH]; intros bodies g; cbn [Main_Model.attempts]; [intros []|]. destruct (load_world gap bodies g) as [[w1 new] g1].
      destruct (from_problem w1 s0 g1) as [[q|] g2]; [intros [[=]|[[=]|[]]]; auto|]. specialize (IH [] g2). destruct (attempts _ _ _ _ _) as [es r]. cbn [fst] in *. intros [[=]|[[=]|[[=]|I]]]; auto. }
    specialize (At fuel [] g). destruct (attempts fuel gap s0 [] g) as [es0 r]. cbn [fst] in At.
    destruct r as [[[q b] g2]|]; [destruct (solve q g2) as [[plan|]| |]; try destruct (truth v)|]; intros [= <- <-] I;
      repeat first [apply in_app_or in I as [I|I] | destruct I as [I|I]; [discriminate|]]; try destruct I; rewrite (At I); auto.
  Qed.

  (** ** C152: worlds are tried one after the other *)
  (** the world drawn in state g is given up, and the generators are in state g' afterwards *)
  Definition rejected (gap : value) (s : settings) (g g' : Gen) : Prop := exists w new g1, load_world gap [] g = (w, new, g1) /\ from_problem w s g1 = (None, g').
  Definition accepted (gap : value) (s : settings) (g : Gen) (q : Problem) (bodies : list nat) (g' : Gen) : Prop :=
    exists w g1, load_world gap [] g = (w, bodies, g1) /\ from_problem w s g1 = (Some q, g').
  Inductive tries (gap : value) (s : settings) : nat -> Gen -> Gen -> Prop :=
  | tries_0 g : tries gap s 0 g g
  | tries_S n g g1 g2 : rejected gap s g g1 -> tries gap s n g1 g2 -> tries gap s (S n) g g2.
  Lemma attempts_some gap s fuel : forall g es q bodies g2, attempts fuel gap s [] g = (es, Some (q, bodies, g2)) ->
    exists n g1, (n < fuel)%nat /\ tries gap s n g g1 /\ accepted gap s g1 q bodies g2.
  Proof.
    induction fuel as [|fuel IH]; intros g es q bodies g2; cbn [Main_Model.attempts]; [discriminate|]. destruct (load_world gap [] g) as [[w new] g1] eqn:L.
    destruct (from_problem w s g1) as [[q'|] g'] eqn:F.
    - intros [= <- <- <- <-]. exists 0%nat, g. split; [lia|]. split; [constructor|]. exists w, g1. auto.
    - destruct (attempts fuel gap s [] g') as [es' r] eqn:A. intros [= <- ->]. destruct (IH _ _ _ _ _ A) as (n & h & Ln & T & Ac).
      exists (S n), h. split; [lia|]. split; auto. econstructor; eauto. exists w, new, g1. auto.
  Qed.
  Lemma attempts_end gap s n : forall g g1 q bodies g2 fuel, tries gap s n g g1 -> accepted gap s g1 q bodies g2 -> (n < fuel)%nat ->
    exists es, attempts fuel gap s [] g = (es, Some (q, bodies, g2)).
  Proof.
    induction n as [|n IH]; intros g g1 q bodies g2 fuel T A L; (destruct fuel as [|fuel]; [lia|]); cbn [Main_Model.attempts]; inversion T; subst.
    - destruct A as (w & h & -> & ->). eauto.
    - destruct H0 as (w & new & h & -> & ->). destruct (IH _ _ _ _ _ fuel H1 A ltac:(lia)) as (es & ->). eauto.
  Qed.
  Lemma attempts_loads gap s fuel : forall bodies g b gp, In (ELoad World Problem Plan b gp) (fst (attempts fuel gap s bodies g)) -> (b = bodies \/ b = []) /\ gp = gap.
  Proof.
    induction fuel as [|fuel IH]; intros bodies g b gp; cbn [Main_Model.attempts]; [intros []|]. destruct (load_world gap bodies g) as [[w new] g1].
    destruct (from_problem w s g1) as [[q|] g2]; [intros [[= <- <-]|[[=]|[]]]; auto|]. specialize (IH [] g2). destruct (attempts _ _ _ _ _) as [es r]. cbn [fst] in *.
    intros [[= <- <-]|[[=]|[[=]|I]]]; auto. destruct (IH _ _ I); tauto.
  Qed.
  Lemma attempts_kinds gap s fuel : forall bodies g x, In x (fst (attempts fuel gap s bodies g)) -> match x with ELoad _ _ _ _ _ | EProblem _ _ _ _ _ | ERemove _ _ _ _ => True | _ => False end.
  Proof.
    induction fuel as [|fuel IH]; intros bodies g x; cbn [Main_Model.attempts]; [intros []|]. destruct (load_world gap bodies g) as [[w new] g1].
    destruct (from_problem w s g1) as [[q|] g2]; [intros [<-|[<-|[]]]; exact Logic.I|]. specialize (IH [] g2). destruct (attempts _ _ _ _ _) as [es r]. cbn [fst] in *.
    intros [<-|[<-|[<-|Hx]]]; try exact Logic.I. exact (IH _ Hx).
  Qed.

  Definition complete (ns : namespace) : Prop := forall o, In o (kuka_opts pi_12) -> get_arg (flag o) ns <> None.
  Lemma complete_run ns : complete ns -> exists vis dir gap s, get_arg "--vis" ns = Some vis /\ get_arg "--save-dir" ns = Some dir /\ get_arg "--delta" ns = Some gap /\ settings_of ns = Some s.
  Proof.
    intro C. assert (G : forall k n, nth_error (map flag (kuka_opts pi_12)) k = Some n -> exists v, get_arg n ns = Some v).
    { intros k n E. rewrite nth_error_map in E. destruct (nth_error (kuka_opts pi_12) k) as [o|] eqn:Eo; [|discriminate]. injection E as <-. apply nth_error_In in Eo.
      specialize (C o Eo). destruct (get_arg _ ns); [eauto|congruence]. }
    destruct (G 0%nat _ eq_refl) as (a0 & E0). destruct (G 1%nat _ eq_refl) as (a1 & E1). destruct (G 2%nat _ eq_refl) as (a2 & E2). destruct (G 3%nat _ eq_refl) as (a3 & E3).
    destruct (G 4%nat _ eq_refl) as (a4 & E4). destruct (G 5%nat _ eq_refl) as (a5 & E5). destruct (G 7%nat _ eq_refl) as (a7 & E7). destruct (G 8%nat _ eq_refl) as (a8 & E8). destruct (G 12%nat _ eq_refl) as (a9 & E9).
    exists a8, a7, a3. unfold settings_of. cbn [flag] in *. rewrite E0, E1, E2, E4, E5, E9. eauto.
  Qed.

  (** Every world is built in an empty simulator, and the problem that is solved is that of the first world that has one;
      the simulator then holds the bodies of this world only. *)
  Theorem kuka_world fuel ns g es e gap s : get_arg "--delta" ns = Some gap -> settings_of ns = Some s -> kuka_run fuel ns g = (es, e) ->
    (forall b gp, In (ELoad World Problem Plan b gp) es -> b = [] /\ gp = gap) /\
    (forall b q, In (ESolve World Problem Plan b q) es -> exists n g1 g2, tries gap s n g g1 /\ accepted gap s g1 q b g2).
  Proof.
    intros Eg Es. unfold Main_Model.kuka_run. rewrite Eg, Es. destruct (get_arg "--vis" ns) as [vis|], (get_arg "--save-dir" ns) as [dir|]; try (intros [= <- <-]; split; intros ? ? []).
    destruct (attempts fuel gap s [] g) as [es0 r] eqn:A.
    assert (Lo : forall b gp, In (ELoad World Problem Plan b gp) es0 -> b = [] /\ gp = gap).
    { intros b gp I0. pose proof (attempts_loads gap s fuel [] g b gp) as H. rewrite A in H. destruct (H I0) as [[->| ->] ->]; auto. }
    assert (Ks : forall b q, In (ESolve World Problem Plan b q) es0 -> False).
    { intros b q I0. pose proof (attempts_kinds gap s fuel [] g (ESolve World Problem Plan b q)) as H. rewrite A in H. exact (H I0). }
    destruct r as [[[q b] g2]|].
    - destruct (attempts_some _ _ _ _ _ _ _ _ A) as (n & g1 & _ & T & Ac).
      assert (Ok_ : forall b' q', ESolve World Problem Plan b q = ESolve _ _ _ b' q' -> exists n g1 g2, tries gap s n g g1 /\ accepted gap s g1 q' b' g2) by (intros b' q' [= <- <-]; eauto 6).
      destruct (solve q g2) as [[plan|]| |]; try destruct (truth vis); intros [= <- <-]; split; intros ? ? Hi;
        repeat first [apply in_app_or in Hi as [Hi|Hi] | destruct Hi as [Hi|Hi]; [try discriminate; auto|]]; try (now destruct Hi); eauto; exfalso; eauto.
    - intros [= <- <-]; split; intros ? ? Hi; repeat (destruct Hi as [Hi|Hi]; [discriminate|]); eauto. exfalso. eauto.
  Qed.

  (** A run ends exactly if some world has a problem. *)
  Theorem kuka_ends ns g gap s : complete ns -> get_arg "--delta" ns = Some gap -> settings_of ns = Some s ->
    ((exists fuel, snd (kuka_run fuel ns g) <> NoEnd) <-> exists n g1 q b g2, tries gap s n g g1 /\ accepted gap s g1 q b g2).
  Proof.
    intros C Eg Es. destruct (complete_run ns C) as (vis & dir & gap' & s' & Ev & Ed & Eg' & Es'). unfold Main_Model.kuka_run. rewrite Ev, Ed, Eg, Es. split.
    - intros [fuel H]. destruct (attempts fuel gap s [] g) as [es [[[q b] g2]|]] eqn:A; [|now cbn in H].
      destruct (attempts_some _ _ _ _ _ _ _ _ A) as (n & g1 & _ & T & Ac). exists n, g1, q, b, g2. auto.
    - intros (n & g1 & q & b & g2 & T & Ac). exists (S n). destruct (attempts_end gap s n g g1 q b g2 (S n) T Ac ltac:(lia)) as (es & ->).
      destruct (solve q g2) as [[plan|]| |]; try destruct (truth vis); discriminate.
  Qed.

  (** A run that returns prints one verdict and one time, in this order and after solving; the verdict is that of the solver.
      It disconnects unless the solver gave up with SubplanFailed or the plan is shown. *)
  Definition is_report (x : event) : bool := match x with EVerdict _ _ _ _ | ETime _ _ _ | EDisconnect _ _ _ | EExecute _ _ _ _ => true | _ => false end.
  Lemma filter_none {A} (f : A -> bool) l : (forall x, In x l -> f x = false) -> filter f l = [].
  Proof. intro H. induction l as [|a l IH]; auto. cbn. rewrite H by now left. apply IH. intros; apply H; now right. Qed.
  Theorem kuka_report fuel ns g es e : complete ns -> kuka_run fuel ns g = (es, e) ->
    (e = NoEnd -> filter is_report es = []) /\
    (e = Raised -> filter is_report es = [] /\ exists q b g2, In (ESolve World Problem Plan b q) es /\ solve q g2 = Crash Plan) /\
    (e = Returned -> exists q b g2 rest, In (ESolve World Problem Plan b q) es /\
      filter is_report es = EVerdict _ _ _ (match solve q g2 with Solved _ (Some _) => true | _ => false end) :: ETime _ _ _ :: rest /\
      (match solve q g2 with
       | Solved _ (Some plan) => rest = if truth (match get_arg "--vis" ns with Some v => v | None => VBool false end) then [EExecute _ _ _ plan] else [EDisconnect _ _ _]
       | Solved _ None => rest = [EDisconnect _ _ _]
       | Failed _ => rest = []
       | Crash _ => False
       end)).
  Proof.
    intro C. destruct (complete_run ns C) as (vis & dir & gap & s & Ev & Ed & Eg & Es). unfold Main_Model.kuka_run. rewrite Ev, Ed, Eg, Es.
    destruct (attempts fuel gap s [] g) as [es0 r] eqn:A.
    assert (N0 : filter is_report es0 = []).
    { apply filter_none. intros x Hx. pose proof (attempts_kinds gap s fuel [] g x) as H. rewrite A in H. specialize (H Hx). destruct x; auto; destruct H. }
    assert (Nf : forall tail, filter is_report (([EConnect _ _ _ vis; EDirs _ _ _ dir; EArgs _ _ _ ns] ++ es0 ++ tail)%list) = filter is_report tail)
      by (intro tail; rewrite !filter_app, N0; reflexivity).
    destruct r as [[[q b] g2]|].
    - assert (In_ : forall tail, In (ESolve World Problem Plan b q) (([EConnect _ _ _ vis; EDirs _ _ _ dir; EArgs _ _ _ ns] ++ es0 ++ [ESolve _ _ _ b q]) ++ tail)%list)
        by (intro tail; apply in_or_app; left; apply in_or_app; right; apply in_or_app; right; now left).
      destruct (solve q g2) as [[plan|]| |] eqn:Sv; [destruct (truth vis) eqn:Tv| | |]; intro HH; pose proof (f_equal fst HH) as E1; pose proof (f_equal snd HH) as E2; cbn [fst snd] in E1, E2; subst es e; clear HH; (split; [discriminate|split; try discriminate]); intros _.
      5: { split; [rewrite (Nf [ESolve _ _ _ b q]); reflexivity|]. exists q, b, g2. split; auto. specialize (In_ []). rewrite app_nil_r in In_. exact In_. }
      all: exists q, b, g2; eexists; rewrite Sv; (split; [apply In_|]); rewrite filter_app, (Nf [ESolve _ _ _ b q]); cbn [filter is_report app]; split; try reflexivity; try (rewrite Tv; reflexivity).
    - intro HH. pose proof (f_equal fst HH) as E1. pose proof (f_equal snd HH) as E2. cbn [fst snd] in E1, E2. subst es e. rewrite <- (app_nil_r es0). rewrite (Nf []). split; [reflexivity|]. split; discriminate.
  Qed.
End Kuka.
Print Assumptions kuka_unused_options.
Print Assumptions kuka_adaptive_min.
Print Assumptions kuka_factor_values.
Print Assumptions kuka_world.
Print Assumptions kuka_ends.
Print Assumptions kuka_report.

(** Every command line that is accepted sets all options. *)
Lemma set_keeps n m v ns : get_arg n ns <> None -> get_arg n (set_arg m v ns) <> None.
Proof. intro H. destruct (String.eqb_spec n m) as [->|N]; [rewrite get_set_same; discriminate|now rewrite get_set_other]. Qed.
Lemma scan_keeps n : forall k ts, (length ts <= k)%nat -> forall ns b ns', get_arg n ns <> None -> scan ts ns b = Args ns' -> get_arg n ns' <> None.
Proof.
  induction k as [|k IH]; intros [|t ts] L ns b ns' H; cbn [length] in L; try lia; cbn [scan]; try (destruct b; [discriminate|intros [= <-]; exact H]).
  destruct t as [s|o [e|]|[e|]|]; try discriminate.
  - apply IH; auto. lia.
  - destruct (convert (okind o) e); [|discriminate]. apply IH; [lia|now apply set_keeps].
  - destruct (okind o).
    4: { apply IH; [lia|now apply set_keeps]. }
    all: destruct ts as [|[s| | |] ts]; try discriminate; destruct (convert _ s); try discriminate; cbn [length] in L; apply IH; [lia|now apply set_keeps].
  - apply IH; auto. lia.
Qed.
Theorem parsed_complete t argv ns : parse_args (kuka_opts t) argv = Args ns -> complete t ns.
Proof.
  unfold parse_args. destruct (classify_all _ argv) as [ts|]; [|discriminate]. intros H o I. eapply scan_keeps; [apply le_n| |exact H].
  rewrite get_default; [discriminate|apply kuka_opts_ok|auto].
Qed.
Print Assumptions parsed_complete.

(** *** The world of the examples: the generator's state is the world, odd worlds have no problem *)
Definition toy_load (gap : value) (bodies : list nat) (g : nat) : nat * list nat * nat := (g, [g; g + 1]%nat, S g).
Definition toy_problem (w : nat) (s : settings) (g : nat) : option (nat * settings) * nat := if Nat.odd w then (None, g) else (Some (w, s), g).
Definition toy_solve (q : nat * settings) (g : nat) : answer nat := if (fst q =? 0)%nat then Failed nat else Solved nat (Some (fst q)).
Notation toy_main := (kuka_main (Fin (26 # 100)) nat (nat * settings) nat nat toy_load toy_problem toy_solve).
Notation toy_run := (kuka_run nat (nat * settings) nat nat toy_load toy_problem toy_solve).
Example toy_3 : exists es, toy_main 5 ["--adaptive-n"; "--max-samples"; "40"] 3%nat = Ran _ _ _ es Returned /\
  acts es = [EConnect _ _ _ (VBool false); EDirs _ _ _ (VStr "./logs/debug");
    ELoad _ _ _ [] (VFloat (Fin (4 # 100))); EProblem _ _ _ 3%nat (mkSettings (VInt 39) (VInt 40) (VFloat (Fin (11 # 10))) (VBool true) (VFloat (Fin (2 # 100))) (VFloat (Fin (26 # 100))) (VBool false)); ERemove _ _ _ [3; 4]%nat;
    ELoad _ _ _ [] (VFloat (Fin (4 # 100))); EProblem _ _ _ 4%nat (mkSettings (VInt 39) (VInt 40) (VFloat (Fin (11 # 10))) (VBool true) (VFloat (Fin (2 # 100))) (VFloat (Fin (26 # 100))) (VBool false));
    ESolve _ _ _ [4; 5]%nat (4%nat, mkSettings (VInt 39) (VInt 40) (VFloat (Fin (11 # 10))) (VBool true) (VFloat (Fin (2 # 100))) (VFloat (Fin (26 # 100))) (VBool false));
    ERestore _ _ _; EVerdict _ _ _ true; ETime _ _ _; EDisconnect _ _ _].
Proof. eexists. split; vm_compute; reflexivity. Qed.
Example toy_0 : exists es, toy_main 5 ["--vis"] 0%nat = Ran _ _ _ es Returned /\ filter (is_report (World := nat) (Problem := nat * settings) (Plan := nat)) es = [EVerdict _ _ _ false; ETime _ _ _].
Proof. eexists. split; vm_compute; reflexivity. Qed.

(** The other nine options change what a run does. *)
Theorem kuka_used_options t o : In o (kuka_opts t) -> ~ In (flag o) unused -> exists ns v, complete t ns /\
  acts (fst (toy_run 5 (set_arg (flag o) v ns) 4%nat)) <> acts (fst (toy_run 5 ns 4%nat)).
Proof.
  intros I N. exists (map (fun o => (flag o, default o)) (kuka_opts t)).
  assert (C : complete t (map (fun o => (flag o, default o)) (kuka_opts t))) by (intros p Ip; rewrite get_default; [discriminate|apply kuka_opts_ok|auto]).
  exists (VBool true). split; [exact C|]. clear C.
  cbn [kuka_opts In] in I. repeat (destruct I as [<-|I]; [first [exfalso; apply N; cbn; tauto|vm_compute; discriminate]|]). destruct I.
Qed.
Print Assumptions kuka_used_options.

(** ** Refuted: every option has an effect *)
Theorem kuka_options_refuted : exists o, In o (kuka_opts (Fin (26 # 100))) /\
  forall (World Problem Plan Gen : Type) load_world from_problem solve fuel ns v (g : Gen),
  acts (fst (kuka_run World Problem Plan Gen load_world from_problem solve fuel (set_arg (flag o) v ns) g)) =
  acts (fst (kuka_run World Problem Plan Gen load_world from_problem solve fuel ns g)).
Proof.
  exists (mkOpt "--num-targets" KFloat (VInt 5)). split; [do 11 right; now left|]. intros. apply kuka_unused_options. intros n N. apply get_set_other. intros ->. apply N. cbn. tauto.
Qed.
(** Refuted: a seed makes a run repeatable.  The generators are never seeded. *)
Theorem kuka_seed_refuted : exists g g' es es' e e', toy_main 5 ["--seed"; "3"] g = Ran _ _ _ es e /\ toy_main 5 ["--seed"; "3"] g' = Ran _ _ _ es' e' /\ acts es <> acts es'.
Proof.
  exists 2%nat, 4%nat. do 4 eexists. split; [vm_compute; reflexivity|]. split; [vm_compute; reflexivity|]. vm_compute. discriminate.
Qed.
(** Refuted: the growth factor can be given.  Its own default is refused. *)
Theorem kuka_factor_refuted : exists s q, py_float s = Some (Fin q) /\ (q == 11 # 10)%Q /\
  (forall t World Problem Plan Gen load_world from_problem solve fuel (g : Gen), kuka_main t World Problem Plan Gen load_world from_problem solve fuel ["--factor"; s] g = Usage _ _ _).
Proof. exists "1.1", (11 * / (10 # 1))%Q. split; [vm_compute; reflexivity|]. split; [reflexivity|]. intros. vm_compute. reflexivity. Qed.
(** Refuted: a run ends. *)
Theorem kuka_ends_refuted : exists from_problem : nat -> settings -> nat -> option nat * nat, forall fuel argv g,
  match kuka_main (Fin (26 # 100)) nat nat nat nat toy_load from_problem (fun _ _ => Crash nat) fuel argv g with Ran _ _ _ _ e => e = NoEnd | _ => True end.
Proof.
  exists (fun _ _ g => (None, g)). intros fuel argv g. unfold kuka_main. destruct (parse_args _ argv) as [ns| |] eqn:P; auto.
  destruct (complete_run _ ns (parsed_complete _ _ _ P)) as (vis & dir & gap & s & Ev & Ed & Eg & Es). unfold kuka_run. rewrite Ev, Ed, Eg, Es.
  assert (N : forall fuel b g, snd (attempts nat nat nat nat toy_load (fun _ _ g => (None, g)) fuel gap s b g) = None).
  { clear. induction fuel as [|fuel IH]; intros b g; auto. cbn [attempts toy_load]. specialize (IH [] (S g)). destruct (attempts _ _ _ _ _ _ _ _ _ _ _). exact IH. }
  specialize (N fuel [] g). destruct (attempts _ _ _ _ _ _ _ _ _ _ _) as [es r]. cbn [snd] in N. subst r. reflexivity.
Qed.
(** Refuted: a run that returns without showing a plan has disconnected. *)
Theorem kuka_disconnects_refuted : exists es, toy_main 5 [] 0%nat = Ran _ _ _ es Returned /\ ~ In (EDisconnect _ _ _) es /\ In (EConnect _ _ _ (VBool false)) es.
Proof. eexists. split; [vm_compute; reflexivity|]. split; cbn; intuition discriminate. Qed.
Print Assumptions kuka_options_refuted.
Print Assumptions kuka_seed_refuted.
Print Assumptions kuka_factor_refuted.
Print Assumptions kuka_ends_refuted.
Print Assumptions kuka_disconnects_refuted.

(** What the factors that can be given do to the loop of the insertion stream: two or more never asks for the same size twice;
    one or less does so in the second attempt. *)
Theorem kuka_factor_growth P query max num z fuel : (1 <= num)%Q ->
  ((2 <= z)%Z -> match loop P query max (inject_Z z) fuel num [] with
    | GrowError _ => False
    | Stopped sizes [] => (inject_Z (max + 1) <= (inject_Z (last sizes 0%Z) + 1) * inject_Z z)%Q
    | _ => True
    end) /\
  ((z <= 1)%Z -> (num < inject_Z (max + 1))%Q -> query [Qint num] = [] -> (2 <= fuel)%nat -> loop P query max (inject_Z z) fuel num [] = GrowError [Qint num]).
Proof.
  intro H. split.
  - intro Z2. apply anytime_growth; auto. assert (2 <= inject_Z z)%Q by (change 2%Q with (inject_Z 2); rewrite <- Zle_Qle; lia). nra.
  - intros Z1 L Q F. destruct fuel as [|[|fuel]]; try lia. cbn [loop]. rewrite (proj2 (Qlt_bool_iff _ _) L). cbn [app]. rewrite Q.
    assert (Hz : (inject_Z z <= 1)%Q) by (change 1%Q with (inject_Z 1); rewrite <- Zle_Qle; lia).
    assert (L2 : (num * inject_Z z < inject_Z (max + 1))%Q) by nra. rewrite (proj2 (Qlt_bool_iff _ _) L2). cbn [last].
    assert (B : (Qint (num * inject_Z z) <= Qint num)%Z).
    { unfold Qint. rewrite (proj2 (Qle_bool_iff 0 num)) by lra. assert (M : (num * inject_Z z <= num)%Q) by nra. destruct (Qle_bool 0 (num * inject_Z z)) eqn:E.
      - now apply Qfloor_resp_le.
      - assert (N : (num * inject_Z z < 0)%Q) by (apply Qnot_le_lt; intro N; apply Qle_bool_iff in N; congruence).
        pose proof (Qfloor_resp_le 0 (- (num * inject_Z z)) ltac:(lra)). pose proof (Qfloor_resp_le 0 num ltac:(lra)). change (Qfloor 0) with 0%Z in *. lia. }
    apply Z.leb_le in B. rewrite B. reflexivity.
Qed.
Print Assumptions kuka_factor_growth.
Example kuka_factor_2 : loop nat (fun _ => []) 30000 2 20 500 [] = Stopped [500; 1000; 2000; 4000; 8000; 16000]%Z [].
Proof. reflexivity. Qed.
Example kuka_factor_1 : loop nat (fun _ => []) 30000 1 20 500 [] = GrowError [500]%Z.
Proof. reflexivity. Qed.

(** ** C153: seeds of the turtlebot script *)
Section Turtle.
  Context {PyGen NpGen : Type}.
  Variable random_seed : Z -> PyGen.
  Variable np_seed : Z -> NpGen.
  Variable uniform : Q -> Q -> PyGen -> Q * PyGen.
  Notation turtle_start := (turtle_start PyGen NpGen random_seed np_seed uniform).
  (** random.uniform(a, b) is between a and b *)
  Definition uniform_ok : Prop := forall a b g, (a <= b)%Q -> (a <= fst (uniform a b g) <= b)%Q.

  (** With a seed between 0 and 2^32 - 1 the start of the script does not depend on the generators it found; larger seeds are refused,
      and negative ones leave the generators as they were. *)
  Theorem turtle_seed a g h : match turtle_start a g h with
    | SeedError _ _ => (2 ^ 32 <= t_seed a)%Z
    | Start _ _ d mi ma g1 h1 => (t_seed a < 2 ^ 32)%Z /\ ma = t_max a /\ (mi = if t_adaptive a then ma - 1 else t_min a)%Z /\
      (uniform_ok -> if t_randomize a then (1 # 100 <= d <= 2 # 10)%Q else d = t_delta a) /\
      ((0 <= t_seed a)%Z -> h1 = np_seed (t_seed a) /\ (t_randomize a = false -> g1 = random_seed (t_seed a)) /\ forall g' h', turtle_start a g' h' = turtle_start a g h) /\
      ((t_seed a < 0)%Z -> h1 = h /\ (t_randomize a = false -> g1 = g))
    end.
  Proof.
    unfold Main_Model.turtle_start. destruct (Z.leb_spec 0 (t_seed a)) as [S0|S0]; cbn [andb].
    - destruct (Z.leb_spec (2 ^ 32) (t_seed a)) as [S1|S1]; auto.
      destruct (t_randomize a) eqn:R.
      + destruct (uniform _ _ _) as [d g2] eqn:U. split; auto. split; auto. split; auto. split; [|split; [|lia]].
        * intro Uo. specialize (Uo (1 # 100)%Q (2 # 10)%Q (random_seed (t_seed a)) ltac:(discriminate)). rewrite U in Uo. exact Uo.
        * intros _. split; auto. split; [discriminate|]. auto.
      + split; auto. split; auto. split; auto. split; auto. split; [auto|lia].
    - destruct (t_randomize a) eqn:R.
      + destruct (uniform _ _ _) as [d g2] eqn:U. split; [lia|]. split; auto. split; auto. split; [|split; [lia|intros _; split; auto; discriminate]].
        intro Uo. specialize (Uo (1 # 100)%Q (2 # 10)%Q g ltac:(discriminate)). rewrite U in Uo. exact Uo.
      + split; [lia|]. split; auto. split; auto. split; auto. split; [lia|auto].
  Qed.
End Turtle.
Print Assumptions turtle_seed.
Example turtle_seed_4 : turtle_start nat nat Z.to_nat Z.to_nat (fun a b g => (((a + b) / 2)%Q, S g)) (mkTargs 4 true (5 # 100)%Q 1 10 2000 (11 # 10)%Q true) 8%nat 9%nat = Start _ _ (((1 # 100) + (2 # 10)) / 2)%Q 1999 2000 5%nat 4%nat.
Proof. reflexivity. Qed.
