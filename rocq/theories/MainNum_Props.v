(** C150: what numbers on the command line become *)
From Coq Require Import ZArith QArith Arith List Bool Lia String Ascii.
From Verif Require Import Log_Model Log_Props LogPlot_Props Main_Model Main_Props.
Import ListNotations.
Close Scope Q_scope.
Open Scope string_scope.

Lemma stored opts o s v : opts_ok opts -> In o opts -> okind o <> KFlag -> Main_Props.plain s -> convert (okind o) s = Some v ->
  exists ns, parse_args opts [flag o; s] = Args ns /\ get_arg (flag o) ns = Some v.
Proof.
  intros O I K P C. destruct (options_given opts [Give o s] O) as (ns & E & G).
  - constructor; [|constructor]. repeat split; auto. cbn [gvalue]. congruence.
  - exists ns. split; [exact E|]. rewrite (G o I). unfold final_value. cbn [fold_left gopt]. rewrite String.eqb_refl. cbn [gvalue]. auto.
Qed.

Lemma digits_numeral d ds s : Forall (fun d => d < 10) (d :: ds) -> no_digit s ->
  digits (numeral (d :: ds) ++ s) = Some (dec_value (d :: ds), S (List.length ds), s).
Proof.
  intros F N. inversion F as [|x y H F']; subst. change (numeral (d :: ds) ++ s) with (String (digit_char d) (numeral ds ++ s)). cbn [digits].
  rewrite digit_ok by auto. rewrite more_numeral by auto. reflexivity.
Qed.
Lemma int_negative ds : ds <> [] -> Forall (fun d => d < 10) ds -> py_int (String "-" (numeral ds)) = Some (- dec_value ds)%Z.
Proof.
  intros N F. unfold py_int.
  assert (S : strip (String "-" (numeral ds)) = String "-" (numeral ds)).
  { unfold strip. cbn [lstrip is_space]. change (is_space "-") with false. cbn iota.
    rewrite <- (app_nil_s (String "-" (numeral ds))) at 1. apply rstrip_black; [|intros x []].
    apply (numeral_black ds F N "-"). }
  rewrite S. cbn [sign]. change (Ascii.eqb "-" "-") with true. cbn iota. destruct ds as [|d ds]; [contradiction|].
  rewrite <- (app_nil_s (numeral (d :: ds))), digits_numeral by (auto; exact I). reflexivity.
Qed.
Lemma int_fraction ds fs : ds <> [] -> fs <> [] -> Forall (fun d => d < 10) ds -> Forall (fun d => d < 10) fs -> py_int (numeral ds ++ "." ++ numeral fs) = None.
Proof.
  intros N M F G. unfold py_int. destruct ds as [|d ds]; [contradiction|]. inversion F as [|x y H F']; subst.
  rewrite numeral_strip; auto. 2: { rewrite <- app_assoc_s. apply numeral_black; auto. }
  change (numeral (d :: ds) ++ "." ++ numeral fs) with (String (digit_char d) (numeral ds ++ "." ++ numeral fs)) at 1. rewrite sign_digit by auto.
  change (String (digit_char d) (numeral ds ++ "." ++ numeral fs)) with (numeral (d :: ds) ++ "." ++ numeral fs).
  rewrite digits_numeral; auto. cbn [append]. split; [reflexivity|discriminate].
Qed.

Lemma plain_numeral ds s : ds <> [] -> Forall (fun d => d < 10) ds -> Main_Props.plain (numeral ds ++ s).
Proof.
  intros N F. left. destruct ds as [|d ds]; [contradiction|]. inversion F as [|x y H F']; subst.
  do 10 (destruct d as [|d]; [reflexivity|]). lia.
Qed.
Lemma all_digits_numeral ds : Forall (fun d => d < 10) ds -> all_digits (numeral ds) = true.
Proof.
  induction 1 as [|d ds H F IH]; [reflexivity|]. change (numeral (d :: ds)) with (String (digit_char d) (numeral ds)). cbn [all_digits]. rewrite digit_ok by auto. exact IH.
Qed.
Lemma plain_negative ds : ds <> [] -> Forall (fun d => d < 10) ds -> Main_Props.plain (String "-" (numeral ds)).
Proof.
  intros N F. right. exists (numeral ds). split; auto. split; [|apply all_digits_numeral; auto]. destruct ds; [contradiction|discriminate].
Qed.

(** An option of type int takes the value of a numeral, with or without a minus sign, and refuses a
    fraction; one of type float takes the value of a fraction; one of type str takes the text. *)
Theorem option_numbers opts o ds fs : opts_ok opts -> In o opts -> ds <> [] -> fs <> [] -> Forall (fun d => d < 10) ds -> Forall (fun d => d < 10) fs ->
  let given s v := exists ns, parse_args opts [flag o; s] = Args ns /\ get_arg (flag o) ns = Some v in
  let fraction := numeral ds ++ "." ++ numeral fs in
  (okind o = KInt -> given (numeral ds) (VInt (dec_value ds)) /\ given (String "-" (numeral ds)) (VInt (- dec_value ds)) /\
    parse_args opts [flag o; fraction] = UsageError) /\
  (okind o = KFloat -> exists q, given fraction (VFloat (Fin q)) /\
    (q == inject_Z (dec_value ds) + inject_Z (dec_value fs) / inject_Z (10 ^ Z.of_nat (List.length fs)))%Q) /\
  (okind o = KStr -> given fraction (VStr fraction)).
Proof.
  intros O I N M F G given fraction. pose proof (plain_numeral ds ("." ++ numeral fs) N F) as PF. fold fraction in PF. split; [|split]; intros K.
  - split; [|split].
    + apply stored; auto; [congruence| |rewrite K; cbn; rewrite int_numeral by auto; reflexivity]. rewrite <- (app_nil_s (numeral ds)). apply plain_numeral; auto.
    + apply stored; auto; [congruence|apply plain_negative; auto|]. rewrite K. cbn [convert]. rewrite int_negative by auto. reflexivity.
    + apply (option_text_exact opts o fraction); auto; [congruence|]. rewrite K. cbn [convert]. unfold fraction. rewrite int_fraction by auto. reflexivity.
  - destruct (float_numeral ds fs N M F G) as (q & E & V). exists q. split; auto.
    apply stored; auto; [congruence|]. rewrite K. cbn [convert]. unfold fraction. rewrite E. reflexivity.
  - apply stored; auto; [congruence|]. rewrite K. reflexivity.
Qed.
Print Assumptions option_numbers.

Example option_numbers_case : parse_args [mkOpt "--max-samples" KInt (VInt 100)] ["--max-samples"; "2500"] = Args [("--max-samples", VInt 2500)] /\
  parse_args [mkOpt "--max-samples" KInt (VInt 100)] ["--max-samples"; "2.5"] = UsageError.
Proof. split; reflexivity. Qed.
