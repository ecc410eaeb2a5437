(** Model of the main functions of the two planning scripts, from the command line to the solver:
    exps/tamp_environment/kuka_carry/run.py       lines 600-703 (SubplanFailed, main)
    exps/tamp_environment/turtlebot_move/run.py   lines 165-229 (main, up to the stream arguments)

    argparse is a library; its treatment of long options is written down here (exact names, "--name=value",
    unambiguous prefixes, negative numbers as values, one value or none per option).  The token "--" and
    joined short options are not modelled: they count as unknown.  Every error ends the script.  The simulator
    is the list of its bodies.  The planner, the inverse kinematics and the generators are arguments. *)
From Coq Require Import ZArith QArith String Ascii List Bool.
From Verif Require Import Log_Model.
Import ListNotations.
Open Scope string_scope.

(** ** argparse *)
Inductive kind := KInt | KFloat | KStr | KFlag.
Inductive value := VInt (z : Z) | VFloat (f : pyfloat) | VStr (s : string) | VBool (b : bool).
Record opt := mkOpt { flag : string; okind : kind; default : value }.
Definition namespace := list (string * value).
Inductive parsed := Args (ns : namespace) | UsageError | HelpShown.

(** type=int, type=float and type=str applied to the text *)
Definition convert (k : kind) (s : string) : option value :=
  match k with
  | KInt => option_map VInt (py_int s)
  | KFloat => option_map VFloat (py_float s)
  | KStr => Some (VStr s)
  | KFlag => None
  end.
(** setattr(namespace, dest, value) *)
Fixpoint set_arg (n : string) (v : value) (ns : namespace) : namespace :=
  match ns with
  | [] => [(n, v)]
  | (m, w) :: r => if String.eqb m n then (m, v) :: r else (m, w) :: set_arg n v r
  end.
Definition get_arg (n : string) (ns : namespace) : option value := option_map snd (find (fun x => String.eqb (fst x) n) ns).

Fixpoint all_digits (s : string) : bool :=
  match s with "" => true | String c r => match digit c with Some _ => all_digits r | None => false end end.
Fixpoint digits_point_digits (s : string) : bool :=
  match s with
  | "" => false
  | String c r => if Ascii.eqb c "." then (negb (String.eqb r "") && all_digits r)%bool else match digit c with Some _ => digits_point_digits r | None => false end
  end.
(** ^-\d+$|^-\d*\.\d+$ *)
Definition negative_number (s : string) : bool :=
  match s with
  | String "-" r => ((negb (String.eqb r "") && all_digits r) || digits_point_digits r)%bool
  | _ => false
  end.
Fixpoint has_space (s : string) : bool := match s with "" => false | String c r => (Ascii.eqb c " " || has_space r)%bool end.
(** s.split('=', 1) *)
Fixpoint split_equals (s : string) : option (string * string) :=
  match s with
  | "" => None
  | String c r => if Ascii.eqb c "=" then Some ("", r) else match split_equals r with Some (a, b) => Some (String c a, b) | None => None end
  end.

Inductive token := TArg (s : string) | TOpt (o : opt) (explicit : option string) | THelp (explicit : option string) | TUnknown.
Definition help_opt : opt := mkOpt "--help" KFlag (VBool false).
Definition as_token (o : opt) (e : option string) : token := if String.eqb (flag o) "--help" then THelp e else TOpt o e.
(** ArgumentParser._parse_optional; [None]: the abbreviation is ambiguous *)
Definition classify (opts : list opt) (s : string) : option token :=
  let all := help_opt :: opts in
  let exact n := find (fun o => String.eqb (flag o) n) all in
  let rest := if negative_number s then TArg s else if has_space s then TArg s else TUnknown in
  match s with
  | "" => Some (TArg s)
  | String c tl =>
    if negb (Ascii.eqb c "-") then Some (TArg s)
    else match exact s with
    | Some o => Some (as_token o None)
    | None =>
      if String.eqb tl "" then Some (TArg s)
      else if String.eqb s "-h" then Some (THelp None)
      else
        let (name, explicit) := match split_equals s with Some (a, b) => (a, Some b) | None => (s, None) end in
        match match explicit with Some _ => exact name | None => None end with
        | Some o => Some (as_token o explicit)
        | None =>
          if negb (String.prefix "--" name) || String.eqb name "--" then Some rest
          else match filter (fun o => String.prefix name (flag o)) all with
          | [] => Some rest
          | [o] => Some (as_token o explicit)
          | _ => None
          end
        end
    end
  end.
Fixpoint classify_all (opts : list opt) (argv : list string) : option (list token) :=
  match argv with
  | [] => Some []
  | s :: r => match classify opts s, classify_all opts r with Some t, Some ts => Some (t :: ts) | _, _ => None end
  end.
(** consume_optional in the order of the tokens; [extras]: something was not recognised *)
Fixpoint scan (ts : list token) (ns : namespace) (extras : bool) : parsed :=
  match ts with
  | [] => if extras then UsageError else Args ns
  | TArg _ :: r | TUnknown :: r => scan r ns true
  | THelp None :: _ => HelpShown
  | THelp (Some _) :: _ => UsageError
  | TOpt o (Some e) :: r => match convert (okind o) e with Some v => scan r (set_arg (flag o) v ns) extras | None => UsageError end
  | TOpt o None :: r =>
    match okind o with
    | KFlag => scan r (set_arg (flag o) (VBool true) ns) extras
    | k =>
      match r with
      | TArg s :: r' => match convert k s with Some v => scan r' (set_arg (flag o) v ns) extras | None => UsageError end
      | _ => UsageError
      end
    end
  end.
Definition parse_args (opts : list opt) (argv : list string) : parsed :=
  match classify_all opts argv with
  | None => UsageError
  | Some ts => scan ts (map (fun o => (flag o, default o)) opts) false
  end.

(** ** kuka_carry/run.py *)
Section Kuka.
  Variable pi_12 : pyfloat.                                   (* np.pi/12.0 *)
  (** 608-621 *)
  Definition kuka_opts : list opt := [
    mkOpt "--min-samples" KInt (VInt 500);
    mkOpt "--max-samples" KInt (VInt 30000);
    mkOpt "--factor" KInt (VFloat (Fin (11 # 10)));
    mkOpt "--delta" KFloat (VFloat (Fin (4 # 100)));
    mkOpt "--theta-margin" KFloat (VFloat pi_12);
    mkOpt "--collision-buffer" KFloat (VFloat (Fin (2 # 100)));
    mkOpt "--seed" KInt (VInt (-1));
    mkOpt "--save-dir" KStr (VStr "./logs/debug");
    mkOpt "--vis" KFlag (VBool false);
    mkOpt "--teleport" KFlag (VBool false);
    mkOpt "--randomize-delta" KFlag (VBool false);
    mkOpt "--num-targets" KFloat (VInt 5);
    mkOpt "--adaptive-n" KFlag (VBool false) ].

  (** the arguments of pddlstream_from_problem, 659-670 *)
  Record settings := mkSettings {
    s_min : value; s_max : value; s_factor : value; s_adaptive : value; s_buffer : value; s_theta : value; s_teleport : value }.
  (** max_samples - 1 *)
  Definition less_one (v : value) : value := match v with VInt z => VInt (z - 1) | _ => v end.
  Definition truth (v : value) : bool := match v with VBool b => b | _ => true end.

  Variable World Problem Plan : Type.
  Variable Gen : Type.                                        (* the state of random, np.random and the simulator's generator *)
  Variable load_world : value -> list nat -> Gen -> World * list nat * Gen.   (* the world, its bodies, the generators *)
  Variable from_problem : World -> settings -> Gen -> option Problem * Gen.
  Inductive answer := Solved (plan : option Plan) | Failed | Crash.    (* Failed: SubplanFailed was raised *)
  Variable solve : Problem -> Gen -> answer.

  Inductive event :=
  | EArgs (ns : namespace)                                    (* 635-636 *)
  | EConnect (gui : value)                                    (* 625 *)
  | EDirs (dir : value)                                       (* 627-632 *)
  | ELoad (before : list nat) (gap : value)                   (* 640, with the bodies that are in the simulator *)
  | EProblem (w : World) (s : settings)                       (* 659 *)
  | ERemove (bodies : list nat)                               (* 674-676 *)
  | ESolve (bodies : list nat) (q : Problem)                  (* 686 *)
  | ERestore                                                  (* 687 *)
  | EVerdict (solved : bool)                                  (* 688 print_solution, 701 *)
  | ETime                                                     (* 689, 702 *)
  | EDisconnect                                               (* 692 *)
  | EExecute (plan : Plan).                                   (* 695-699 *)
  Inductive ending := Returned | Raised | NoEnd.

  (** 638-676 *)
  Definition settings_of (ns : namespace) : option settings :=
    match get_arg "--min-samples" ns, get_arg "--max-samples" ns, get_arg "--factor" ns, get_arg "--adaptive-n" ns, get_arg "--collision-buffer" ns, get_arg "--theta-margin" ns with
    | Some mi, Some ma, Some f, Some a, Some b, Some t =>
      Some (mkSettings (if truth a then less_one ma else mi) ma f a b t (VBool false))
    | _, _, _, _, _, _ => None
    end.
  Fixpoint attempts (fuel : nat) (gap : value) (s : settings) (bodies : list nat) (g : Gen) : list event * option (Problem * list nat * Gen) :=
    match fuel with
    | O => ([], None)
    | S fuel' =>
      let '(w, new, g1) := load_world gap bodies g in
      let now := (bodies ++ new)%list in
      match from_problem w s g1 with
      | (Some q, g2) => ([ELoad bodies gap; EProblem w s], Some (q, now, g2))
      | (None, g2) => let (es, r) := attempts fuel' gap s [] g2 in (ELoad bodies gap :: EProblem w s :: ERemove now :: es, r)
      end
    end.
  (** 607-703; [fuel] bounds the attempts *)
  Definition kuka_run (fuel : nat) (ns : namespace) (g : Gen) : list event * ending :=
    match get_arg "--vis" ns, get_arg "--save-dir" ns, get_arg "--delta" ns, settings_of ns with
    | Some vis, Some dir, Some gap, Some s =>
      let first := [EConnect vis; EDirs dir; EArgs ns] in
      let (es, r) := attempts fuel gap s [] g in
      match r with
      | None => ((first ++ es)%list, NoEnd)
      | Some (q, bodies, g2) =>
        let before := (first ++ es ++ [ESolve bodies q])%list in
        match solve q g2 with
        | Crash => (before, Raised)
        | Failed => ((before ++ [EVerdict false; ETime])%list, Returned)
        | Solved None => ((before ++ [ERestore; EVerdict false; ETime; EDisconnect])%list, Returned)
        | Solved (Some plan) =>
          if truth vis then ((before ++ [ERestore; EVerdict true; ETime; EExecute plan])%list, Returned)
          else ((before ++ [ERestore; EVerdict true; ETime; EDisconnect])%list, Returned)
        end
      end
    | _, _, _, _ => ([], Raised)
    end.
  Inductive exit := Ran (es : list event) (e : ending) | Usage | Help.
  Definition kuka_main (fuel : nat) (argv : list string) (g : Gen) : exit :=
    match parse_args kuka_opts argv with
    | UsageError => Usage
    | HelpShown => Help
    | Args ns => let (es, e) := kuka_run fuel ns g in Ran es e
    end.
End Kuka.

(** ** turtlebot_move/run.py 198-229; create_parser belongs to pddlstream, so the arguments are a record *)
Section Turtle.
  Variable PyGen NpGen : Type.
  Variable random_seed : Z -> PyGen.
  Variable np_seed : Z -> NpGen.
  Variable uniform : Q -> Q -> PyGen -> Q * PyGen.
  Record targs := mkTargs { t_seed : Z; t_randomize : bool; t_delta : Q; t_targets : Z; t_min : Z; t_max : Z; t_factor : Q; t_adaptive : bool }.
  Inductive tstart := Start (delta : Q) (min_samples max_samples : Z) (g : PyGen) (h : NpGen) | SeedError.
  (** np.random.seed takes the seeds below 2 ** 32 *)
  Definition turtle_start (a : targs) (g : PyGen) (h : NpGen) : tstart :=
    if ((0 <=? t_seed a) && (2 ^ 32 <=? t_seed a))%Z then SeedError
    else
      let (g1, h1) := if (0 <=? t_seed a)%Z then (random_seed (t_seed a), np_seed (t_seed a)) else (g, h) in
      let (delta, g2) := if t_randomize a then uniform (1 # 100) (2 # 10) g1 else (t_delta a, g1) in
      Start delta (if t_adaptive a then t_max a - 1 else t_min a) (t_max a) g2 h1.
End Turtle.
