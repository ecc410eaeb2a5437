(** Further theorems on the trial jobs (C159), the directories of a run (C160) and the hollow bodies (C162) *)
From Coq Require Import Reals List Bool Arith ZArith String Ascii Lra Lia.
From Verif Require Import Log_Model Submit_Model Box_Model Bin_Model Bin_Props KukaWorld_Model KukaWorld_Props Shell_Model Shell_Props Job_Model JobErr_Props.
Import ListNotations.
Open Scope string_scope.

(** ** C159 *)
(** A job that ends without an exception was given two numbers and the name of a file that holds a dictionary. *)
Theorem finished_job trial draw skip k files argv cs : run_job trial draw skip k files argv = (cs, Finished) ->
  exists script t n cfg save rest a b config, argv = (script :: t :: n :: cfg :: save :: rest)%list /\
    py_int t = Some a /\ py_int n = Some b /\ files cfg = Some (Json config) /\
    schedule trial draw skip k config a b save = (cs, Finished).
Proof.
  unfold run_job, arguments, int_arg, arg. unfold Job_Model.bind.
  destruct argv as [|script [|t [|n [|cfg [|save rest]]]]]; cbn [nth_error]; try discriminate;
    destruct (py_int t) as [a|] eqn:A; try discriminate; destruct (py_int n) as [b|] eqn:B; try discriminate.
  destruct (files cfg) as [[config| |?]|] eqn:F; try discriminate. intros H.
  exists script, t, n, cfg, save, rest, a, b, config. auto 10.
Qed.
Print Assumptions finished_job.
(** Without the file nothing is run. *)
Theorem missing_config trial draw skip k files argv cfg : nth_error argv 3 = Some cfg -> files cfg = None ->
  exists e, run_job trial draw skip k files argv = ([], Raised e).
Proof.
  intros C F. destruct (run_job trial draw skip k files argv) as [cs f] eqn:E. revert E. unfold run_job.
  destruct (arguments argv) as [[[a b] [c s]]|e] eqn:A; [|intros [= <- <-]; eauto].
  assert (c = cfg).
  { revert A. unfold arguments, int_arg, arg. unfold Job_Model.bind. rewrite C.
    destruct (nth_error argv 1) as [t|]; [|discriminate]. destruct (py_int t); [|discriminate].
    destruct (nth_error argv 2) as [n|]; [|discriminate]. destruct (py_int n); [|discriminate].
    destruct (nth_error argv 4); [|discriminate]. congruence. }
  subst c. rewrite F. intros [= <- <-]. eauto.
Qed.
Print Assumptions missing_config.
Example missing_config_ex : run_job (fun _ => true) (fun _ i => i) (fun _ => None) Knn (fun _ => None) ["run.py"; "0"; "2"; "config.json"; "out"] = ([], Raised NoFile).
Proof. reflexivity. Qed.
Example finished_job_ex : let config := [("dims_to_test", JList []); ("n_trials", JInt 3)] in
  run_job (fun _ => true) (fun _ i => i) (fun _ => None) Knn (fun p => if String.eqb p "config.json" then Some (Json config) else None) ["run.py"; "0"; "2"; "config.json"; "out"] = ([], Finished).
Proof. reflexivity. Qed.

(** ** C160 *)
(** the path of [b] seen from the directory [a]: an absolute path is taken as it is *)
Definition path_from (a b path : string) : Prop :=
  (exists r, b = "/" ++ r) /\ path = b \/ ~ (exists r, b = "/" ++ r) /\ in_directory a b path.
Lemma prefix_slash b : String.prefix "/" b = true <-> exists r, b = "/" ++ r.
Proof.
  destruct b as [|c b]; cbn [String.prefix]; [split; [discriminate|intros (r & E); discriminate E]|]. destruct (ascii_dec "/" c) as [<-|N].
  - split; [intros _; exists b; reflexivity|]. destruct b; reflexivity.
  - split; [discriminate|]. intros (r & E). exfalso. apply N. cbn in E. injection E. congruence.
Qed.
Lemma ends_slash_snoc a c : ends_slash (a ++ String c "") = Ascii.eqb c "/".
Proof. induction a as [|x a IH]; [reflexivity|]. cbn [append ends_slash]. rewrite IH. destruct (a ++ String c "") eqn:E; [destruct a; discriminate|reflexivity]. Qed.
Lemma path_join_join a b : String.prefix "/" b = false -> path_join a b = join a b.
Proof.
  intros P. unfold path_join, join. rewrite P. destruct (string_snoc a) as [->|(x & c & ->)]; [reflexivity|].
  assert (N : x ++ String c "" <> "") by (destruct x; discriminate). apply String.eqb_neq in N as N'. rewrite N', last_slash, ends_slash_snoc. cbn [orb].
  destruct (Ascii.eqb_spec c "/") as [->|E]; [reflexivity|].
  destruct (String.eqb_spec (String c "") "/") as [F|F]; [injection F; congruence|reflexivity].
Qed.
Lemma path_from_exact a b path : path_join a b = path <-> path_from a b path.
Proof.
  unfold path_from. rewrite <- prefix_slash. destruct (String.prefix "/" b) eqn:P.
  - unfold path_join. rewrite P. split; [auto|]. intros [[_ ->]|[H _]]; congruence.
  - rewrite path_join_join, join_exact by exact P. split; [right; split; [congruence|auto]|]. intros [[H _]|[_ H]]; [congruence|auto].
Qed.
(** The directories of a run lie where the arguments say, and nothing else is made. *)
Theorem run_directories existing d name dir pddl : path_from d name dir -> path_from dir "pddl" pddl ->
  (In pddl existing -> make_dirs existing d name = None) /\
  (~ In pddl existing -> exists after, make_dirs existing d name = Some (dir, after) /\ forall p, In p after <-> In p existing \/ p = dir \/ p = pddl).
Proof.
  rewrite <- !path_from_exact. intros D P. pose proof (run_starts_exact existing d name) as H. destruct (make_dirs existing d name) as [[dir' after]|].
  - destruct H as (-> & N & A). rewrite D, P in *. split; [contradiction|]. intros _. exists after. auto.
  - rewrite D, P in H. split; [auto|contradiction].
Qed.
Print Assumptions run_directories.
Example run_directories_ex : path_from "./logs/debug" "1.5" "./logs/debug/1.5" /\ path_from "./logs/debug/1.5" "pddl" "./logs/debug/1.5/pddl" /\
  path_from "runs/" "1.5" "runs/1.5" /\ path_from "runs" "/tmp/x" "/tmp/x".
Proof. rewrite <- !path_from_exact. repeat split. Qed.

(** ** C162 *)
Local Open Scope R_scope.
(** the sides of the block at which each category has a wall: axis and direction *)
Inductive wall_of : string -> nat -> Z -> Prop :=
| tray_sides i s : (i < 2)%nat -> wall_of "tray" i s
| tray_bottom : wall_of "tray" 2 (-1)
| bin_sides i s : (i < 2)%nat -> wall_of "bin" i s
| bin_bottom : wall_of "bin" 2 (-1)
| cubby_back : wall_of "cubby" 0 (-1)
| cubby_rest i s : i = 1%nat \/ i = 2%nat -> wall_of "cubby" i s
| fence_sides i s : (i < 2)%nat -> wall_of "fence" i s
| x_sides s : wall_of "x_walls" 0 s
| x_bottom : wall_of "x_walls" 2 (-1)
| y_sides s : wall_of "y_walls" 1 s
| y_bottom : wall_of "y_walls" 2 (-1).
(** A body of a category fills the part of its block within the thickness of the category's sides. *)
Theorem category_walls category color w l h t ls oobbs : create_hollow category color w l h t = KukaWorld_Model.Ok (ls, oobbs) ->
  0 <= t -> t <= w -> t <= l -> t <= h ->
  forall p, in_walls oobbs p <-> in_block w l h p /\ exists i s, wall_of category i s /\ (i < 3)%nat /\ near_face w l h t i s p.
Proof.
  intros E T W L H.
  assert (C : exists indices, KukaWorld_Model.lookup category shape_indices = Some indices /\ create_hollow_shapes indices w l h t = Some oobbs).
  { revert E. unfold create_hollow. destruct (KukaWorld_Model.lookup category shape_indices) as [indices|]; [|discriminate]. intros E. exists indices. split; [reflexivity|].
    destruct (create_hollow_shapes indices w l h t) as [[|o os]|]; try discriminate.
    destruct (create_link_body _ _ None); [|discriminate]. injection E as _ <-. reflexivity. }
  destruct C as (indices & K & S). clear E.
  assert (G : List.length indices = 3%nat /\ (forall signs s, In signs indices -> In s signs -> s = (-1)%Z \/ s = 1%Z) /\
              forall i s, (i < 3)%nat -> (s = (-1)%Z \/ s = 1%Z) -> (In s (nth i indices []) <-> wall_of category i s)).
  { revert K. unfold shape_indices. cbn [KukaWorld_Model.lookup].
    repeat match goal with |- context [String.eqb category ?c] => destruct (String.eqb_spec category c) as [->|_] end; intros [= <-]; (split; [reflexivity|]);
      (split; [intros signs s [<-|[<-|[<-|[]]]]; cbn; intros; intuition lia|]); intros i s I D;
      (destruct i as [|[|[|i]]]; [| | |lia]); destruct D as [-> | ->]; cbn; split; intros Q;
      try (now (constructor; lia)); try (decompose [or] Q; try contradiction; lia || discriminate); auto; try (inversion Q; subst; lia). }
  destruct G as (G1 & G2 & G3). destruct (hollow_shape_exact indices w l h t G1 G2 T W L H) as (ws & E & _ & X). rewrite S in E. injection E as <-.
  intros p. rewrite X. apply and_iff_compat_l. split; intros (i & s & A & B & C); exists i, s.
  - split; [|auto]. apply G3; auto. destruct C as [[-> _]|[-> _]]; auto.
  - destruct (G3 i s) as [_ G]; auto. destruct C as [[-> _]|[-> _]]; auto.
Qed.
Print Assumptions category_walls.
(** the low side in y of a body "x_walls" is open, the low side in x is not *)
Example category_walls_ex : exists ls oobbs, create_hollow "x_walls" default_colour 2 2 1 (1/10) = KukaWorld_Model.Ok (ls, oobbs) /\
  in_walls oobbs (vec3 (-1) 0 (1/2)) /\ ~ in_walls oobbs (vec3 0 (-1) (1/2)).
Proof.
  destruct (proj1 (category_outcomes "x_walls" default_colour 2 2 1 (1/10))) as (ls & os & E); [cbn; tauto|]. exists ls, os. split; [exact E|].
  rewrite !(category_walls _ _ _ _ _ _ _ _ E) by lra. split.
  - split; [intros i Hi; destruct i as [|[|[|]]]; cbn; lra || lia|]. exists 0%nat, (-1)%Z. split; [constructor|]. split; [lia|]. left. cbn. split; [reflexivity|lra].
  - intros (_ & i & s & V & I & N). inversion V; subst; destruct N as [[? N]|[? N]]; cbn in N; try lra; discriminate.
Qed.
