(** Meaning of STRIPS states and effects, shared by the models of the two planning domains
    exps/tamp_environment/*/domain.pddl (requirements :strips :equality): a state is the set of
    fluents that hold, a conjunction of fluents is tested one by one, and an effect first
    deletes and then adds. *)
From Coq Require Import List Bool.
Import ListNotations.

Section Strips.
Variable fluent : Type.
Variable eqb : fluent -> fluent -> bool.
Definition mem (f : fluent) (l : list fluent) : bool := existsb (eqb f) l.
Definition holds (s : fluent -> bool) (l : list fluent) : bool := forallb s l.
Definition update (s : fluent -> bool) (add del : list fluent) : fluent -> bool :=
  fun f => mem f add || (s f && negb (mem f del)).
End Strips.

Lemma mem_in fluent eqb (E : forall a b, eqb a b = true <-> a = b) f l : mem fluent eqb f l = true <-> In f l.
Proof.
  unfold mem. rewrite existsb_exists. split; [intros (x & Hx & Ex); apply E in Ex; subst; auto|]. intro Hi. exists f. split; auto. now apply E.
Qed.
Lemma update_in fluent eqb (E : forall a b, eqb a b = true <-> a = b) s ad de f :
  update fluent eqb s ad de f = true <-> In f ad \/ (s f = true /\ ~ In f de).
Proof. unfold update. rewrite orb_true_iff, andb_true_iff, negb_true_iff, <- not_true_iff_false, !(mem_in fluent eqb E). tauto. Qed.
