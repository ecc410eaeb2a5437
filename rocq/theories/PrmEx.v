(** A concrete setting for the examples and refutations about roadmaps: configurations are
    integers on a line, the distance is the absolute difference. *)
From Coq Require Import Arith List QArith ZArith Bool Lia Lqa.
From Verif Require Import NkGraph_Model NkGraph_Spec Prm_Model Prm_Spec Sp_Oracle PrmAnn_Inst.
Import ListNotations.
Close Scope Q_scope.

Definition zdist (a b : Z) : Q := inject_Z (Z.abs (a - b)).
Lemma zdist_nonneg a b : (0 <= zdist a b)%Q.
Proof. unfold zdist, Qle. simpl. lia. Qed.
Lemma zdist_sym a b : (zdist a b == zdist b a)%Q.
Proof. unfold zdist, Qeq. simpl. lia. Qed.

(** every motion is valid *)
Definition free (a b : Z) : bool := true.
(** a wall at 5: motions may not cross it *)
Definition wall5 (a b : Z) : bool := Bool.eqb (a <? 5)%Z (b <? 5)%Z.
(** only motions to the right are valid *)
Definition rightward (a b : Z) : bool := (a <=? b)%Z.

(** the dummy draw of the constructor, then the given states *)
Definition stream (l : list Z) (i : nat) : Z := nth i (0%Z :: l) 0%Z.

Definition zann := brute_ann zdist.
Definition edges_of (og : option graph) : list (nat * nat * Q) :=
  match og with Some g => edge_list g | None => [] end.
