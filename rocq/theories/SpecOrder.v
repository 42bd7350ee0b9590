(** Specification of the order of literals and of the lexicographic order of sequences of them. *)
From Verif Require Import Base Spec.
Open Scope N_scope.

(** By variable; the negated literal of a variable comes after the other one. *)
Definition lit_before (l l' : N) : Prop :=
  lit_var l < lit_var l' \/ lit_var l = lit_var l' /\ lit_neg l = false /\ lit_neg l' = true.

(** The first difference decides; a proper prefix comes first. *)
Definition seq_before (x y : list N) : Prop :=
  (exists p l l' x' y', x = p ++ l :: x' /\ y = p ++ l' :: y' /\ lit_before l l') \/
  exists l' y', y = x ++ l' :: y'.
