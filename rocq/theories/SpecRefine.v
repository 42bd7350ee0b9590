(** Specification: a circuit that does whatever another one does (C69). *)
From Verif Require Import Base Aig Spec SpecAig.
Open Scope N_scope.

(** A relation between the values of the variables of two circuits under which the second one can follow the first
    clock by clock and is bad whenever the first one is. *)
Definition follows (c1 : circuit) (flag1 : bool) (c2 : circuit) (flag2 : bool) (R : valuation -> valuation -> Prop) : Prop :=
  (forall w1, wires_ok c1 w1 -> initial_values c1 w1 ->
     exists w2, wires_ok c2 w2 /\ initial_values c2 w2 /\ R w1 w2) /\
  (forall w1 w1' w2, wires_ok c1 w1 -> wires_ok c1 w1' -> step_values c1 w1 w1' -> wires_ok c2 w2 -> R w1 w2 ->
     exists w2', wires_ok c2 w2' /\ step_values c2 w2 w2' /\ R w1' w2') /\
  (forall w1 w2, wires_ok c1 w1 -> wires_ok c2 w2 -> R w1 w2 -> is_bad c1 flag1 w1 -> is_bad c2 flag2 w2).
