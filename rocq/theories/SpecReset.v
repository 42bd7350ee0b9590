(** Specification: a circuit in which some latches without initial value were given one (C68). *)
From Verif Require Import Base Formulas FormulaLogic Aig Spec SpecAig SpecAlg.
Open Scope N_scope.

(** [c'] is [c] with other reset values: latches with reset value 0 or 1 in [c] have the same one in [c'], latches
    without one in [c] are free to have one in [c']. *)
Definition fixes (c' c : circuit) : Prop :=
  c_inputs c' = c_inputs c /\ c_ands c' = c_ands c /\ c_outputs c' = c_outputs c /\ c_bad c' = c_bad c /\
  map fst (c_latches c') = map fst (c_latches c) /\
  forall v next reset, latch c v next reset -> reset = 2 * v \/ latch c' v next reset.

(** [c'] is [c] with initial values for some latches, taken from the assignment of a counterexample. *)
Definition started_as (c' c : circuit) (asg : Assignment) : Prop :=
  fixes c' c /\
  forall v next reset, latch c' v next reset ->
    (reset = 0 -> value_of asg v = false) /\ (reset = 1 -> value_of asg v = true).
