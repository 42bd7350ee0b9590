(** What the invariant in the result of a prover may consist of. *)
From Verif Require Import Base Formulas Fsts Spec SpecAig SpecFsts.
Open Scope N_scope.

(** The clauses are clauses about latches, the clauses that say what the gates below the bad literals compute, and
    one clause for every bad literal that excludes it; all of the latter two kinds are there. *)
Definition clauses_of_invariant (c : circuit) (flag : bool) (s : FSTS) (inv : CNF) : Prop :=
  (forall d, In d (cnf_clauses inv) ->
     clause_vars (is_latch c) d \/ In d (cnf_clauses (get_state_to_safety_translation s)) \/
     exists l, In l (bad_literals c flag) /\ d = clause_new [literal_not l]) /\
  (forall d, In d (cnf_clauses (get_state_to_safety_translation s)) -> In d (cnf_clauses inv)) /\
  (forall l, In l (bad_literals c flag) -> In (clause_new [literal_not l]) (cnf_clauses inv)).

(** Where the gates have their right values, the formula says: the state satisfies the clauses [f] about latches, and
    no bad literal is true. *)
Definition state_and_not_bad (c : circuit) (flag : bool) (inv : CNF) : Prop :=
  exists f, cnf_vars (is_latch c) f /\ incl (cnf_clauses f) (cnf_clauses inv) /\
    forall w, wires_ok c w -> (cnf_true w inv <-> cnf_true w f /\ ~ is_bad c flag w).

(** [check_invariant] accepts the formula for a system, in either build and with any solvers. *)
Definition accepted_for (s : FSTS) (inv : CNF) : Prop :=
  forall b T1 T2 T3 o1 o2,
  solver_correct_below 2147483647 T1 -> solver_correct_below 2147483647 T2 -> solver_correct_below 2147483647 T3 ->
  order_ok o1 -> order_ok o2 -> check_invariant b T1 T2 T3 o1 o2 s inv = Ok tt.

(** A CNF built with the API whose variables can be copied to the next time frame. *)
Definition candidate_fits (c : circuit) (inv : CNF) : Prop :=
  api_cnf inv /\ cnf_vars (fun v => 1 <= v /\ v + c_max c < 2147483647) inv.

(** One call of [check_invariant] accepted the formula, in some build, with some solvers that do not lie. *)
Definition accepted_once (s : FSTS) (inv : CNF) : Prop :=
  exists b T1 T2 T3 o1 o2,
  solver_sound_below 2147483647 T1 /\ solver_sound_below 2147483647 T2 /\ solver_sound_below 2147483647 T3 /\
  order_ok o1 /\ order_ok o2 /\ check_invariant b T1 T2 T3 o1 o2 s inv = Ok tt.
