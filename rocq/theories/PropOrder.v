(** Property C53: the hash iteration order does not influence the transition system. *)
From Verif Require Import Base Formulas FormulaLogic Aig AigParse Fsts Spec SpecText SpecAig SpecAiger SpecFsts
  AigThms OrderThms.
Open Scope N_scope.

(* ------------------------------------------------------------------------ C53 *)

(** For every graph, also one that no file describes. *)
Theorem C53_from_aig_deterministic :
  forall b o1 o2 a flag, order_ok o1 -> order_ok o2 ->
  same_outcome same_system (from_aig b o1 a flag) (from_aig b o2 a flag).
Proof. exact from_aig_order. Qed.
Print Assumptions C53_from_aig_deterministic.

(** The hash sets differ in order, the systems are the same. *)
Example C53_case :
  let c := mkCircuit 2 [(10, 0); (13, 1)] [] [12] [] [(4, 2); (11, 6)] in
  exists a s1 s2, from_vector_of_bytes (encode ex_style c) = Ok a /\
    from_aig Debug (fun l => l) a false = Ok s1 /\ from_aig Debug (@rev _) a false = Ok s2 /\
    cnf_clauses (get_transition_relation s1) <> cnf_clauses (get_transition_relation s2) /\
    cnf_eqb (get_transition_relation s1) (get_transition_relation s2) = true.
Proof.
  do 3 eexists. do 3 (split; [vm_compute; reflexivity|]). split; [vm_compute; discriminate|].
  vm_compute. reflexivity.
Qed.
