(** Property C58: the derived orders of literals, clauses and cubes. *)
From Verif Require Import Base Formulas Spec SpecOrder CmpThms.
Open Scope N_scope.

(* ------------------------------------------------------------------------ C58 *)

Theorem C58_literal_order :
  forall l l',
  (literal_cmp l l' = Lt <-> lit_before l l') /\ (literal_cmp l l' = Eq <-> l = l') /\
  (literal_cmp l l' = Gt <-> lit_before l' l).
Proof. exact literal_cmp_exact. Qed.
Print Assumptions C58_literal_order.

(** Consistent with equality, antisymmetric, transitive, total; lexicographic on the sorted
    literals. *)
Theorem C58_clause_order :
  forall a b d,
  (clause_cmp a b = Eq <-> clause_eqb a b = true) /\
  clause_cmp b a = CompOpp (clause_cmp a b) /\
  (clause_cmp a b = Lt -> clause_cmp b d = Lt -> clause_cmp a d = Lt) /\
  (clause_cmp a b = Lt <-> seq_before (clause_iter a) (clause_iter b)).
Proof. exact clause_cmp_order. Qed.
Print Assumptions C58_clause_order.

Theorem C58_cube_order :
  forall a b d,
  (cube_cmp a b = Eq <-> cube_eqb a b = true) /\
  cube_cmp b a = CompOpp (cube_cmp a b) /\
  (cube_cmp a b = Lt -> cube_cmp b d = Lt -> cube_cmp a d = Lt) /\
  (cube_cmp a b = Lt <-> seq_before (cube_iter a) (cube_iter b)).
Proof. exact cube_cmp_order. Qed.
Print Assumptions C58_cube_order.

(** x3 < !x3 < x4, and {x3, x4} < {x3, x4, x5} < {!x3}, whatever the order of the arguments. *)
Example C58_case :
  literal_cmp 6 7 = Lt /\ literal_cmp 7 8 = Lt /\
  clause_cmp (clause_new [8; 6]) (clause_new [10; 6; 8]) = Lt /\
  clause_cmp (clause_new [10; 6; 8]) (clause_new [7]) = Lt /\
  clause_cmp (clause_new [8; 6]) (clause_new [7]) = Lt /\
  clause_cmp (clause_new [8; 6]) (clause_new [6; 8]) = Eq /\
  cube_cmp (cube_new [7]) (cube_new [8; 6]) = Gt /\
  seq_before (clause_iter (clause_new [8; 6])) (clause_iter (clause_new [7])).
Proof.
  do 7 (split; [vm_compute; reflexivity|]). left. exists [], 6, 7, [8], [].
  split; [reflexivity|]. split; [reflexivity|]. right. repeat split.
Qed.
