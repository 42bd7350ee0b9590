(** Property C52: printing of literals, clauses and cubes. *)
From Verif Require Import Base Formulas Spec SpecText FormulaThms DisplayThms TextFacts.
Open Scope N_scope.

(* ------------------------------------------------------------------------ C52 *)

Theorem C52_literal_readable :
  forall l, read_integer (literal_display l) = Some (dimacs_int l).
Proof. exact read_integer_literal. Qed.
Print Assumptions C52_literal_readable.

Theorem C52_literal_injective :
  forall l l', lit_legal l -> lit_legal l' -> (literal_display l = literal_display l' <-> l = l').
Proof. exact literal_display_eq. Qed.
Print Assumptions C52_literal_injective.

Theorem C52_clause_readable :
  forall ls, Forall lit_legal ls ->
  exists zs, read_clause_line (clause_display (clause_new ls)) = Some zs /\
    Permutation zs (map dimacs_int ls).
Proof. exact clause_display_read. Qed.
Print Assumptions C52_clause_readable.

Theorem C52_clause_injective :
  forall l1 l2, Forall lit_legal l1 -> Forall lit_legal l2 ->
  (clause_display (clause_new l1) = clause_display (clause_new l2) <-> Permutation l1 l2).
Proof. exact clause_display_eq. Qed.
Print Assumptions C52_clause_injective.

(** A cube prints as a DIMACS formula with one unit clause for each distinct literal ... *)
Theorem C52_cube_readable :
  forall order ls, order_ok order -> Forall lit_legal ls ->
  exists m n cs, read_dimacs (cube_display order (cube_new ls)) = Some (m, n, cs) /\
    NoDup cs /\ n = lenN cs /\
    (forall zs, In zs cs <-> exists l, In l ls /\ zs = [dimacs_int l]) /\
    (forall l, In l ls -> lit_var l <= m) /\
    (m = 0 \/ exists l, In l ls /\ m = lit_var l).
Proof. exact cube_display_read. Qed.
Print Assumptions C52_cube_readable.

(** ... so the text tells cubes apart up to repeated literals. *)
Theorem C52_cube_injective :
  forall o1 o2 l1 l2, order_ok o1 -> order_ok o2 -> Forall lit_legal l1 -> Forall lit_legal l2 ->
  (cube_display o1 (cube_new l1) = cube_display o2 (cube_new l2) <-> forall l, In l l1 <-> In l l2).
Proof. exact cube_display_eq. Qed.
Print Assumptions C52_cube_injective.

(** The repeated literal is in the clause's text and in the cube's length, not in its text. *)
Example C52_case :
  Forall lit_legal [25; 4; 4] /\ order_ok (@rev Clause) /\
  clause_display (clause_new [25; 4; 4]) = [50; 32; 50; 32; 45; 49; 50; 32; 48] /\
  clause_display (clause_new [25; 4]) = [50; 32; 45; 49; 50; 32; 48] /\
  read_dimacs (cube_display (@rev Clause) (cube_new [25; 4; 4])) = Some (12, 2, [[2]; [-12]]%Z) /\
  cube_display (@rev Clause) (cube_new [25; 4; 4]) = cube_display (fun l => l) (cube_new [4; 25]) /\
  cube_eqb (cube_new [25; 4; 4]) (cube_new [4; 25]) = false.
Proof.
  split; [repeat (constructor; [split; vm_compute; congruence|]); constructor|].
  split; [intros l; apply Permutation_sym, Permutation_rev|].
  do 4 (split; [vm_compute; reflexivity|]). vm_compute; reflexivity.
Qed.
