(** Property C50: what a debug build returns, a release build returns. *)
From Verif Require Import Base Formulas FormulaLogic Aig AigParse Fsts Bmc Solvers Ic3 Pdr Brute
  Spec SpecText SpecAig SpecAiger SpecFsts SpecAlg SpecSolver SpecBuild AigThms FstsThms BmcThms Ic3Thms BuildFacts.
Open Scope N_scope.

(** The same graph and hash order give the same transition system. *)
Theorem C50_systems :
  forall order a flag,
  same_in_release (from_aig Debug order a flag) (from_aig Release order a flag).
Proof. exact release_system. Qed.
Print Assumptions C50_systems.

Theorem C50_values :
  forall n v,
  same_in_release (literal_new Debug n) (literal_new Release n) /\
  same_in_release (from_dimacs_assignment Debug v) (from_dimacs_assignment Release v).
Proof. exact release_values. Qed.
Print Assumptions C50_values.

Theorem C50_features :
  forall s f q d asg k,
  same_in_release (add_tags_to_relation Debug s f k) (add_tags_to_relation Release s f k) /\
  same_in_release (add_tags_to_cube Debug s q k) (add_tags_to_cube Release s q k) /\
  same_in_release (add_tags_to_clause Debug s d k) (add_tags_to_clause Release s d k) /\
  same_in_release (extract_state_from_assignment Debug s asg)
    (extract_state_from_assignment Release s asg).
Proof. exact release_features. Qed.
Print Assumptions C50_features.

Theorem C50_stateless_solvers :
  forall T T' n f, stateless_builds T T' -> same_in_release (T n f) (T' n f).
Proof. exact release_solve_cnf. Qed.
Print Assumptions C50_stateless_solvers.

(** Every history of calls on one object gets the same answers. *)
Theorem C50_stateful_solvers :
  forall SS TT h calls, stateful_builds SS TT ->
  same_in_release (answers SS (ss_new SS h) calls) (answers TT (ss_new TT h) calls).
Proof. exact release_answers. Qed.
Print Assumptions C50_stateful_solvers.

Theorem C50_formula_logic :
  forall T T' order f g, stateless_builds T T' ->
  same_in_release (does_a_imply_b T order f g) (does_a_imply_b T' order f g) /\
  same_in_release (is_a_and_b_satisfiable T f g) (is_a_and_b_satisfiable T' f g).
Proof. exact release_implies. Qed.
Print Assumptions C50_formula_logic.

Theorem C50_check_invariant :
  forall T1 T1' T2 T2' T3 T3' o1 o2 s inv,
  stateless_builds T1 T1' -> stateless_builds T2 T2' -> stateless_builds T3 T3' ->
  same_in_release (check_invariant Debug T1 T2 T3 o1 o2 s inv)
    (check_invariant Release T1' T2' T3' o1 o2 s inv).
Proof. exact release_check. Qed.
Print Assumptions C50_check_invariant.

Theorem C50_bmc :
  forall T T' clk s limit, stateless_builds T T' ->
  same_in_release (bmc_search Debug T clk s limit) (bmc_search Release T' clk s limit).
Proof. exact release_bmc. Qed.
Print Assumptions C50_bmc.

Theorem C50_ic3_stateless :
  forall T T' R fuel s, stateless_builds T T' ->
  same_in_release (ic3_stateless Debug R T fuel s) (ic3_stateless Release R T' fuel s).
Proof. exact release_ic3_stateless. Qed.
Print Assumptions C50_ic3_stateless.

Theorem C50_ic3_stateful :
  forall SS TT R fuel s, stateful_builds SS TT ->
  same_in_release (ic3_stateful Debug R SS fuel s) (ic3_stateful Release R TT fuel s).
Proof. exact release_ic3_stateful. Qed.
Print Assumptions C50_ic3_stateful.

Theorem C50_pdr :
  forall SS TT R fuel s, stateful_builds SS TT ->
  same_in_release (pdr Debug R SS fuel s) (pdr Release R TT fuel s).
Proof. exact release_pdr. Qed.
Print Assumptions C50_pdr.

(** Debug runs that return, over the shipped adapters. *)
Example C50_case :
  let mini := minisat_stateful Debug ref_minisat (fun l => l) in
  let splr := splr_solve_cnf Debug ref_splr (fun l => l) in
  exists s asg d1 d2 inv, fsts_of Debug differ_circuit false = Ok s /\
    bmc_search Debug splr (mkClock (fun _ => false) (fun _ => false)) s 2 = Ok (NoCTX 2) /\
    ic3_stateless Debug no_random splr 20 s = Ok (Proof d1) /\
    ic3_stateful Debug no_random mini 20 s = Ok (Proof d2) /\
    pdr Debug no_random mini 2500 s = Ok (Proof inv) /\
    splr 0%nat (cube_to_cnf (cube_new [2])) = Ok (Sat asg) /\
    answers mini (ss_new mini HintNone)
      [CallAdd (cube_to_cnf (cube_new [2])); CallSolve (Some (cube_new [3])) None] = Ok [UnSat].
Proof.
  cbv zeta. do 5 eexists. do 6 (split; [vm_compute; reflexivity|]). vm_compute; reflexivity.
Qed.

(** The converse fails: a release build also returns where a debug build panics. *)
Example C50_converse_fails :
  literal_new Debug 0 = Panic /\ literal_new Release 0 = Ok 0 /\
  bmc_search Debug brute (mkClock (fun _ => true) (fun _ => true))
    (mkFSTS [] (cube_new []) cnf_new cnf_new (clause_new []) 1 [] [] [] []) 4294967295 = Panic.
Proof. do 2 (split; [vm_compute; reflexivity|]). vm_compute; reflexivity. Qed.
