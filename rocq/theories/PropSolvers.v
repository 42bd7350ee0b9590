(** Properties C11 - C13: the adapters between CNFs and third-party SAT engines. *)
From Verif Require Import Base Formulas FormulaLogic Solvers Brute Spec SpecSolver
  SolverFacts StatefulFacts CadicalFacts RefEngines.
Open Scope N_scope.

(* ------------------------------------------------------------------------ C11 *)

(** CaDiCaL: for formulas without the variable 2^31 - 1 ... *)
Theorem C11_cadical_partial :
  forall b E order, order_ok order -> cadical_ok E ->
  solver_correct_below 2147483647 (cadical_solve_cnf b E order) /\
  solver_total_below 2147483647 (cadical_solve_cnf b E order).
Proof. exact (fun b E order Ho HE => conj (cadical_correct b E order Ho HE) (cadical_total b E order Ho HE)). Qed.
Print Assumptions C11_cadical_partial.

(** ... because [max_variable() + 1] overflows there: a debug build panics and a release build
    returns an assignment that does not satisfy the formula, whatever the engine. *)
Theorem C11_cadical_refuted :
  forall E order, order_ok order -> cadical_ok E ->
  exists f, api_cnf f /\ cnf_legal f /\ satisfiable (cnf_clauses f) /\
    (forall n, cadical_solve_cnf Debug E order n f = Panic) /\
    (forall n, exists asg, cadical_solve_cnf Release E order n f = Ok (Sat asg) /\
       ~ satisfies_clauses asg (cnf_clauses f)).
Proof. exact cadical_top_wrong. Qed.
Print Assumptions C11_cadical_refuted.

(** In a debug build every answer that is given is right. *)
Theorem C11_cadical_debug_sound :
  forall E order, order_ok order -> cadical_ok E ->
  solver_sound_below 2147483648 (cadical_solve_cnf Debug E order).
Proof. exact cadical_debug_sound. Qed.
Print Assumptions C11_cadical_debug_sound.

Theorem C11_splr :
  forall b E order, order_ok order -> splr_ok E ->
  solver_correct (splr_solve_cnf b E order) /\ solver_total (splr_solve_cnf b E order).
Proof. exact (fun b E order Ho HE => conj (splr_correct b E order Ho HE) (splr_total b E order Ho HE)). Qed.
Print Assumptions C11_splr.

Theorem C11_varisat :
  forall b E order, order_ok order -> varisat_ok E ->
  solver_correct (varisat_solve_cnf b E order).
Proof. exact varisat_correct. Qed.
Print Assumptions C11_varisat.

Example C11_case :
  cadical_ok ref_cadical /\ splr_ok ref_splr /\ varisat_ok ref_varisat /\
  order_ok (fun l : list Clause => l) /\
  let f := run_history (H_add (H_add H_new [2; 9]) [3]) in
  cadical_solve_cnf Debug ref_cadical (fun l => l) 0%nat f = Ok (Sat (mkAssignment [] [1; 2; 3; 4])) /\
  splr_solve_cnf Debug ref_splr (fun l => l) 0%nat f = Ok (Sat (mkAssignment [] [1; 2; 3; 4])) /\
  varisat_solve_cnf Debug ref_varisat (fun l => l) 0%nat (cnf_add_clause f (clause_new [8])) = Ok UnSat.
Proof.
  split; [exact ref_cadical_ok|]. split; [exact ref_splr_ok|]. split; [exact ref_varisat_ok|].
  split; [intros l; reflexivity|]. repeat split; vm_compute; reflexivity.
Qed.

(* ------------------------------------------------------------------------ C12 *)

Theorem C12_minisat_stateful :
  forall b E order, order_ok order -> minisat_ok E ->
  stateful_correct (minisat_stateful b E order).
Proof. exact minisat_stateful_correct. Qed.
Print Assumptions C12_minisat_stateful.

(** add {1}; solve under cube {-1}: no; solve with clause {-1, 3}: yes; solve: yes. *)
Example C12_case :
  minisat_ok ref_minisat /\
  let S := minisat_stateful Debug ref_minisat (fun l => l) in
  exists st1 st2 st3 st4 asg asg',
    ss_add_cnf S (ss_new S HintNone) (run_history (H_add H_new [2])) = Ok st1 /\
    ss_solve S st1 (Some (cube_new [3])) None = Ok (UnSat, st2) /\
    ss_solve S st2 None (Some (clause_new [3; 6])) = Ok (Sat asg, st3) /\
    get_value asg 3 = Some true /\
    ss_solve S st3 (Some (cube_new [7])) None = Ok (Sat asg', st4).
Proof.
  split; [exact ref_minisat_ok|]. cbv zeta. do 6 eexists. repeat split; vm_compute; reflexivity.
Qed.

(* ------------------------------------------------------------------------ C13 *)

(** Within a budget: largest variable plus number of temporary clauses at most 2^31 - 3.
    Models are defined everywhere if the engine gives a value to every variable it has seen. *)
Theorem C13_cadical_stateful_partial :
  forall b E order, order_ok order -> cadical_ok E ->
  stateful_within 2147483645 (cadical_values E) (cadical_stateful b E order).
Proof. exact cadical_stateful_within. Qed.
Print Assumptions C13_cadical_stateful_partial.

(** The budget is exact in debug builds, because [new_literal] is an [i32]: a formula with a
    variable from 2^31 - 2 on makes [add_cnf] panic, ... *)
Theorem C13_cadical_stateful_variable_refuted :
  forall E order h f, cnf_max f >= 2147483646 ->
  ss_add_cnf (cadical_stateful Debug E order) (ss_new (cadical_stateful Debug E order) h) f = Panic.
Proof. exact cadical_stateful_large. Qed.
Print Assumptions C13_cadical_stateful_variable_refuted.

(** ... and after 2^31 - 4 temporary clauses over one variable the next one makes [solve]
    panic. *)
Theorem C13_cadical_stateful_history_refuted :
  forall E order, order_ok order -> cadical_ok E ->
  exists st, reaches_using (cadical_stateful Debug E order) st [] 1 2147483644 /\
    ss_solve (cadical_stateful Debug E order) st None (Some (clause_new [2])) = Panic.
Proof. exact cadical_stateful_many. Qed.
Print Assumptions C13_cadical_stateful_history_refuted.

(** In a debug build every answer that is given is right, without any budget. *)
Theorem C13_cadical_stateful_debug_sound :
  forall E order, order_ok order -> cadical_ok E ->
  stateful_sound (cadical_stateful Debug E order).
Proof. exact cadical_stateful_debug_sound. Qed.
Print Assumptions C13_cadical_stateful_debug_sound.

Example C13_case :
  cadical_ok ref_cadical /\ cadical_values ref_cadical /\
  let S := cadical_stateful Debug ref_cadical (fun l => l) in
  exists st1 st2 st3 st4 asg asg',
    ss_add_cnf S (ss_new S HintNone) (run_history (H_add H_new [2])) = Ok st1 /\
    ss_solve S st1 (Some (cube_new [3])) None = Ok (UnSat, st2) /\
    ss_solve S st2 None (Some (clause_new [3; 6])) = Ok (Sat asg, st3) /\
    get_value asg 3 = Some true /\
    ss_solve S st3 (Some (cube_new [7])) None = Ok (Sat asg', st4).
Proof.
  split; [exact ref_cadical_ok|]. split; [exact ref_cadical_values|].
  cbv zeta. do 6 eexists. repeat split; vm_compute; reflexivity.
Qed.
