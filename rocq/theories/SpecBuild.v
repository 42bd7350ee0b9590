(** What it means for the two build profiles of the crate to agree. *)
From Verif Require Import Base Formulas FormulaLogic Solvers.

(** A debug run and a release run: whatever the debug run returns, the release run returns. *)
Definition same_in_release {A} (debug release : res A) : Prop :=
  forall r, debug = Ok r -> release = Ok r.

(** The two builds of a stateless solver: one of the three adapters over the same engine, or a
    solver that does not depend on the build. *)
Inductive stateless_builds : StatelessSolver -> StatelessSolver -> Prop :=
| builds_cadical E order :
    stateless_builds (cadical_solve_cnf Debug E order) (cadical_solve_cnf Release E order)
| builds_splr E order :
    stateless_builds (splr_solve_cnf Debug E order) (splr_solve_cnf Release E order)
| builds_varisat E order :
    stateless_builds (varisat_solve_cnf Debug E order) (varisat_solve_cnf Release E order)
| builds_other T : stateless_builds T T.

(** The two builds of a stateful solver. *)
Inductive stateful_builds : StatefulSolver -> StatefulSolver -> Prop :=
| builds_minisat E order :
    stateful_builds (minisat_stateful Debug E order) (minisat_stateful Release E order)
| builds_cadical_stateful E order :
    stateful_builds (cadical_stateful Debug E order) (cadical_stateful Release E order)
| builds_other_stateful SS : stateful_builds SS SS.

(** A history of calls on one stateful solver object, and the answers it gives. *)
Inductive solver_call :=
| CallAdd (f : CNF)
| CallSolve (cube : option Cube) (clause : option Clause).

Fixpoint answers (SS : StatefulSolver) (st : ss_state SS) (calls : list solver_call)
  : res (list SatResponse) :=
  match calls with
  | [] => Ok []
  | CallAdd f :: rest => st <- ss_add_cnf SS st f ;; answers SS st rest
  | CallSolve q c :: rest =>
      '(a, st) <- ss_solve SS st q c ;;
      l <- answers SS st rest ;;
      Ok (a :: l)
  end.
