(** A brute-force SAT solver, used to show that the solver contracts can be met and to run the
    model on examples.  It is not part of the modelled code. *)
From Verif Require Import Base Formulas FormulaLogic Solvers.
Open Scope N_scope.

(** All assignments of the variables n, n-1, ..., 1, as lists of true variables. *)
Fixpoint all_subsets (n : nat) : list (list N) :=
  match n with
  | O => [[]]
  | S k => flat_map (fun t => [t; N.of_nat (S k) :: t]) (all_subsets k)
  end.

Definition lit_in (t : list N) (l : Literal) : bool :=
  xorb (existsb (N.eqb (l / 2)) t) (N.odd l).

Definition clause_in (t : list N) (c : Clause) : bool := existsb (lit_in t) (clause_lits c).

Definition vars_upto (n : nat) : list N := map N.of_nat (seq 1 n).

Definition brute_solve (max : N) (cs : list Clause) : SatResponse :=
  let n := N.to_nat max in
  match find (fun t => forallb (clause_in t) cs) (all_subsets n) with
  | Some t => Sat (mkAssignment t (filter (fun v => negb (existsb (N.eqb v) t)) (vars_upto n)))
  | None => UnSat
  end.

(** The stateless solver. *)
Definition brute : StatelessSolver := fun _ f => Ok (brute_solve (cnf_max f) (cnf_clauses f)).

(** The stateful solver: its state is the formula added so far. *)
Definition brute_stateful : StatefulSolver :=
  mkStatefulSolver CNF (fun _ => cnf_new) (fun st f => Ok (cnf_append st f))
    (fun st cube clause =>
       let f := match cube with Some q => cnf_append st (cube_to_cnf q) | None => st end in
       let f := match clause with Some c => cnf_add_clause f c | None => f end in
       Ok (brute_solve (cnf_max f) (cnf_clauses f), st)).

(** No randomness: every permutation is the identity. *)
Definition no_random : Random := fun _ _ l => l.
