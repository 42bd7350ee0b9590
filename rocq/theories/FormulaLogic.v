(** Model of src/solvers/sat/{assignment,sat_response}.rs, the stateless-solver trait, and
    src/algorithms/formula_logic.rs. *)
From Verif Require Import Base Formulas.
Open Scope N_scope.

(** src/solvers/sat/assignment.rs:12-16.  Hash sets of variables are lists. *)
Record Assignment := mkAssignment {
  true_variables : list N;
  false_variables : list N }.

(** src/solvers/sat/assignment.rs:42-50, one iteration of the loop.  [abs] of [i32::MIN]
    overflows in debug, and in release yields a negative number whose conversion to [u32]
    fails, so both panic. *)
Definition from_dimacs_step (b : build) (acc : list N * list N) (v : Z)
  : res (list N * list N) :=
  _ <- assert_ (negb (v =? -2147483648)%Z) ;;
  let var_num := Z.to_N (Z.abs v) in
  _ <- debug_assert b (negb (var_num =? 0)) ;;
  let '(t, f) := acc in
  if (v <? 0)%Z then Ok (t, set_insert N.eqb f var_num)
  else Ok (set_insert N.eqb t var_num, f).

(** src/solvers/sat/assignment.rs:38-53, [from_dimacs_assignment]. *)
Definition from_dimacs_assignment (b : build) (vector : list Z) : res Assignment :=
  '(t, f) <- foldM (from_dimacs_step b) vector ([], []) ;;
  Ok (mkAssignment t f).

(** src/solvers/sat/assignment.rs:55-63, [get_value]. *)
Definition get_value (a : Assignment) (v : N) : option bool :=
  if set_mem N.eqb v (true_variables a) then Some true
  else if set_mem N.eqb v (false_variables a) then Some false
  else None.

(** src/solvers/sat/sat_response.rs:12-15. *)
Inductive SatResponse :=
| UnSat
| Sat (assignment : Assignment).

(** src/solvers/sat/stateless/mod.rs:30-32, trait [StatelessSatSolver] ([T::default().solve_cnf(..)]):
    the answer may depend on the formula and on anything else (randomness, time), represented
    by a call number. *)
Definition StatelessSolver := nat -> CNF -> res SatResponse.

(** src/algorithms/formula_logic.rs:62-73, the loop of [does_a_imply_b] over the clauses of b
    (already in iteration order); [n] is the number of the next solver call. *)
Fixpoint implies_loop (T : StatelessSolver) (n : nat) (a : CNF) (cs : list Clause)
  : res bool :=
  match cs with
  | [] => Ok true
  | c :: r =>
      let cube := clause_not c in
      let cnf_to_solve := cnf_append (cube_to_cnf cube) a in
      s <- T n cnf_to_solve ;;
      match s with
      | Sat _ => Ok false
      | UnSat => implies_loop T (S n) a r
      end
  end.

(** src/algorithms/formula_logic.rs:58-75, [does_a_imply_b]; [order] is the hash order. *)
Definition does_a_imply_b (T : StatelessSolver) (order : list Clause -> list Clause)
  (a b : CNF) : res bool :=
  implies_loop T 0 a (order (cnf_clauses b)).

(** src/algorithms/formula_logic.rs:77-85, [is_a_and_b_satisfiable]. *)
Definition is_a_and_b_satisfiable (T : StatelessSolver) (a b : CNF) : res bool :=
  s <- T 0%nat (cnf_append a b) ;;
  match s with
  | Sat _ => Ok true
  | UnSat => Ok false
  end.

(** src/algorithms/formula_logic.rs:87-94, [evaluate_assignment_on_literal]. *)
Definition evaluate_literal (l : Literal) (a : Assignment) : res bool :=
  value <- unwrap (get_value a (get_number l)) ;;
  Ok (if is_negated l then negb value else value).

(** src/algorithms/formula_logic.rs:97-102, loop body of [evaluate_assignment_on_clause]. *)
Fixpoint evaluate_literals (ls : list Literal) (a : Assignment) : res bool :=
  match ls with
  | [] => Ok false
  | l :: r =>
      v <- evaluate_literal l a ;;
      if v then Ok true else evaluate_literals r a
  end.

(** src/algorithms/formula_logic.rs:96-103, [evaluate_assignment_on_clause]. *)
Definition evaluate_clause (c : Clause) (a : Assignment) : res bool :=
  evaluate_literals (clause_iter c) a.

(** src/algorithms/formula_logic.rs:106-111, loop body of [evaluate_assignment_on_cnf]. *)
Fixpoint evaluate_clauses (cs : list Clause) (a : Assignment) : res bool :=
  match cs with
  | [] => Ok true
  | c :: r =>
      v <- evaluate_clause c a ;;
      if v then evaluate_clauses r a else Ok false
  end.

(** src/algorithms/formula_logic.rs:105-112, [evaluate_assignment_on_cnf]; [order] is the
    hash iteration order. *)
Definition evaluate_cnf (order : list Clause -> list Clause) (f : CNF) (a : Assignment)
  : res bool :=
  evaluate_clauses (order (cnf_clauses f)) a.

(** src/algorithms/formula_logic.rs:114-122, [get_all_variable_numbers_in_cnf]. *)
Definition variable_numbers (f : CNF) : list N :=
  fold_left
    (fun s c => fold_left (fun s l => set_insert N.eqb s (get_number l)) (clause_iter c) s)
    (cnf_clauses f) [].
