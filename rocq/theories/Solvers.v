(** Model of src/solvers/sat/stateless and src/solvers/sat/stateful: the adapters between CNF
    formulas and the third-party engines.  The engines themselves are arbitrary functions. *)
From Verif Require Import Base Formulas FormulaLogic.
Open Scope N_scope.

(** Hash iteration order of the clauses of a CNF (src/formulas/cnf.rs:148-150 [iter], used at
    stateless/cadical_solver.rs:25, stateful/cadical_solver.rs:163). *)
Definition clause_order := list Clause -> list Clause.

(* ---------------------------------------------------------------- stateless *)

(** [i32] addition and negation: overflow panics in debug builds and wraps in release builds
    (used at stateless/cadical_solver.rs:52, stateful/cadical_solver.rs:35, 43, 135, 152). *)
Definition i32_wrap (b : build) (z : Z) : res Z :=
  if ((-2147483648 <=? z) && (z <=? 2147483647))%Z then Ok z
  else match b with
       | Debug => Panic
       | Release => Ok ((z + 2147483648) mod 4294967296 - 2147483648)%Z
       end.
(** [i32] addition (stateless/cadical_solver.rs:52, stateful/cadical_solver.rs:35). *)
Definition i32_add (b : build) (x y : Z) : res Z := i32_wrap b (x + y).
(** [i32] negation (stateful/cadical_solver.rs:43, 135, 152). *)
Definition i32_neg (b : build) (x : Z) : res Z := i32_wrap b (- x).

(** [u32 -> i32] with [try_into().unwrap()] (stateless/cadical_solver.rs:28). *)
Definition i32_of_number (n : N) : res Z :=
  _ <- assert_ (n <=? 2147483647) ;; Ok (Z.of_N n).

(** stateless/cadical_solver.rs:28-30, stateless/splr_solver.rs:30-32,
    stateless/varisat_solver.rs:28-30: signed number of a literal. *)
Definition dimacs_literal (l : Literal) : res Z :=
  number <- i32_of_number (get_number l) ;;
  Ok (if is_negated l then (- number)%Z else number).

(** stateless/cadical_solver.rs:23-35 [convert_cnf_to_dimacs_into_solver],
    stateless/splr_solver.rs:25-37 [convert_cnf_to_vector_of_vectors],
    stateless/varisat_solver.rs:24-34 [convert_cnf_to_varisat]. *)
Definition convert_cnf (order : clause_order) (f : CNF) : res (list (list Z)) :=
  mapM (fun c => mapM dimacs_literal (clause_iter c)) (order (cnf_clauses f)).

(** Answer of the CaDiCaL engine: [value] gives the model (stateless/cadical_solver.rs:46-70,
    stateful/cadical_solver.rs:96-111). *)
Inductive CadicalAnswer :=
| CadSat (value : Z -> option bool)
| CadUnsat
| CadNone.

(** The CaDiCaL engine: call number, clauses added so far, assumptions
    (stateless/cadical_solver.rs:41-46, stateful/cadical_solver.rs:96). *)
Definition CadicalEngine := nat -> list (list Z) -> list Z -> CadicalAnswer.

(** cadical's [max_variable()]: the largest variable of the clauses added (used at
    stateless/cadical_solver.rs:52). *)
Definition max_variable (cs : list (list Z)) : Z :=
  fold_right (fun c m => Z.max (fold_right (fun l m => Z.max (Z.abs l) m) 0%Z c) m) 0%Z cs.

(** stateless/cadical_solver.rs:52-63: the DIMACS assignment for the range [1..stop]. *)
Definition cadical_model_to_dimacs (value : Z -> option bool) (stop : Z) : list Z :=
  map (fun i =>
         let var_num := Z.of_nat i in
         match value var_num with
         | Some v => if v then var_num else (- var_num)%Z
         | None => var_num
         end) (seq 1 (Z.to_nat (stop - 1))).

(** stateless/cadical_solver.rs:37-72, [CaDiCalSolver::solve_cnf]. *)
Definition cadical_solve_cnf (b : build) (E : CadicalEngine) (order : clause_order)
  : StatelessSolver := fun n f =>
  dimacs_format <- convert_cnf order f ;;
  match E n dimacs_format [] with
  | CadUnsat => Ok UnSat
  | CadSat value =>
      stop <- i32_add b (max_variable dimacs_format) 1 ;;
      asg <- from_dimacs_assignment b (cadical_model_to_dimacs value stop) ;;
      Ok (Sat asg)
  | CadNone => Panic
  end.

(** Answer of [splr::Certificate::try_from] (stateless/splr_solver.rs:46-59). *)
Inductive SplrAnswer :=
| SplrSat (assignment : list Z)
| SplrUnsat
| SplrEmptyClause
| SplrOtherError.

(** The Splr engine: call number and clauses (stateless/splr_solver.rs:44). *)
Definition SplrEngine := nat -> list (list Z) -> SplrAnswer.

(** stateless/splr_solver.rs:39-60, [SplrSolver::solve_cnf]. *)
Definition splr_solve_cnf (b : build) (E : SplrEngine) (order : clause_order)
  : StatelessSolver := fun n f =>
  owned <- convert_cnf order f ;;
  match E n owned with
  | SplrUnsat => Ok UnSat
  | SplrSat assignment =>
      asg <- from_dimacs_assignment b assignment ;; Ok (Sat asg)
  | SplrEmptyClause => Ok UnSat
  | SplrOtherError => Panic
  end.

(** Answer of varisat's [solve] and [model] (stateless/varisat_solver.rs:51-63). *)
Inductive VarisatAnswer :=
| VarSat (model : list Z)
| VarUnsat
| VarError.

(** The Varisat engine: call number and clauses (stateless/varisat_solver.rs:44-49). *)
Definition VarisatEngine := nat -> list (list Z) -> VarisatAnswer.

(** stateless/varisat_solver.rs:43-64, [VarisatSolver::solve_cnf].  Literals are converted with
    [Lit::from_dimacs]/[to_dimacs], which are inverse to each other on non-zero numbers. *)
Definition varisat_solve_cnf (b : build) (E : VarisatEngine) (order : clause_order)
  : StatelessSolver := fun n f =>
  clauses <- convert_cnf order f ;;
  match E n clauses with
  | VarSat model => asg <- from_dimacs_assignment b model ;; Ok (Sat asg)
  | VarUnsat => Ok UnSat
  | VarError => Panic
  end.

(* ----------------------------------------------------------------- stateful *)

(** stateful/mod.rs:23-27, [StatefulSatSolverHint]. *)
Inductive Hint := HintNone | HintSat | HintUnSat.

(** stateful/mod.rs:33-42, trait [StatefulSatSolver]: [new], [add_cnf], [solve] (the
    temporary cube and clause are optional). *)
Record StatefulSolver := mkStatefulSolver {
  ss_state : Type;
  ss_new : Hint -> ss_state;
  ss_add_cnf : ss_state -> CNF -> res ss_state;
  ss_solve : ss_state -> option Cube -> option Clause -> res (SatResponse * ss_state) }.

(** Push fresh solver literals [next, next+1, ...] onto the table
    (stateful/minisat_solver.rs:64-66). *)
Fixpoint push_new (count : nat) (next : Z) (table : list Z) : list Z * Z :=
  match count with
  | O => (table, next)
  | S k => push_new k (next + 1)%Z (table ++ [next])
  end.

(** Number of iterations of [while max_lit >= table.len() { push }]
    (stateful/minisat_solver.rs:64, stateful/cadical_solver.rs:71). *)
Definition missing (max_lit : N) (table : list Z) : nat :=
  N.to_nat (max_lit + 1 - lenN table).

(** Literal translation through the table: stateful/minisat_solver.rs:32-40
    [literal_to_mini_sat_literal] (a MiniSat [Bool] is a signed number, [!] is negation). *)
Definition table_literal (table : list Z) (l : Literal) : res Z :=
  t <- index table (get_number l) ;;
  Ok (if is_negated l then (- t)%Z else t).

(** stateful/minisat_solver.rs:42-56: translation of the literals of a clause or cube. *)
Definition translate (table : list Z) (ls : list Literal) : res (list Z) :=
  mapM (table_literal table) ls.

(** Indices 1, 2, ... paired with the table entries after the first
    ([.iter().enumerate().skip(1)]). *)
Definition enumerate_skip1 (table : list Z) : list (Z * Z) :=
  combine (map Z.of_nat (seq 1 (length table - 1))) (tl table).

(* CaDiCaL *)

(** stateful/cadical_solver.rs:17-21 plus what the engine has been told: the clauses added
    and the number of solve calls. *)
Record CadState := mkCadState {
  cad_clauses : list (list Z);
  cad_calls : nat;
  cad_table : list Z;
  cad_new : Z }.

(** stateful/cadical_solver.rs:32-37, [new_lit]: the fresh literal and the next one. *)
Definition cad_new_lit (b : build) (next : Z) : res (Z * Z) :=
  next' <- i32_add b next 1 ;;
  Ok (next, next').

(** stateful/cadical_solver.rs:39-47, [literal_to_cadical_literal]. *)
Definition cad_literal (b : build) (table : list Z) (l : Literal) : res Z :=
  t <- index table (get_number l) ;;
  if is_negated l then i32_neg b t else Ok t.

(** stateful/cadical_solver.rs:49-63: translation of the literals of a clause or cube. *)
Definition cad_translate (b : build) (table : list Z) (ls : list Literal) : res (list Z) :=
  mapM (cad_literal b table) ls.

(** stateful/cadical_solver.rs:71-74, [count] iterations of the loop. *)
Fixpoint cad_push (b : build) (count : nat) (next : Z) (table : list Z) : res (list Z * Z) :=
  match count with
  | O => Ok (table, next)
  | S k =>
      '(new_literal, next) <- cad_new_lit b next ;;
      cad_push b k next (table ++ [new_literal])
  end.

(** stateful/cadical_solver.rs:65-76, [extend_cadical_literals_if_needed]. *)
Definition cad_extend (b : build) (st : CadState) (f : CNF) : res CadState :=
  '(table, next) <- cad_push b (missing (cnf_max f) (cad_table st)) (cad_new st)
                      (cad_table st) ;;
  Ok (mkCadState (cad_clauses st) (cad_calls st) table next).

(** The engine's [add_clause] (stateful/cadical_solver.rs:136,152,165). *)
Definition cad_add_raw (st : CadState) (c : list Z) : CadState :=
  mkCadState (cad_clauses st ++ [c]) (cad_calls st) (cad_table st) (cad_new st).

(** stateful/cadical_solver.rs:161-167, [add_cnf]. *)
Definition cad_add_cnf (b : build) (order : clause_order) (st : CadState) (f : CNF)
  : res CadState :=
  st <- cad_extend b st f ;;
  foldM (fun st c => cl <- cad_translate b (cad_table st) (clause_iter c) ;;
                     Ok (cad_add_raw st cl)) (order (cnf_clauses f)) st.

(** stateful/cadical_solver.rs:78-91, [create_dimacs_assignment_from_cadical_model]. *)
Definition cad_model_to_dimacs (value : Z -> option bool) (table : list Z) : list Z :=
  flat_map (fun '(j, lit) =>
              match value lit with
              | Some v => [if v then j else (- j)%Z]
              | None => []
              end) (enumerate_skip1 table).

(** stateful/cadical_solver.rs:93-113, [solve_under_already_translated_assumptions]. *)
Definition cad_solve_raw (b : build) (E : CadicalEngine) (st : CadState) (assumptions : list Z)
  : res (SatResponse * CadState) :=
  let st' := mkCadState (cad_clauses st) (S (cad_calls st)) (cad_table st) (cad_new st) in
  match E (cad_calls st) (cad_clauses st) assumptions with
  | CadSat value =>
      asg <- from_dimacs_assignment b (cad_model_to_dimacs value (cad_table st)) ;;
      Ok (Sat asg, st')
  | CadUnsat => Ok (UnSat, st')
  | CadNone => Panic
  end.

(** stateful/cadical_solver.rs:115-121, [solve_with_just_cube_assumptions]. *)
Definition cad_solve_cube (b : build) (E : CadicalEngine) (st : CadState) (cube : option Cube)
  : res (SatResponse * CadState) :=
  v <- match cube with
       | Some c => cad_translate b (cad_table st) (cube_iter c)
       | None => Ok []
       end ;;
  cad_solve_raw b E st v.

(** stateful/cadical_solver.rs:123-155, [handle_temporary_extra_clause]. *)
Definition cad_handle_clause (b : build) (E : CadicalEngine) (st : CadState) (clause : Clause)
  (cube : option Cube) : res (SatResponse * CadState) :=
  cadical_clause <- cad_translate b (cad_table st) (clause_iter clause) ;;
  '(v, next) <- cad_new_lit b (cad_new st) ;;
  let st := mkCadState (cad_clauses st) (cad_calls st) (cad_table st) next in
  not_v <- i32_neg b v ;;
  let st := cad_add_raw st (cadical_clause ++ [not_v]) in
  translated_cube <- match cube with
                     | Some c => cad_translate b (cad_table st) (cube_iter c)
                     | None => Ok []
                     end ;;
  '(result, st) <- cad_solve_raw b E st (v :: translated_cube) ;;
  Ok (result, cad_add_raw st [not_v]).

(** stateful/cadical_solver.rs:169-191, [solve]. *)
Definition cad_solve (b : build) (E : CadicalEngine) (st : CadState)
  (cube : option Cube) (clause : option Clause) : res (SatResponse * CadState) :=
  st <- match cube with Some q => cad_extend b st (cube_to_cnf q) | None => Ok st end ;;
  st <- match clause with Some c => cad_extend b st (clause_to_cnf c) | None => Ok st end ;;
  match clause with
  | None => cad_solve_cube b E st cube
  | Some extra => cad_handle_clause b E st extra cube
  end.

(** stateful/cadical_solver.rs:211-236, [new] and Default (the hint only selects engine
    options). *)
Definition cad_new_state (h : Hint) : CadState := mkCadState [] 0 [] 1.

(** stateful/cadical_solver.rs:198-226, the trait implementation. *)
Definition cadical_stateful (b : build) (E : CadicalEngine) (order : clause_order)
  : StatefulSolver :=
  mkStatefulSolver CadState cad_new_state (cad_add_cnf b order) (cad_solve b E).

(* MiniSat *)

(** Answer of MiniSat's [solve_under_assumptions] (stateful/minisat_solver.rs:92-101): a model
    is defined on every literal. *)
Inductive MiniSatAnswer :=
| MiniSat_Ok (model : Z -> bool)
| MiniSat_Err.

(** The MiniSat engine: call number, clauses added so far, assumptions
    (stateful/minisat_solver.rs:88-90). *)
Definition MiniSatEngine := nat -> list (list Z) -> list Z -> MiniSatAnswer.

(** stateful/minisat_solver.rs:18-21 plus the engine's own variable counter ([new_lit]),
    clause list and call count. *)
Record MiniState := mkMiniState {
  mini_clauses : list (list Z);
  mini_calls : nat;
  mini_next : Z;
  mini_table : list Z }.

(** stateful/minisat_solver.rs:58-68, [extend_mini_sat_literals_if_needed]. *)
Definition mini_extend (st : MiniState) (f : CNF) : MiniState :=
  let '(table, next) := push_new (missing (cnf_max f) (mini_table st)) (mini_next st)
                          (mini_table st) in
  mkMiniState (mini_clauses st) (mini_calls st) next table.

(** The engine's [add_clause] (stateful/minisat_solver.rs:125,141,154). *)
Definition mini_add_raw (st : MiniState) (c : list Z) : MiniState :=
  mkMiniState (mini_clauses st ++ [c]) (mini_calls st) (mini_next st) (mini_table st).

(** stateful/minisat_solver.rs:150-156, [add_cnf]. *)
Definition mini_add_cnf (order : clause_order) (st : MiniState) (f : CNF) : res MiniState :=
  let st := mini_extend st f in
  foldM (fun st c => cl <- translate (mini_table st) (clause_iter c) ;;
                     Ok (mini_add_raw st cl)) (order (cnf_clauses f)) st.

(** stateful/minisat_solver.rs:70-80, [create_dimacs_assignment_from_mini_sat_model]. *)
Definition mini_model_to_dimacs (model : Z -> bool) (table : list Z) : list Z :=
  map (fun '(j, lit) => if model lit then j else (- j)%Z) (enumerate_skip1 table).

(** stateful/minisat_solver.rs:82-102, [solve_under_already_translated_assumptions]. *)
Definition mini_solve_raw (b : build) (E : MiniSatEngine) (st : MiniState)
  (assumptions : list Z) : res (SatResponse * MiniState) :=
  let st' := mkMiniState (mini_clauses st) (S (mini_calls st)) (mini_next st)
               (mini_table st) in
  match E (mini_calls st) (mini_clauses st) assumptions with
  | MiniSat_Ok model =>
      asg <- from_dimacs_assignment b (mini_model_to_dimacs model (mini_table st)) ;;
      Ok (Sat asg, st')
  | MiniSat_Err => Ok (UnSat, st')
  end.

(** stateful/minisat_solver.rs:104-110, [solve_with_just_cube_assumptions]. *)
Definition mini_solve_cube (b : build) (E : MiniSatEngine) (st : MiniState)
  (cube : option Cube) : res (SatResponse * MiniState) :=
  v <- match cube with
       | Some c => translate (mini_table st) (cube_iter c)
       | None => Ok []
       end ;;
  mini_solve_raw b E st v.

(** stateful/minisat_solver.rs:112-144, [handle_temporary_extra_clause]. *)
Definition mini_handle_clause (b : build) (E : MiniSatEngine) (st : MiniState)
  (clause : Clause) (cube : option Cube) : res (SatResponse * MiniState) :=
  mini_sat_clause <- translate (mini_table st) (clause_iter clause) ;;
  let v := mini_next st in
  let st := mkMiniState (mini_clauses st) (mini_calls st) (v + 1)%Z (mini_table st) in
  let st := mini_add_raw st (mini_sat_clause ++ [(- v)%Z]) in
  translated_cube <- match cube with
                     | Some c => translate (mini_table st) (cube_iter c)
                     | None => Ok []
                     end ;;
  '(result, st) <- mini_solve_raw b E st (v :: translated_cube) ;;
  Ok (result, mini_add_raw st [(- v)%Z]).

(** stateful/minisat_solver.rs:158-180, [solve]. *)
Definition mini_solve (b : build) (E : MiniSatEngine) (st : MiniState)
  (cube : option Cube) (clause : option Clause) : res (SatResponse * MiniState) :=
  let st := match cube with Some q => mini_extend st (cube_to_cnf q) | None => st end in
  let st := match clause with Some c => mini_extend st (clause_to_cnf c) | None => st end in
  match clause with
  | None => mini_solve_cube b E st cube
  | Some extra => mini_handle_clause b E st extra cube
  end.

(** stateful/minisat_solver.rs:200-212, [new] and Default; MiniSat numbers its variables from
    its own counter, represented as 1, 2, ... *)
Definition mini_new_state (h : Hint) : MiniState := mkMiniState [] 0 1 [].

(** stateful/minisat_solver.rs:187-203, the trait implementation. *)
Definition minisat_stateful (b : build) (E : MiniSatEngine) (order : clause_order)
  : StatefulSolver :=
  mkStatefulSolver MiniState mini_new_state (mini_add_cnf order) (mini_solve b E).
