(** Model of src/models/finite_state_transition_system. *)
From Verif Require Import Base Formulas FormulaLogic Aig.
Open Scope N_scope.

(** mod.rs:19-32, [FiniteStateTransitionSystem]. *)
Record FSTS := mkFSTS {
  initial_literals : list Literal;
  initial_states : Cube;
  transition : CNF;
  state_to_safety_translation : CNF;
  unsafety_property : Clause;
  max_literal_number : N;
  state_literals : list N;
  input_literals : list N;
  cone_of_safety_only_latches : list N;
  cone_of_transition_only_latches : list N }.

(** Hash iteration order of a set of and gates (see getting.rs:245). *)
Definition gate_order := list (N * N * N) -> list (N * N * N).

(* -------------------------------------------------------------- construction *)

(** [usize -> u32] with [try_into().unwrap()] (construction.rs:27,229). *)
Definition u32_of_usize (n : N) : res N :=
  _ <- assert_ (n <? u32_mod) ;; Ok n.

(** construction.rs:26-29, [get_literal_from_aig_literal]. *)
Definition literal_of_aig (b : build) (aig_literal : N) : res Literal :=
  aig_var_num <- u32_of_usize (N.shiftr aig_literal 1) ;;
  l <- literal_new b aig_var_num ;;
  Ok (negate_if_true l (aig_literal mod 2 =? 1)).

(** construction.rs:39-67, loop body of the and-gate encoding. *)
Definition encode_gate (b : build) (cnf : CNF) (g : N * N * N) : res CNF :=
  let '(lhs, rhs0, rhs1) := g in
  and_output <- literal_of_aig b lhs ;;
  _ <- assert_ (negb (is_negated and_output)) ;;
  if (rhs0 =? 0) || (rhs1 =? 0) then
    Ok (cnf_add_clause cnf (clause_new [literal_not and_output]))
  else if (rhs0 =? 1) && (rhs1 =? 1) then
    Ok (cnf_add_clause cnf (clause_new [and_output]))
  else if rhs0 =? 1 then
    and_input_1 <- literal_of_aig b rhs1 ;;
    let cnf := cnf_add_clause cnf (clause_new [literal_not and_input_1; and_output]) in
    Ok (cnf_add_clause cnf (clause_new [and_input_1; literal_not and_output]))
  else if rhs1 =? 1 then
    and_input_0 <- literal_of_aig b rhs0 ;;
    let cnf := cnf_add_clause cnf (clause_new [literal_not and_input_0; and_output]) in
    Ok (cnf_add_clause cnf (clause_new [and_input_0; literal_not and_output]))
  else
    and_input_1 <- literal_of_aig b rhs1 ;;
    and_input_0 <- literal_of_aig b rhs0 ;;
    let cnf := cnf_add_clause cnf (clause_new [literal_not and_output; and_input_0]) in
    let cnf := cnf_add_clause cnf (clause_new [literal_not and_output; and_input_1]) in
    Ok (cnf_add_clause cnf
          (clause_new [and_output; literal_not and_input_0; literal_not and_input_1])).

(** construction.rs:31-70, [get_cnf_that_describes_wire_values_as_a_function_of_latch_values_
    for_specific_wires]. *)
Definition wires_cnf (b : build) (order : gate_order) (a : AIG) (wires : list N) : res CNF :=
  and_info <- cone_of_influence order a wires ;;
  foldM (encode_gate b) and_info cnf_new.

(** construction.rs:76-88, loop body of [create_initial_cnf]. *)
Definition initial_step (b : build) (lits : list Literal) (info : N * N * N)
  : res (list Literal) :=
  let '(latch_literal, _, latch_reset) := info in
  if latch_reset =? latch_literal then Ok lits
  else
    lit <- literal_of_aig b latch_literal ;;
    if latch_reset =? 0 then Ok (lits ++ [literal_not lit])
    else if latch_reset =? 1 then Ok (lits ++ [lit])
    else Panic.

(** construction.rs:72-91, [create_initial_cnf]. *)
Definition create_initial_cnf (b : build) (a : AIG) : res Cube :=
  latch_info <- get_latch_information a ;;
  lits <- foldM (initial_step b) latch_info [] ;;
  Ok (cube_new lits).

(** construction.rs:100-120, loop body of [create_transition_cnf]; the state is
    (latches_to_wires, wires_we_care_about). *)
Definition transition_step (b : build) (max_variable_number : N)
  (st : CNF * list N) (info : N * N * N) : res (CNF * list N) :=
  let '(cnf, wires) := st in
  let '(latch_literal, latch_input, _) := info in
  _ <- debug_assert b (latch_literal mod 2 =? 0) ;;
  latch_lit_before <- literal_of_aig b latch_literal ;;
  after_number <- u32_add b (get_number latch_lit_before) max_variable_number ;;
  after_lit <- literal_new b after_number ;;
  let latch_lit_after := negate_if_true after_lit (is_negated latch_lit_before) in
  let wires := wires ++ [latch_input] in
  if latch_input =? 0 then
    Ok (cnf_add_clause cnf (clause_new [literal_not latch_lit_after]), wires)
  else if latch_input =? 1 then
    Ok (cnf_add_clause cnf (clause_new [latch_lit_after]), wires)
  else
    latch_input_lit <- literal_of_aig b latch_input ;;
    let cnf := cnf_add_clause cnf
                 (clause_new [literal_not latch_lit_after; latch_input_lit]) in
    let cnf := cnf_add_clause cnf
                 (clause_new [latch_lit_after; literal_not latch_input_lit]) in
    Ok (cnf, wires).

(** construction.rs:93-129, [create_transition_cnf]. *)
Definition create_transition_cnf (b : build) (order : gate_order) (a : AIG)
  (max_variable_number : N) : res CNF :=
  latch_info <- get_latch_information a ;;
  '(latches_to_wires, wires) <-
      foldM (transition_step b max_variable_number) latch_info (cnf_new, []) ;;
  w <- wires_cnf b order a wires ;;
  Ok (cnf_append latches_to_wires w).

(** construction.rs:131-150, [create_state_to_safety_translation]. *)
Definition create_state_to_safety_translation (b : build) (order : gate_order) (a : AIG)
  (assume_output_is_bad : bool) : res CNF :=
  let important_wires :=
    get_bad_information a ++ get_constraints_information a ++
    (if assume_output_is_bad then get_output_information a else []) in
  wires_cnf b order a important_wires.

(** construction.rs:152-177, [create_unsafety_property].  Simplification: the debug-only
    self-test that Varisat finds the empty clause unsatisfiable (170-172) is left out. *)
Definition create_unsafety_property (b : build) (a : AIG) (assume_output_is_bad : bool)
  : res Clause :=
  let bad_info := get_bad_information a ++
    (if assume_output_is_bad then get_output_information a else []) in
  match bad_info with
  | [] => Ok (clause_new [])
  | _ => unsafe_literals <- mapM (literal_of_aig b) bad_info ;;
         Ok (clause_new unsafe_literals)
  end.

(** construction.rs:183-187 and 190-194, one iteration. *)
Definition positive_number (b : build) (aig_literal : N) : res N :=
  lit <- literal_of_aig b aig_literal ;;
  _ <- assert_ (negb (is_negated lit)) ;;
  Ok (get_number lit).

(** construction.rs:179-196, [create_input_and_state_literal_numbers]. *)
Definition create_input_and_state_literal_numbers (b : build) (a : AIG)
  : res (list N * list N) :=
  input_info <- get_input_information a ;;
  input_lits <- mapM (positive_number b) input_info ;;
  latch_info <- get_latch_information a ;;
  state_lits <- mapM (fun i => positive_number b (fst (fst i))) latch_info ;;
  Ok (input_lits, state_lits).

(** construction.rs:216-267, [from_aig]. *)
Definition from_aig (b : build) (order : gate_order) (a : AIG) (assume_output_is_bad : bool)
  : res FSTS :=
  let max_usize := get_highest_variable_number a in
  _ <- assert_ (max_usize <? u31_max) ;;
  _ <- assert_ (match get_constraints_information a with [] => true | _ => false end) ;;
  max_literal_number <- u32_of_usize max_usize ;;
  '(input_literals, state_literals) <- create_input_and_state_literal_numbers b a ;;
  initial_states <- create_initial_cnf b a ;;
  transition <- create_transition_cnf b order a max_literal_number ;;
  safety <- create_state_to_safety_translation b order a assume_output_is_bad ;;
  unsafety <- create_unsafety_property b a assume_output_is_bad ;;
  let initial_literals :=
    fold_left (set_insert N.eqb) (cube_iter initial_states) [] in
  let cone_of_safety := variable_numbers safety in
  let cone_of_transition := variable_numbers transition in
  let is_state v := existsb (N.eqb v) state_literals in
  Ok (mkFSTS initial_literals initial_states transition safety unsafety max_literal_number
        state_literals input_literals
        (filter is_state cone_of_safety) (filter is_state cone_of_transition)).

(* ------------------------------------------------------------------- getters *)

(** getting.rs:31-33. *)
Definition get_initial_relation (s : FSTS) : Cube := initial_states s.
(** getting.rs:55-57. *)
Definition get_transition_relation (s : FSTS) : CNF := transition s.
(** getting.rs:59-61. *)
Definition get_state_to_safety_translation (s : FSTS) : CNF := state_to_safety_translation s.
(** getting.rs:63-65. *)
Definition get_safety_property (s : FSTS) : Cube := clause_not (unsafety_property s).
(** getting.rs:67-69. *)
Definition get_unsafety_property (s : FSTS) : Clause := unsafety_property s.
(** getting.rs:19-21. *)
Definition get_max_literal_number (s : FSTS) : N := max_literal_number s.
(** getting.rs:23-25. *)
Definition get_state_literal_numbers (s : FSTS) : list N := state_literals s.
(** getting.rs:27-29. *)
Definition get_input_literal_numbers (s : FSTS) : list N := input_literals s.

(* ------------------------------------------------------------------ features *)

(** features.rs:26-33, one literal of [bump_all_clause_variables_by_some_number]. *)
Definition bump_literal (b : build) (number_to_bump : N) (l : Literal) : res Literal :=
  _ <- assert_ (negb (get_number l =? 0)) ;;
  new_number <- u32_add b (get_number l) number_to_bump ;;
  new_lit <- literal_new b new_number ;;
  Ok (negate_if_true new_lit (is_negated l)).

(** features.rs:21-35, [bump_all_clause_variables_by_some_number]. *)
Definition bump_clause (b : build) (c : Clause) (number_to_bump : N) : res Clause :=
  lits <- mapM (bump_literal b number_to_bump) (clause_iter c) ;;
  Ok (clause_new lits).

(** features.rs:37-53, [bump_all_cnf_variables_by_some_number].  The iteration order of the
    source set does not matter since the result is again a set. *)
Definition bump_cnf (b : build) (f : CNF) (number_to_bump : N) : res CNF :=
  if number_to_bump =? 0 then Ok f
  else foldM (fun acc c => c' <- bump_clause b c number_to_bump ;;
                           Ok (cnf_add_clause acc c')) (cnf_clauses f) cnf_new.

(** features.rs:59-64, [add_tags_to_relation]. *)
Definition add_tags_to_relation (b : build) (s : FSTS) (relation : CNF) (tags : N) : res CNF :=
  n <- u32_mul b (max_literal_number s) tags ;;
  bump_cnf b relation n.

(** features.rs:66-77, [add_tags_to_cube]. *)
Definition add_tags_to_cube (b : build) (s : FSTS) (cube : Cube) (tags : N) : res Cube :=
  if tags =? 0 then Ok cube
  else
    n <- u32_mul b (max_literal_number s) tags ;;
    bumped_as_clause <- bump_clause b (cube_not cube) n ;;
    Ok (clause_not bumped_as_clause).

(** features.rs:79-89, [add_tags_to_clause]. *)
Definition add_tags_to_clause (b : build) (s : FSTS) (clause : Clause) (tags : N) : res Clause :=
  if tags =? 0 then Ok clause
  else
    n <- u32_mul b (max_literal_number s) tags ;;
    bump_clause b clause n.

(** features.rs:91-99, [is_cube_initial]. *)
Definition is_cube_initial (s : FSTS) (cube : Cube) : bool :=
  forallb (fun l => negb (set_mem N.eqb (literal_not l) (initial_literals s)))
    (cube_iter cube).

(** features.rs:104-109, one iteration of [extract_state_from_assignment]. *)
Definition extract_literal (b : build) (asg : Assignment) (state_lit_num : N) : res Literal :=
  l <- literal_new b state_lit_num ;;
  v <- unwrap (get_value asg state_lit_num) ;;
  Ok (negate_if_true l (negb v)).

(** features.rs:101-112, [extract_state_from_assignment]. *)
Definition extract_state_from_assignment (b : build) (s : FSTS) (asg : Assignment) : res Cube :=
  lits <- mapM (extract_literal b asg) (state_literals s) ;;
  Ok (cube_new lits).

(** features.rs:114-121, [intersect_cube_with_cone_of_safety]. *)
Definition intersect_cube_with_cone_of_safety (s : FSTS) (c : Cube) : Cube :=
  cube_new (filter (fun l => set_mem N.eqb (get_number l) (cone_of_safety_only_latches s))
              (cube_iter c)).

(** features.rs:123-133, [intersect_cube_with_cone_of_transition]. *)
Definition intersect_cube_with_cone_of_transition (s : FSTS) (c : Cube) : Cube :=
  cube_new (filter (fun l => set_mem N.eqb (get_number l) (cone_of_transition_only_latches s))
              (cube_iter c)).

(** features.rs:158-188, [check_invariant]: returns iff all three assertions hold.  The solver
    calls of the three checks come from three independent solver functions [T1 T2 T3] (each
    call creates its own solver), [order1 order2] are hash orders. *)
Definition check_invariant (b : build) (T1 T2 T3 : StatelessSolver)
  (order1 order2 : list Clause -> list Clause) (s : FSTS) (inv_candidate : CNF) : res unit :=
  let init := cnf_append (cube_to_cnf (get_initial_relation s))
                (get_state_to_safety_translation s) in
  ok1 <- does_a_imply_b T1 order1 init inv_candidate ;;
  _ <- assert_ ok1 ;;
  let a := cnf_append (get_transition_relation s) inv_candidate in
  let a := cnf_append a (get_state_to_safety_translation s) in
  safety' <- add_tags_to_relation b s (get_state_to_safety_translation s) 1 ;;
  let a := cnf_append a safety' in
  b' <- add_tags_to_relation b s inv_candidate 1 ;;
  ok2 <- does_a_imply_b T2 order2 a b' ;;
  _ <- assert_ ok2 ;;
  let bad := cnf_append (clause_to_cnf (get_unsafety_property s))
               (get_state_to_safety_translation s) in
  sat <- is_a_and_b_satisfiable T3 inv_candidate bad ;;
  assert_ (negb sat).
