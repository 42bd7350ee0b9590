(** The repository's own tests, replayed on the model.  These are tests of the model, not
    properties: they compare what the model computes with values that the authors of the code
    wrote down. *)
From Verif Require Import Base Formulas FormulaLogic Aig AigParse AigPrint Fsts Bmc Solvers Ic3 Pdr Brute.
Open Scope N_scope.
Import String.StringSyntax.
Arguments bs s%string_scope.
#[local] Delimit Scope string_scope with string.

(** A text given line by line. *)
Definition lines (ls : list bytes) : bytes := join [10] ls.

(** Literals as in the tests, [Literal::new(n)] and [!Literal::new(n)]. *)
Definition pos (n : N) : Literal := 2 * n.
Definition neg (n : N) : Literal := literal_not (pos n).

Definition cnf_of (cs : list (list Literal)) : CNF :=
  fold_left (fun f c => cnf_add_clause f (clause_new c)) cs cnf_new.

Definition shown (f : CNF) : bytes := cnf_display (fun l => l) f.

(* ------------------------------------------------------------- tests/formula_creation.rs *)

(** tests/formula_creation.rs:23-72. *)
Example formulas_to_strings :
  literal_new Debug 1 = Ok (pos 1) /\
  map literal_display [pos 1; neg 2; pos 3; neg 4; pos 5; neg 6]
  = map bs ["1"; "-2"; "3"; "-4"; "5"; "-6"]%string /\
  map (fun c => clause_display (clause_new c))
    [[pos 1; neg 2; pos 3]; [neg 2; pos 1; pos 3]; [neg 2; pos 3; pos 1]; [neg 4; pos 5];
     [pos 1; neg 4; pos 5; neg 6]]
  = map bs ["1 -2 3 0"; "1 -2 3 0"; "1 -2 3 0"; "-4 5 0"; "1 -4 5 -6 0"]%string /\
  shown (cnf_of [[pos 1; neg 2; pos 3]; [neg 4; pos 5]; [pos 1; neg 4; pos 5; neg 6]])
  = lines (map bs ["p cnf 6 3"; "-4 5 0"; "1 -2 3 0"; "1 -4 5 -6 0"]%string) /\
  shown (cnf_of [[pos 1; neg 2; pos 3]; [neg 4; pos 5]; [neg 4; pos 5]])
  = lines (map bs ["p cnf 5 2"; "-4 5 0"; "1 -2 3 0"]%string) /\
  shown (cnf_of [[pos 1; neg 2; pos 3]; [neg 2; pos 1; pos 3]; [neg 2; pos 3; pos 1]])
  = lines (map bs ["p cnf 3 1"; "1 -2 3 0"]%string).
Proof. vm_compute. repeat split. Qed.

(** tests/formula_creation.rs:74-82. *)
Example double_negation :
  map literal_display [pos 1; literal_not (pos 1); literal_not (literal_not (pos 1))]
  = map bs ["1"; "-1"; "1"]%string.
Proof. vm_compute. reflexivity. Qed.

(** src/formulas/cnf.rs:43-52, 79-92, 107-120, 135-146, 161-175. *)
Definition majority : list (list Literal) :=
  [[pos 1; pos 2; pos 3]; [neg 1; pos 2; pos 3]; [pos 1; neg 2; pos 3]; [pos 1; pos 2; neg 3]].

Example cnf_doc_tests :
  shown (cnf_of majority)
  = lines (map bs ["p cnf 3 4"; "1 2 3 0"; "1 2 -3 0"; "1 -2 3 0"; "-1 2 3 0"]%string) /\
  map (fun n => cnf_len (cnf_of (firstn n majority))) [0; 1; 2; 3; 4]%nat = [0; 1; 2; 3; 4] /\
  map (fun n => cnf_is_empty (cnf_of (firstn n majority))) [0; 1; 2; 3; 4]%nat
  = [true; false; false; false; false] /\
  map clause_len (cnf_clauses (cnf_of majority)) = [3; 3; 3; 3] /\
  cnf_len (cnf_append (cnf_of (firstn 2 majority)) (cnf_of (skipn 2 majority))) = 4.
Proof. vm_compute. repeat split. Qed.

(** src/algorithms/formula_logic.rs:34-57. *)
Example implication_doc_test :
  does_a_imply_b brute (fun l => l)
    (cnf_of [[pos 1; neg 2]; [pos 2; neg 3]; [pos 3; neg 4]; [pos 4; neg 5]; [pos 5; neg 6]; [pos 6; neg 1]])
    (cnf_of [[pos 1; neg 4]; [pos 4; neg 1]]) = Ok true /\
  does_a_imply_b brute (fun l => l)
    (cnf_of [[pos 1; neg 4]; [pos 4; neg 1]])
    (cnf_of [[pos 1; neg 2]; [pos 2; neg 3]; [pos 3; neg 4]; [pos 4; neg 5]; [pos 5; neg 6]; [pos 6; neg 1]])
  = Ok false.
Proof. vm_compute. split; reflexivity. Qed.

(** tests/sat_solving.rs:273-321. *)
Example sat_solving :
  (exists a, brute 0%nat (cnf_of majority) = Ok (Sat a)) /\
  brute 0%nat (cnf_of [[pos 4; neg 5]; [neg 3]; [neg 3; neg 4]; [pos 1; neg 4; pos 5]; [neg 1]; [neg 2; neg 4];
                   [pos 2; pos 3; pos 4]; [neg 2]; [neg 1; neg 5]; [pos 3]]) = Ok UnSat.
Proof. split; [eexists|]; vm_compute; reflexivity. Qed.

(* --------------------------------------------------------- the example files of the tests *)

(** tests/examples/ours/counter.aig, the bytes of the file. *)
Definition counter_aig : bytes :=
  bs "aig 5 0 3 1 2" ++ [10] ++ bs "10" ++ [10] ++ bs "2" ++ [10] ++ bs "4" ++ [10] ++ bs "10" ++ [10]
  ++ [1; 2; 2; 5].

(** tests/examples/ours/counter_with_bad_assertion.aig. *)
Definition counter_bad_aig : bytes :=
  bs "aig 5 0 3 1 2 1" ++ [10] ++ bs "10" ++ [10] ++ bs "2" ++ [10] ++ bs "4" ++ [10] ++ bs "10" ++ [10]
  ++ bs "6" ++ [10] ++ [1; 2; 2; 5].

(** tests/examples/ours/counter_with_2_bad_assertions.aig. *)
Definition counter_2_bad_aig : bytes :=
  bs "aig 5 0 3 1 2 2" ++ [10] ++ bs "10" ++ [10] ++ bs "2" ++ [10] ++ bs "4" ++ [10] ++ bs "10" ++ [10]
  ++ bs "4" ++ [10] ++ bs "6" ++ [10] ++ [1; 2; 2; 5].

Definition system (file : bytes) : res FSTS :=
  a <- from_vector_of_bytes file ;; from_aig Debug (fun l => l) a false.

(** src/models/and_inverter_graph/conversion.rs:21-24, and tests/aig_creation.rs:77-103 for the
    three pairs of files in tests/examples/ours. *)
Example printing :
  (a <- from_vector_of_bytes counter_aig ;; get_aag_string a)
  = Ok (lines (map bs ["aag 5 0 3 1 2"; "2 10"; "4 2"; "6 4"; "10"; "8 7 5"; "10 8 3"; ""]%string)) /\
  (a <- from_vector_of_bytes counter_bad_aig ;; get_aag_string a)
  = Ok (lines (map bs ["aag 5 0 3 1 2 1"; "2 10"; "4 2"; "6 4"; "10"; "6"; "8 7 5"; "10 8 3"; ""]%string)) /\
  (a <- from_vector_of_bytes counter_2_bad_aig ;; get_aag_string a)
  = Ok (lines (map bs ["aag 5 0 3 1 2 2"; "2 10"; "4 2"; "6 4"; "10"; "4"; "6"; "8 7 5"; "10 8 3"; ""]%string)).
Proof. vm_compute. repeat split. Qed.

(** src/models/and_inverter_graph/getting.rs:28-31, 61-64, 94-97, 113-116, 134-137, 155-158, 172-191. *)
Example getters :
  exists a, from_vector_of_bytes counter_aig = Ok a /\
  get_input_information a = Ok [] /\
  get_latch_information a = Ok [(2, 10, 0); (4, 2, 0); (6, 4, 0)] /\
  get_bad_information a = [] /\ get_constraints_information a = [] /\
  get_output_information a = [10] /\ get_highest_variable_number a = 5 /\
  map (fun l => cone_of_influence (fun g => g) a [l]) [0; 1; 2; 3; 4; 5; 6; 7] = repeat (Ok []) 8 /\
  map (fun l => cone_of_influence (fun g => g) a [l]) [8; 9] = repeat (Ok [(8, 7, 5)]) 2 /\
  map (fun l => cone_of_influence (fun g => g) a [l]) [10; 11] = repeat (Ok [(10, 8, 3); (8, 7, 5)]) 2.
Proof. eexists. split; [vm_compute; reflexivity|]. vm_compute. repeat split. Qed.

(* ----------------------------------------------------------------- tests/fsts_creation.rs *)

(** What the tests print of a system: initial states, safety, unsafety, transition relation. *)
Definition printed (file : bytes) : res (list bytes) :=
  s <- system file ;;
  Ok [cube_display (fun l => l) (get_initial_relation s);
      cube_display (fun l => l) (get_safety_property s);
      shown (clause_to_cnf (get_unsafety_property s));
      shown (get_transition_relation s)].

Definition counter_initial : bytes := lines (map bs ["p cnf 3 3"; "-1 0"; "-2 0"; "-3 0"]%string).

Definition counter_transition : bytes :=
  lines (map bs ["p cnf 8 12"; "1 -7 0"; "-1 -5 0"; "-1 7 0"; "2 -8 0"; "-2 -4 0"; "-2 8 0"; "-3 -4 0";
                 "4 -5 0"; "5 -6 0"; "-5 6 0"; "1 -4 5 0"; "2 3 4 0"]%string).

(** tests/fsts_creation.rs:52-71, 89-113, 130-153. *)
Example systems :
  printed counter_aig
  = Ok [counter_initial; lines (map bs ["p cnf 0 0"; ""]%string); lines (map bs ["p cnf 0 1"; " 0"]%string);
        counter_transition] /\
  printed counter_bad_aig
  = Ok [counter_initial; lines (map bs ["p cnf 3 1"; "-3 0"]%string);
        lines (map bs ["p cnf 3 1"; "3 0"]%string); counter_transition] /\
  printed counter_2_bad_aig
  = Ok [counter_initial; lines (map bs ["p cnf 3 2"; "-2 0"; "-3 0"]%string);
        lines (map bs ["p cnf 3 1"; "2 3 0"]%string); counter_transition].
Proof. vm_compute. repeat split. Qed.

(** tests/fsts_creation.rs:166-181: P and not P exclude each other at depths 0 to 2. *)
Example safety_excludes_unsafety :
  map (fun file =>
    s <- system file ;;
    mapM (fun depth =>
      p <- add_tags_to_relation Debug s (cube_to_cnf (get_safety_property s)) depth ;;
      q <- add_tags_to_relation Debug s (clause_to_cnf (get_unsafety_property s)) depth ;;
      is_a_and_b_satisfiable brute p q) [0; 1; 2])
    [counter_aig; counter_bad_aig; counter_2_bad_aig]
  = repeat (Ok [false; false; false]) 3.
Proof. vm_compute. reflexivity. Qed.

(* --------------------------------------------------------------------------- tests/bmc.rs *)

Definition no_timeout : Clock := mkClock (fun _ => false) (fun _ => false).

Definition same_set (l l' : list N) : bool :=
  forallb (fun x => existsb (N.eqb x) l') l && forallb (fun x => existsb (N.eqb x) l) l'.

(** Whether the search finds this counterexample. *)
Definition finds (file : bytes) (expected : list Z) (depth : N) : res bool :=
  s <- system file ;;
  e <- from_dimacs_assignment Debug expected ;;
  r <- bmc_search Debug brute no_timeout s 10 ;;
  match r with
  | CTX a d => Ok ((d =? depth) && same_set (true_variables a) (true_variables e)
                   && same_set (false_variables a) (false_variables e))
  | NoCTX _ => Ok false
  end.

(** tests/bmc.rs:193-206 and 225-238. *)
Example bmc_tests :
  finds counter_bad_aig [-1; -2; -3; 4; 5; 6; -7; -8; 9; -10; -11; 12; -13; -14; -15; -16; -17; 18]%Z 3
  = Ok true /\
  finds counter_2_bad_aig [-1; -2; -3; 4; 5; 6; -7; -8; 9; -10; -11; 12; -13]%Z 2 = Ok true.
Proof. vm_compute. split; reflexivity. Qed.

(** tests/bmc.rs:150-156: the counterexample is simulated (the circuit has no inputs, the latches
    start at 0), and a bad literal holds in the last state only. *)
Example bmc_simulation :
  let bad_values file steps :=
    a <- from_vector_of_bytes file ;;
    v <- simulate a (repeat [] steps) [(1, false); (2, false); (3, false)] ;;
    mapM (fun state => mapM (sim_lit state) (get_bad_information a)) v in
  bad_values counter_bad_aig 4%nat = Ok [[false]; [false]; [false]; [true]] /\
  bad_values counter_2_bad_aig 3%nat = Ok [[false; false]; [false; false]; [true; false]].
Proof. vm_compute. split; reflexivity. Qed.

(* ------------------------------- tests/ic3_stateless.rs, tests/compare_provers.rs *)

(** tests/ic3_stateless.rs:36-59, tests/compare_provers.rs:53-95: an invariant is accepted by
    [check_invariant]; a counterexample comes with a depth, here the frame in which IC3 gave up. *)
Definition verdict (s : FSTS) (r : res ProofResult) : res (option N) :=
  r <- r ;;
  match r with
  | Proof inv =>
      _ <- check_invariant Debug brute brute brute (fun l => l) (fun l => l) s inv ;; Ok None
  | ProofCTX d => Ok (Some d)
  end.

(** IC3 with a stateless solver, IC3 with a stateful solver, PDR. *)
Definition verdicts (file : bytes) : res (list (res (option N))) :=
  s <- system file ;;
  Ok [verdict s (ic3_stateless Debug no_random brute 100 s);
      verdict s (ic3_stateful Debug no_random brute_stateful 100 s);
      verdict s (pdr Debug no_random brute_stateful 100 s)].

(** tests/ic3_stateless.rs:61-73 runs IC3 on the three files, and the comparison of the provers
    holds where PDR returns.  PDR panics where a latch is a bad literal that no gate reads
    (property C42). *)
Example provers :
  verdicts counter_aig = Ok [Ok None; Ok None; Ok None] /\
  verdicts counter_bad_aig = Ok [Ok (Some 1); Ok (Some 1); Panic] /\
  verdicts counter_2_bad_aig = Ok [Ok (Some 1); Ok (Some 1); Panic].
Proof. vm_compute. repeat split. Qed.
