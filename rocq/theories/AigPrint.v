(** Model of src/models/and_inverter_graph/conversion.rs: export to ASCII AIGER. *)
From Verif Require Import Base Aig.
Open Scope N_scope.
Import String.StringSyntax.
Arguments bs s%string_scope.

(** aig_node.rs:125-128, [get_input_symbol]. *)
Definition get_input_symbol (n : AIGNode) : res bytes :=
  _ <- assert_ (node_type_eqb (node_type n) Input) ;; Ok (node_input_symbol n).
(** aig_node.rs:135-138, [get_latch_symbol]. *)
Definition get_latch_symbol (n : AIGNode) : res bytes :=
  _ <- assert_ (node_type_eqb (node_type n) Latch) ;; Ok (node_latch_symbol n).

(** conversion.rs:47-49 etc.: append a line to the symbol table unless the symbol is empty. *)
Definition push_symbol (table : list bytes) (letter : bytes) (i : N) (symbol : bytes)
  : list bytes :=
  match symbol with
  | [] => table
  | _ => table ++ [letter ++ dec i ++ bs " " ++ symbol]
  end.

(** Rust [iter().enumerate()] (conversion.rs:43,51,65,74,83). *)
Definition enumerate {A} (l : list A) : list (N * A) :=
  combine (map N.of_nat (seq 0 (length l))) l.

(** conversion.rs:29-42, the first line. *)
Definition aag_first_line (a : AIG) : res bytes :=
  _ <- assert_ (number_of_justice a + number_of_fairness a =? 0) ;;
  Ok (join (bs " ")
        ([bs "aag"; dec (maximum_variable_index a); dec (number_of_inputs a);
          dec (number_of_latches a); dec (number_of_outputs a); dec (number_of_and_gates a)]
         ++ (if 0 <? number_of_bad a + number_of_constraints a
             then [dec (number_of_bad a)] else [])
         ++ (if 0 <? number_of_constraints a then [dec (number_of_constraints a)] else []))).

(** conversion.rs:43-50, one input; the state is (result, symbol_table). *)
Definition aag_input (a : AIG) (st : list bytes * list bytes) (e : N * N)
  : res (list bytes * list bytes) :=
  let '(result, table) := st in
  let '(i, input_index) := e in
  node <- index (nodes a) input_index ;;
  symbol <- get_input_symbol node ;;
  Ok (result ++ [dec (node_lit node)], push_symbol table (bs "i") i symbol).

(** conversion.rs:51-64, one latch. *)
Definition aag_latch (a : AIG) (st : list bytes * list bytes) (e : N * N)
  : res (list bytes * list bytes) :=
  let '(result, table) := st in
  let '(i, latch_index) := e in
  node <- index (nodes a) latch_index ;;
  latch_input <- get_latch_input node ;;
  reset <- get_latch_reset node ;;
  let line := [dec (node_lit node); dec latch_input] ++
              (if negb (reset =? 0) then [dec reset] else []) in
  symbol <- get_latch_symbol node ;;
  Ok (result ++ [join (bs " ") line], push_symbol table (bs "l") i symbol).

(** conversion.rs:65-73, 74-82, 83-91: one output, bad or constraint literal. *)
Definition aag_literal (a : AIG) (letter : bytes) (symbol_of : AIGNode -> bytes)
  (st : list bytes * list bytes) (e : N * N) : res (list bytes * list bytes) :=
  let '(result, table) := st in
  let '(i, literal) := e in
  node <- index (nodes a) (N.shiftr literal 1) ;;
  Ok (result ++ [dec literal], push_symbol table letter i (symbol_of node)).

(** conversion.rs:92-98, one and gate. *)
Definition aag_and (a : AIG) (and_index : N) : res bytes :=
  node <- index (nodes a) and_index ;;
  rhs0 <- get_and_rhs0 node ;;
  rhs1 <- get_and_rhs1 node ;;
  Ok (dec (node_lit node) ++ bs " " ++ dec rhs0 ++ bs " " ++ dec rhs1).

(** conversion.rs:102-107: add a final new line unless there is one. *)
Definition end_with_newline (text : bytes) : bytes :=
  match text with
  | [] => [10]
  | _ => if last text 0 =? 10 then text else text ++ [10]
  end.

(** conversion.rs:26-109, [get_aag_string]. *)
Definition get_aag_string (a : AIG) : res bytes :=
  first_line <- aag_first_line a ;;
  st <- foldM (aag_input a) (enumerate (inputs a)) ([first_line], []) ;;
  st <- foldM (aag_latch a) (enumerate (latches a)) st ;;
  st <- foldM (aag_literal a (bs "o") node_output_symbol) (enumerate (outputs a)) st ;;
  st <- foldM (aag_literal a (bs "b") node_bad_symbol) (enumerate (bad a)) st ;;
  st <- foldM (aag_literal a (bs "c") node_constraint_symbol) (enumerate (constraints a)) st ;;
  and_lines <- mapM (aag_and a) (ands a) ;;
  let '(result, symbol_table) := st in
  Ok (end_with_newline (join [10] (result ++ and_lines ++ symbol_table ++ [comments a]))).
