(** Model of src/models/and_inverter_graph/construction.rs: the parser of binary AIGER
    files.  Reading the file itself (437-441) is not modelled: the input is the list of bytes. *)
From Verif Require Import Base Aig.
Open Scope N_scope.

(** construction.rs:18-33, [split_vector_by_newline]; [current] is [current_line]. *)
Fixpoint split_lines (current : bytes) (vec_of_bytes : bytes) : list bytes :=
  match vec_of_bytes with
  | [] => match current with [] => [] | _ => [current] end
  | byte :: r => if byte =? 10 then current :: split_lines [] r
                 else split_lines (current ++ [byte]) r
  end.

(** Rust [str::split(' ')] (used at construction.rs:69,161,352). *)
Fixpoint split_spaces (current : bytes) (text : bytes) : list bytes :=
  match text with
  | [] => [current]
  | byte :: r => if byte =? 32 then current :: split_spaces [] r
                 else split_spaces (current ++ [byte]) r
  end.

(** A byte within [lo, hi] (for [utf8_valid], construction.rs:68, and digits, construction.rs:64). *)
Definition in_range (lo hi x : N) : bool := (lo <=? x) && (x <=? hi).

(** Success of [std::str::from_utf8] (RFC 3629), used at construction.rs:68,159,193,208,227,
    342,348. *)
Fixpoint utf8_valid (l : bytes) : bool :=
  match l with
  | [] => true
  | x :: r =>
      if x <? 128 then utf8_valid r
      else if in_range 194 223 x then
        match r with
        | y :: r' => in_range 128 191 y && utf8_valid r'
        | _ => false
        end
      else if in_range 224 239 x then
        match r with
        | y :: z :: r' =>
            (if x =? 224 then in_range 160 191 y
             else if x =? 237 then in_range 128 159 y
             else in_range 128 191 y) && in_range 128 191 z && utf8_valid r'
        | _ => false
        end
      else if in_range 240 244 x then
        match r with
        | y :: z :: w :: r' =>
            (if x =? 240 then in_range 144 191 y
             else if x =? 244 then in_range 128 143 y
             else in_range 128 191 y) && in_range 128 191 z && in_range 128 191 w
            && utf8_valid r'
        | _ => false
        end
      else false
  end.

(** [std::str::from_utf8(..).unwrap()] (construction.rs:68,159,193,208,227,342,348). *)
Definition from_utf8 (l : bytes) : res bytes :=
  _ <- assert_ (utf8_valid l) ;; Ok l.

(** The digits of [str::parse::<usize>] (construction.rs:64); too large a value is an error. *)
Fixpoint parse_digits (acc : N) (l : bytes) : res N :=
  match l with
  | [] => Ok acc
  | d :: r =>
      _ <- assert_ (in_range 48 57 d) ;;
      let acc := acc * 10 + (d - 48) in
      _ <- assert_ (acc <=? usize_max) ;;
      parse_digits acc r
  end.

(** construction.rs:63-65, [convert_string_to_number] ([parse] accepts one leading '+'). *)
Definition convert_string_to_number (l : bytes) : res N :=
  match l with
  | [] => Panic
  | 43 :: [] => Panic
  | 43 :: r => parse_digits 0 r
  | _ => parse_digits 0 l
  end.

(** The counts of the parameter line (construction.rs:87-101). *)
Record Header := mkHeader {
  h_max : N; h_inputs : N; h_latches : N; h_outputs : N; h_ands : N;
  h_bad : N; h_constraints : N; h_justice : N; h_fairness : N }.

(** [Self::convert_string_to_number(params.get(i).unwrap_or(&"0"))] (construction.rs:94-101). *)
Definition optional_number (params : list bytes) (i : nat) : res N :=
  match nth_error params i with
  | Some p => convert_string_to_number p
  | None => Ok 0
  end.

(** construction.rs:67-116, [check_first_line_of_aig_and_load_it].  The sum at line 105 can
    overflow only if one count exceeds 2^60, and then the file is rejected as well: by the
    overflow check in debug, and in release by the capacity check of [allocate_vectors]. *)
Definition check_first_line (lines : list bytes) : res Header :=
  line <- index lines 0 ;;
  line <- from_utf8 line ;;
  let params := split_spaces [] line in
  p0 <- indexn params 0 ;;
  _ <- assert_ (list_eqb p0 [97; 105; 103]) ;;
  _ <- assert_ (5 <? length params)%nat ;;
  _ <- assert_ (length params <? 10)%nat ;;
  p1 <- indexn params 1 ;; m <- convert_string_to_number p1 ;;
  p2 <- indexn params 2 ;; i <- convert_string_to_number p2 ;;
  p3 <- indexn params 3 ;; l <- convert_string_to_number p3 ;;
  p4 <- indexn params 4 ;; o <- convert_string_to_number p4 ;;
  p5 <- indexn params 5 ;; a <- convert_string_to_number p5 ;;
  b <- optional_number params 6 ;;
  c <- optional_number params 7 ;;
  j <- optional_number params 8 ;;
  f <- optional_number params 9 ;;
  _ <- assert_ (m =? i + l + a) ;;
  _ <- assert_ (f =? 0) ;;
  _ <- assert_ (j =? 0) ;;
  Ok (mkHeader m i l o a b c j f).

(** [isize::MAX] on a 64-bit target: the largest allocation in bytes (construction.rs:118-130). *)
Definition isize_max : N := 9223372036854775807.

(** construction.rs:118-130, [allocate_vectors]: [Vec::with_capacity] panics when the capacity
    in bytes exceeds [isize::MAX] (an AIGNode takes 168 bytes, a usize 8).  Running out of
    memory below that limit is not modelled. *)
Definition allocate_vectors (h : Header) : res (list AIGNode) :=
  _ <- assert_ ((h_max h + 1) * 168 <=? isize_max) ;;
  _ <- assert_ (h_inputs h * 8 <=? isize_max) ;;
  _ <- assert_ (h_latches h * 8 <=? isize_max) ;;
  _ <- assert_ (h_outputs h * 8 <=? isize_max) ;;
  _ <- assert_ (h_ands h * 8 <=? isize_max) ;;
  _ <- assert_ (h_bad h * 8 <=? isize_max) ;;
  _ <- assert_ (h_constraints h * 8 <=? isize_max) ;;
  zero <- node_new 0 ConstantZero ;;
  Ok [zero].

(** The numbers 0 .. n-1 (Rust [0..n]). *)
Definition range (n : N) : list N := map N.of_nat (seq 0 (N.to_nat n)).

(** construction.rs:134-141, [create_input_nodes_of_aig]; the state is (nodes, inputs). *)
Definition create_input_nodes (h : Header) (nodes : list AIGNode)
  : res (list AIGNode * list N) :=
  foldM (fun st i =>
           let '(nodes, inputs) := st in
           let lit := 2 * (i + 1) in
           node <- node_new lit Input ;;
           Ok (nodes ++ [node], inputs ++ [lenN nodes])) (range (h_inputs h)) (nodes, []).

(** construction.rs:143-147, [check_literal]. *)
Definition check_literal (h : Header) (literal_number : N) : res unit :=
  assert_ (N.shiftr literal_number 1 <=? h_max h).

(** construction.rs:150-184, loop body of [create_latch_nodes_of_aig]. *)
Definition create_latch_node (h : Header) (lines : list bytes)
  (st : list AIGNode * list N) (i : N) : res (list AIGNode * list N) :=
  let '(nodes, latches) := st in
  let lit := 2 * (i + h_inputs h + 1) in
  node <- node_new lit Latch ;;
  line <- index lines (i + 1) ;;
  line <- from_utf8 line ;;
  let parsed_line := split_spaces [] line in
  _ <- assert_ ((length parsed_line =? 1) || (length parsed_line =? 2))%nat ;;
  next_text <- indexn parsed_line 0 ;;
  next_lit <- convert_string_to_number next_text ;;
  _ <- check_literal h next_lit ;;
  node' <- set_input_of_latch node next_lit ;;
  node'' <- (if (length parsed_line =? 2)%nat then
               reset_text <- indexn parsed_line 1 ;;
               reset <- convert_string_to_number reset_text ;;
               _ <- assert_ ((reset =? 0) || (reset =? 1) || (reset =? lit)) ;;
               set_reset_of_latch node' reset
             else set_reset_of_latch node' 0) ;;
  Ok (nodes ++ [node''], latches ++ [lenN nodes]).

(** construction.rs:149-185, [create_latch_nodes_of_aig]. *)
Definition create_latch_nodes (h : Header) (lines : list bytes) (nodes : list AIGNode)
  : res (list AIGNode * list N) :=
  foldM (create_latch_node h lines) (range (h_latches h)) (nodes, []).

(** construction.rs:187-199 [create_output_nodes_of_aig], 201-215 [create_bad_nodes_of_aig],
    217-233 [create_invariant_constraint_nodes_of_aig]: [count] literals, one per line,
    starting [skip] lines after the first. *)
Definition create_literal_lines (h : Header) (lines : list bytes) (count skip : N)
  : res (list N) :=
  mapM (fun i =>
          line <- index lines (i + 1 + skip) ;;
          line <- from_utf8 line ;;
          literal <- convert_string_to_number line ;;
          _ <- check_literal h literal ;;
          Ok literal) (range count).

(** construction.rs:239-254, [get_position_of_start_of_and_segment]: the bytes from the
    position on ([to_skip] new lines remain to be seen). *)
Fixpoint skip_lines (to_skip : nat) (data : bytes) : res bytes :=
  match to_skip with
  | O => Ok data
  | S n =>
      (fix go (data : bytes) : res bytes :=
         match data with
         | [] => Panic
         | byte :: r => if byte =? 10 then skip_lines n r else go r
         end) data
  end.

(** construction.rs:263-275, the loop of [read_delta] and its exit: [ch] is the current byte,
    [rest] the bytes after it, [fuel] bounds the number of continuation bytes (5). *)
Fixpoint read_delta_loop (fuel : nat) (i : N) (delta : N) (ch : N) (rest : bytes)
  : res (N * bytes) :=
  if negb (N.land ch 128 =? 0) then
    match fuel with
    | O => Panic
    | S fuel' =>
        let delta := N.lor delta (N.shiftl (N.land ch 127) (7 * i)) in
        match rest with
        | [] => Panic
        | ch' :: rest' => read_delta_loop fuel' (i + 1) delta ch' rest'
        end
    end
  else
    _ <- assert_ (negb (i =? 5) || (ch <? 8)) ;;
    Ok (N.lor delta (N.shiftl ch (7 * i)), rest).

(** construction.rs:256-276, [read_delta]; a position is the list of bytes from it on.  The
    assertion [i != 5] at 264 is the fuel. *)
Definition read_delta (data : bytes) : res (N * bytes) :=
  match data with
  | [] => Panic
  | ch :: rest => read_delta_loop 5 0 0 ch rest
  end.

(** construction.rs:283-307, loop body of [create_and_nodes_of_aig]; the state is
    (lhs, nodes, ands, remaining bytes). *)
Definition create_and_node (st : N * list AIGNode * list N * bytes) (_i : N)
  : res (N * list AIGNode * list N * bytes) :=
  let '(lhs, nodes, ands, data) := st in
  let lhs := lhs + 2 in
  '(delta, data) <- read_delta data ;;
  _ <- assert_ (delta <=? lhs) ;;
  let rhs0 := lhs - delta in
  '(delta, data) <- read_delta data ;;
  _ <- assert_ (delta <=? rhs0) ;;
  let rhs1 := rhs0 - delta in
  _ <- assert_ ((rhs0 <? lhs) && (rhs1 <=? rhs0)) ;;
  node <- node_new lhs And ;;
  node <- set_rhs0_of_and node rhs0 ;;
  node <- set_rhs1_of_and node rhs1 ;;
  Ok (lhs, nodes ++ [node], ands ++ [lenN nodes], data).

(** construction.rs:278-310, [create_and_nodes_of_aig] (with 235-237): nodes, ands and the
    bytes after the and segment. *)
Definition create_and_nodes (h : Header) (nodes : list AIGNode) (data : bytes)
  : res (list AIGNode * list N * bytes) :=
  data <- skip_lines (N.to_nat (1 + h_latches h + h_outputs h + h_bad h + h_constraints h))
            data ;;
  '(_, nodes, ands, data) <-
      foldM create_and_node (range (h_ands h))
        (2 * (h_inputs h + h_latches h), nodes, [], data) ;;
  Ok (nodes, ands, data).

(** aig_node.rs:120-123, [set_input_symbol]. *)
Definition set_input_symbol (n : AIGNode) (symbol : bytes) : res AIGNode :=
  _ <- assert_ (node_type_eqb (node_type n) Input) ;;
  Ok (mkNode (node_type n) (node_lit n) (node_latch_input n) (node_latch_reset n)
        (node_and_input0 n) (node_and_input1 n) symbol (node_latch_symbol n)
        (node_output_symbol n) (node_bad_symbol n) (node_constraint_symbol n)).
(** aig_node.rs:130-133, [set_latch_symbol]. *)
Definition set_latch_symbol (n : AIGNode) (symbol : bytes) : res AIGNode :=
  _ <- assert_ (node_type_eqb (node_type n) Latch) ;;
  Ok (mkNode (node_type n) (node_lit n) (node_latch_input n) (node_latch_reset n)
        (node_and_input0 n) (node_and_input1 n) (node_input_symbol n) symbol
        (node_output_symbol n) (node_bad_symbol n) (node_constraint_symbol n)).
(** aig_node.rs:140-142, [set_output_symbol]. *)
Definition set_output_symbol (n : AIGNode) (symbol : bytes) : res AIGNode :=
  Ok (mkNode (node_type n) (node_lit n) (node_latch_input n) (node_latch_reset n)
        (node_and_input0 n) (node_and_input1 n) (node_input_symbol n) (node_latch_symbol n)
        symbol (node_bad_symbol n) (node_constraint_symbol n)).
(** aig_node.rs:148-150, [set_bad_symbol]. *)
Definition set_bad_symbol (n : AIGNode) (symbol : bytes) : res AIGNode :=
  Ok (mkNode (node_type n) (node_lit n) (node_latch_input n) (node_latch_reset n)
        (node_and_input0 n) (node_and_input1 n) (node_input_symbol n) (node_latch_symbol n)
        (node_output_symbol n) symbol (node_constraint_symbol n)).
(** aig_node.rs:156-158, [set_constraint_symbol]. *)
Definition set_constraint_symbol (n : AIGNode) (symbol : bytes) : res AIGNode :=
  Ok (mkNode (node_type n) (node_lit n) (node_latch_input n) (node_latch_reset n)
        (node_and_input0 n) (node_and_input1 n) (node_input_symbol n) (node_latch_symbol n)
        (node_output_symbol n) (node_bad_symbol n) symbol).

(** construction.rs:404-418 minus the last two steps: the graph before symbols are read. *)
Definition replace_nodes (a : AIG) (nodes : list AIGNode) : AIG :=
  mkAIG (maximum_variable_index a) (number_of_inputs a) (number_of_latches a)
    (number_of_outputs a) (number_of_and_gates a) (number_of_bad a) (number_of_constraints a)
    (number_of_justice a) (number_of_fairness a) nodes (inputs a) (latches a) (ands a)
    (outputs a) (bad a) (constraints a) (comments a).

(** [self.comments = ..] (construction.rs:349). *)
Definition replace_comments (a : AIG) (text : bytes) : AIG :=
  mkAIG (maximum_variable_index a) (number_of_inputs a) (number_of_latches a)
    (number_of_outputs a) (number_of_and_gates a) (number_of_bad a) (number_of_constraints a)
    (number_of_justice a) (number_of_fairness a) (nodes a) (inputs a) (latches a) (ands a)
    (outputs a) (bad a) (constraints a) text.

(** [self.nodes[i].set_..(..)] (construction.rs:314-329). *)
Definition update_node (a : AIG) (i : N) (f : AIGNode -> res AIGNode) : res AIG :=
  n <- index (nodes a) i ;;
  n <- f n ;;
  Ok (replace_nodes a (set_nth (nodes a) (N.to_nat i) n)).

(** construction.rs:312-331, [add_symbol_to_node]; [symbol_type] is an ASCII code. *)
Definition add_symbol_to_node (a : AIG) (symbol_type : N) (symbol_number : N) (symbol : bytes)
  : res AIG :=
  if symbol_type =? 105 then
    i <- index (inputs a) symbol_number ;;
    update_node a i (fun n => set_input_symbol n symbol)
  else if symbol_type =? 108 then
    i <- index (latches a) symbol_number ;;
    update_node a i (fun n => set_latch_symbol n symbol)
  else if symbol_type =? 111 then
    l <- index (outputs a) symbol_number ;;
    update_node a (N.shiftr l 1) (fun n => set_output_symbol n symbol)
  else if symbol_type =? 98 then
    l <- index (bad a) symbol_number ;;
    update_node a (N.shiftr l 1) (fun n => set_bad_symbol n symbol)
  else if symbol_type =? 99 then
    l <- index (constraints a) symbol_number ;;
    update_node a (N.shiftr l 1) (fun n => set_constraint_symbol n symbol)
  else Panic.

(** construction.rs:352-374: one symbol line.  [split("")] cuts the first word into
    characters; the first must be one of the ASCII letters i, l, o, b, c, so working on bytes
    gives the same result. *)
Definition read_symbol_line (a : AIG) (line : bytes) : res AIG :=
  let parsed_line := split_spaces [] line in
  _ <- assert_ (length parsed_line =? 2)%nat ;;
  word <- indexn parsed_line 0 ;;
  symbol <- indexn parsed_line 1 ;;
  match word with
  | symbol_type :: ((_ :: _) as number) =>
      _ <- assert_ (existsb (N.eqb symbol_type) [105; 108; 111; 98; 99]) ;;
      symbol_number <- convert_string_to_number number ;;
      add_symbol_to_node a symbol_type symbol_number symbol
  | _ => Panic
  end.

(** construction.rs:341-376, the loop of [read_symbols_and_comments]. *)
Fixpoint read_symbol_lines (a : AIG) (lines : list bytes) : res AIG :=
  match lines with
  | [] => Ok a
  | line :: rest =>
      line <- from_utf8 line ;;
      if list_eqb line [99] then
        text <- from_utf8 (join [10] lines) ;;
        Ok (replace_comments a (filter (fun x => negb (x =? 0)) text))
      else
        a <- read_symbol_line a line ;;
        read_symbol_lines a rest
  end.

(** construction.rs:333-377, [read_symbols_and_comments]. *)
Definition read_symbols_and_comments (a : AIG) (data : bytes) : res AIG :=
  read_symbol_lines a (split_lines [] data).

(** The node at an index has a type (construction.rs:383-386 etc.). *)
Definition check_types (a : AIG) (is : list N) (t : AIGNodeType) : res unit :=
  _ <- mapM (fun i => n <- index (nodes a) i ;; assert_ (node_type_eqb (node_type n) t)) is ;;
  Ok tt.

(** construction.rs:379-402, [check_aig]. *)
Definition check_aig (a : AIG) : res unit :=
  n0 <- index (nodes a) 0 ;;
  _ <- assert_ (node_type_eqb (node_type n0) ConstantZero) ;;
  _ <- assert_ (number_of_inputs a =? lenN (inputs a)) ;;
  _ <- check_types a (inputs a) Input ;;
  _ <- assert_ (number_of_latches a =? lenN (latches a)) ;;
  _ <- check_types a (latches a) Latch ;;
  _ <- assert_ (number_of_and_gates a =? lenN (ands a)) ;;
  _ <- check_types a (ands a) And ;;
  _ <- assert_ (number_of_outputs a =? lenN (outputs a)) ;;
  _ <- assert_ (number_of_bad a =? lenN (bad a)) ;;
  assert_ (number_of_constraints a =? lenN (constraints a)).

(** construction.rs:404-418, [from_vector_of_bytes]. *)
Definition from_vector_of_bytes (vec_of_bytes : bytes) : res AIG :=
  let lines := split_lines [] vec_of_bytes in
  h <- check_first_line lines ;;
  nodes <- allocate_vectors h ;;
  '(nodes, inputs) <- create_input_nodes h nodes ;;
  '(nodes, latches) <- create_latch_nodes h lines nodes ;;
  outputs <- create_literal_lines h lines (h_outputs h) (h_latches h) ;;
  bad <- create_literal_lines h lines (h_bad h) (h_latches h + h_outputs h) ;;
  constraints <- create_literal_lines h lines (h_constraints h)
                   (h_latches h + h_outputs h + h_bad h) ;;
  '(nodes, ands, data) <- create_and_nodes h nodes vec_of_bytes ;;
  let a := mkAIG (h_max h) (h_inputs h) (h_latches h) (h_outputs h) (h_ands h) (h_bad h)
             (h_constraints h) (h_justice h) (h_fairness h)
             nodes inputs latches ands outputs bad constraints [] in
  a <- read_symbols_and_comments a data ;;
  _ <- check_aig a ;;
  Ok a.
