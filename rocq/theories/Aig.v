(** Model of src/models/and_inverter_graph: the graph data structure, its getters, the cone
    of influence and the simulator. *)
From Verif Require Import Base.
Open Scope N_scope.

(** aig_node.rs:9-15. *)
Inductive AIGNodeType := ConstantZero | Input | Latch | And.

(** Derived [PartialEq] of AIGNodeType, aig_node.rs:9. *)
Definition node_type_eqb (a b : AIGNodeType) : bool :=
  match a, b with
  | ConstantZero, ConstantZero | Input, Input | Latch, Latch | And, And => true
  | _, _ => false
  end.

(** aig_node.rs:21-41. *)
Record AIGNode := mkNode {
  node_type : AIGNodeType;
  node_lit : N;
  node_latch_input : N;
  node_latch_reset : N;
  node_and_input0 : N;
  node_and_input1 : N;
  node_input_symbol : bytes;
  node_latch_symbol : bytes;
  node_output_symbol : bytes;
  node_bad_symbol : bytes;
  node_constraint_symbol : bytes }.

(** aig_node.rs:48-65, [AIGNode::new]. *)
Definition node_new (lit : N) (t : AIGNodeType) : res AIGNode :=
  _ <- assert_ (lit mod 2 =? 0) ;;
  Ok (mkNode t lit usize_max usize_max usize_max usize_max [] [] [] [] []).

(** aig_node.rs:67-70, [set_input_of_latch]. *)
Definition set_input_of_latch (n : AIGNode) (input : N) : res AIGNode :=
  _ <- assert_ (node_type_eqb (node_type n) Latch) ;;
  Ok (mkNode (node_type n) (node_lit n) input (node_latch_reset n)
        (node_and_input0 n) (node_and_input1 n) (node_input_symbol n) (node_latch_symbol n)
        (node_output_symbol n) (node_bad_symbol n) (node_constraint_symbol n)).

(** aig_node.rs:72-76, [set_reset_of_latch]. *)
Definition set_reset_of_latch (n : AIGNode) (reset : N) : res AIGNode :=
  _ <- assert_ (node_type_eqb (node_type n) Latch) ;;
  _ <- assert_ ((reset =? 0) || (reset =? 1) || (reset =? node_lit n)) ;;
  Ok (mkNode (node_type n) (node_lit n) (node_latch_input n) reset
        (node_and_input0 n) (node_and_input1 n) (node_input_symbol n) (node_latch_symbol n)
        (node_output_symbol n) (node_bad_symbol n) (node_constraint_symbol n)).

(** aig_node.rs:78-81, [set_rhs0_of_and]. *)
Definition set_rhs0_of_and (n : AIGNode) (rhs0 : N) : res AIGNode :=
  _ <- assert_ (node_type_eqb (node_type n) And) ;;
  Ok (mkNode (node_type n) (node_lit n) (node_latch_input n) (node_latch_reset n)
        rhs0 (node_and_input1 n) (node_input_symbol n) (node_latch_symbol n)
        (node_output_symbol n) (node_bad_symbol n) (node_constraint_symbol n)).

(** aig_node.rs:83-86, [set_rhs1_of_and]. *)
Definition set_rhs1_of_and (n : AIGNode) (rhs1 : N) : res AIGNode :=
  _ <- assert_ (node_type_eqb (node_type n) And) ;;
  Ok (mkNode (node_type n) (node_lit n) (node_latch_input n) (node_latch_reset n)
        (node_and_input0 n) rhs1 (node_input_symbol n) (node_latch_symbol n)
        (node_output_symbol n) (node_bad_symbol n) (node_constraint_symbol n)).

(** aig_node.rs:96-100, [get_latch_input]. *)
Definition get_latch_input (n : AIGNode) : res N :=
  _ <- assert_ (node_type_eqb (node_type n) Latch) ;;
  _ <- assert_ (negb (node_latch_input n =? usize_max)) ;;
  Ok (node_latch_input n).

(** aig_node.rs:102-106, [get_latch_reset]. *)
Definition get_latch_reset (n : AIGNode) : res N :=
  _ <- assert_ (node_type_eqb (node_type n) Latch) ;;
  _ <- assert_ (negb (node_latch_reset n =? usize_max)) ;;
  Ok (node_latch_reset n).

(** aig_node.rs:108-112, [get_and_rhs0]. *)
Definition get_and_rhs0 (n : AIGNode) : res N :=
  _ <- assert_ (node_type_eqb (node_type n) And) ;;
  _ <- assert_ (negb (node_and_input0 n =? usize_max)) ;;
  Ok (node_and_input0 n).

(** aig_node.rs:114-118, [get_and_rhs1]. *)
Definition get_and_rhs1 (n : AIGNode) : res N :=
  _ <- assert_ (node_type_eqb (node_type n) And) ;;
  _ <- assert_ (negb (node_and_input1 n =? usize_max)) ;;
  Ok (node_and_input1 n).

(** mod.rs:17-42, [AndInverterGraph]. *)
Record AIG := mkAIG {
  maximum_variable_index : N;
  number_of_inputs : N;
  number_of_latches : N;
  number_of_outputs : N;
  number_of_and_gates : N;
  number_of_bad : N;
  number_of_constraints : N;
  number_of_justice : N;
  number_of_fairness : N;
  nodes : list AIGNode;
  inputs : list N;
  latches : list N;
  ands : list N;
  outputs : list N;
  bad : list N;
  constraints : list N;
  comments : bytes }.

(** getting.rs:33-40, [get_input_information]. *)
Definition get_input_information (a : AIG) : res (list N) :=
  mapM (fun i => n <- index (nodes a) i ;; Ok (node_lit n)) (inputs a).

(** getting.rs:66-78, [get_latch_information]. *)
Definition get_latch_information (a : AIG) : res (list (N * N * N)) :=
  mapM (fun i =>
          n <- index (nodes a) i ;;
          latch_input <- get_latch_input n ;;
          latch_reset <- get_latch_reset n ;;
          Ok (node_lit n, latch_input, latch_reset)) (latches a).

(** getting.rs:99-101. *)
Definition get_bad_information (a : AIG) : list N := bad a.
(** getting.rs:118-120. *)
Definition get_constraints_information (a : AIG) : list N := constraints a.
(** getting.rs:139-141. *)
Definition get_output_information (a : AIG) : list N := outputs a.
(** getting.rs:160-162. *)
Definition get_highest_variable_number (a : AIG) : N := maximum_variable_index a.

(** Equality of and-gate triples (hash-set membership, getting.rs:233). *)
Definition gate_eqb (x y : N * N * N) : bool :=
  let '(a, b, c) := x in
  let '(a', b', c') := y in
  (a =? a') && (b =? b') && (c =? c').

(** getting.rs:223-244, the loop of [get_and_information_in_cone_of_influence].  The vector
    [current_wanted_literals] from position [i] on is [pending]; [gates] is the hash set. *)
Fixpoint cone_loop (fuel : nat) (a : AIG) (pending : list N) (gates : list (N * N * N))
  : res (list (N * N * N)) :=
  match pending with
  | [] => Ok gates
  | l :: rest =>
      match fuel with
      | O => OutOfFuel
      | S fuel' =>
          node <- index (nodes a) (N.shiftr l 1) ;;
          match node_type node with
          | ConstantZero | Input | Latch => cone_loop fuel' a rest gates
          | And =>
              let and_out := node_lit node in
              in0 <- get_and_rhs0 node ;;
              in1 <- get_and_rhs1 node ;;
              if set_mem gate_eqb (and_out, in0, in1) gates
              then cone_loop fuel' a rest gates
              else cone_loop fuel' a (rest ++ [in0; in1]) (gates ++ [(and_out, in0, in1)])
          end
      end
  end.

(** getting.rs:215-246, [get_and_information_in_cone_of_influence].  [order] is the hash
    iteration order of the final [Vec::from_iter]; the fuel is shown sufficient for every
    well-formed graph. *)
Definition cone_of_influence (order : list (N * N * N) -> list (N * N * N)) (a : AIG)
  (desired : list N) : res (list (N * N * N)) :=
  gates <- cone_loop (length desired + 2 * length (nodes a)) a desired [] ;;
  Ok (order gates).

(* ---------------------------------------------------------------- simulation *)

(** A [HashMap<usize, bool>] (simulation.rs:42) is a list of pairs with distinct keys. *)
Definition BoolMap := list (N * bool).

(** [HashMap::get] (simulation.rs:56,70,97). *)
Fixpoint map_get (m : BoolMap) (k : N) : option bool :=
  match m with
  | [] => None
  | (k', v) :: r => if k =? k' then Some v else map_get r k
  end.

(** [HashMap::contains_key] (simulation.rs:67,135,148). *)
Definition map_contains (m : BoolMap) (k : N) : bool :=
  match map_get m k with Some _ => true | None => false end.

(** simulation.rs:27-31 (and 32-36, 101-105): value of an AIG literal in a value vector. *)
Definition sim_lit (vals : list bool) (lit : N) : res bool :=
  v <- index vals (N.shiftr lit 1) ;;
  Ok (if lit mod 2 =? 0 then v else negb v).

(** simulation.rs:24-38, [get_and_result]. *)
Definition get_and_result (n : AIGNode) (current_result : list bool) : res bool :=
  rhs0 <- get_and_rhs0 n ;;
  rhs1 <- get_and_rhs1 n ;;
  rhs0_value <- sim_lit current_result rhs0 ;;
  rhs1_value <- sim_lit current_result rhs1 ;;
  Ok (rhs0_value && rhs1_value).

(** simulation.rs:46-77, body of the loop in [get_initial_simulation_state]; the state is the
    enumeration index and the result vector. *)
Definition init_step (initial_input initial_latches : BoolMap)
  (st : N * list bool) (n : AIGNode) : res (N * list bool) :=
  let '(i, result) := st in
  let var_num := N.shiftr (node_lit n) 1 in
  _ <- assert_ (var_num =? i) ;;
  _ <- assert_ (lenN result =? var_num) ;;
  v <- match node_type n with
       | ConstantZero => _ <- assert_ (lenN result =? 0) ;; Ok false
       | Input => unwrap (map_get initial_input var_num)
       | Latch =>
           reset <- get_latch_reset n ;;
           if reset =? 1 then Ok true
           else if reset =? 0 then Ok false
           else
             _ <- assert_ (N.shiftr reset 1 =? var_num) ;;
             _ <- assert_ (map_contains initial_latches var_num) ;;
             unwrap (map_get initial_latches var_num)
       | And => get_and_result n result
       end ;;
  Ok (i + 1, result ++ [v]).

(** simulation.rs:40-80, [get_initial_simulation_state]. *)
Definition get_initial_simulation_state (a : AIG) (initial_input initial_latches : BoolMap)
  : res (list bool) :=
  '(_, result) <- foldM (init_step initial_input initial_latches) (nodes a) (0, []) ;;
  _ <- assert_ (lenN result =? lenN (nodes a)) ;;
  Ok result.

(** simulation.rs:88-111, body of the loop in [get_next_simulation_state]. *)
Definition next_step (last_state : list bool) (current_input : BoolMap)
  (result : list bool) (n : AIGNode) : res (list bool) :=
  let var_num := N.shiftr (node_lit n) 1 in
  _ <- assert_ (lenN result =? var_num) ;;
  v <- match node_type n with
       | ConstantZero => _ <- assert_ (lenN result =? 0) ;; Ok false
       | Input => unwrap (map_get current_input var_num)
       | Latch => latch_in <- get_latch_input n ;; sim_lit last_state latch_in
       | And => get_and_result n result
       end ;;
  Ok (result ++ [v]).

(** simulation.rs:82-114, [get_next_simulation_state]. *)
Definition get_next_simulation_state (a : AIG) (last_state : list bool)
  (current_input : BoolMap) : res (list bool) :=
  result <- foldM (next_step last_state current_input) (nodes a) [] ;;
  _ <- assert_ (lenN result =? lenN (nodes a)) ;;
  Ok result.

(** simulation.rs:130-137, the checks on one clock's inputs. *)
Definition check_clk_inputs (a : AIG) (clk_inputs : BoolMap) : res unit :=
  _ <- assert_ (lenN clk_inputs =? number_of_inputs a) ;;
  _ <- assert_ (lenN (inputs a) =? number_of_inputs a) ;;
  assert_ (forallb (map_contains clk_inputs) (inputs a)).

(** simulation.rs:144-150, the check on one latch.  As in the source, the reset *literal* is
    compared with the latch *index*. *)
Definition check_initial_latch (a : AIG) (initial_latches : BoolMap) (latch_var : N)
  : res unit :=
  node <- index (nodes a) latch_var ;;
  reset <- get_latch_reset node ;;
  if reset =? latch_var then assert_ (map_contains initial_latches latch_var)
  else Ok tt.

(** simulation.rs:156-167, the remaining clocks of the simulation loop. *)
Fixpoint simulate_loop (a : AIG) (last_state : list bool) (rest : list BoolMap)
  : res (list (list bool)) :=
  match rest with
  | [] => Ok []
  | current_input :: r =>
      next_state <- get_next_simulation_state a last_state current_input ;;
      tl <- simulate_loop a next_state r ;;
      Ok (next_state :: tl)
  end.

(** simulation.rs:120-169, [simulate]. *)
Definition simulate (a : AIG) (ins : list BoolMap) (initial_latches : BoolMap)
  : res (list (list bool)) :=
  match ins with
  | [] => Panic
  | first :: rest =>
      _ <- mapM (check_clk_inputs a) ins ;;
      _ <- assert_ (lenN initial_latches <=? number_of_latches a) ;;
      _ <- assert_ (lenN (latches a) =? number_of_latches a) ;;
      _ <- mapM (check_initial_latch a initial_latches) (latches a) ;;
      s0 <- get_initial_simulation_state a first initial_latches ;;
      tl <- simulate_loop a s0 rest ;;
      Ok (s0 :: tl)
  end.
