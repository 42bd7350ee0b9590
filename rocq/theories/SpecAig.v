(** Specification: and-inverter circuits as AIGER describes them, their behaviour, and when a
    graph of the model represents a circuit. *)
From Verif Require Import Base Aig Spec.
Open Scope N_scope.

(** A circuit: variables 1..I are inputs, then come the latches, then the and gates.
    A latch is (next literal, reset), a gate (first operand, second operand). *)
Record circuit := mkCircuit {
  c_inputs : N;
  c_latches : list (N * N);
  c_outputs : list N;
  c_bad : list N;
  c_constraints : list N;
  c_ands : list (N * N) }.

Definition latch_var (c : circuit) (j : nat) : N := c_inputs c + 1 + N.of_nat j.
Definition gate_var (c : circuit) (j : nat) : N :=
  c_inputs c + lenN (c_latches c) + 1 + N.of_nat j.
Definition c_max (c : circuit) : N :=
  c_inputs c + lenN (c_latches c) + lenN (c_ands c).

Definition latch (c : circuit) (v next reset : N) : Prop :=
  exists j, nth_error (c_latches c) j = Some (next, reset) /\ v = latch_var c j.
Definition gate (c : circuit) (v r0 r1 : N) : Prop :=
  exists j, nth_error (c_ands c) j = Some (r0, r1) /\ v = gate_var c j.

Definition is_input (c : circuit) (v : N) : Prop := 1 <= v <= c_inputs c.
Definition is_latch (c : circuit) (v : N) : Prop := exists next reset, latch c v next reset.
Definition is_gate (c : circuit) (v : N) : Prop := exists r0 r1, gate c v r0 r1.

(** A literal refers to the constant or to a variable of the circuit. *)
Definition lit_in_range (c : circuit) (l : N) : Prop := lit_var l <= c_max c.

(** Well-formedness: literals in range, resets 0, 1 or the latch itself, operands of a gate
    below the gate and in the order AIGER demands. *)
Definition circuit_wf (c : circuit) : Prop :=
  (forall v next reset, latch c v next reset ->
     lit_in_range c next /\ (reset = 0 \/ reset = 1 \/ reset = 2 * v)) /\
  Forall (lit_in_range c) (c_outputs c) /\
  Forall (lit_in_range c) (c_bad c) /\
  Forall (lit_in_range c) (c_constraints c) /\
  (forall v r0 r1, gate c v r0 r1 -> r1 <= r0 < 2 * v).

(* ----------------------------------------------------------------- behaviour *)

(** The value of a literal under a valuation of the variables. *)
Definition lit_value (w : valuation) (l : N) : bool := xorb (w (lit_var l)) (lit_neg l).

(** The wires of one clock: variable 0 is false, every gate is the conjunction. *)
Definition wires_ok (c : circuit) (w : valuation) : Prop :=
  w 0 = false /\
  forall v r0 r1, gate c v r0 r1 -> w v = lit_value w r0 && lit_value w r1.

(** A valuation whose latches have their reset values (reset 0: false, 1: true, own literal:
    any). *)
Definition initial_values (c : circuit) (w : valuation) : Prop :=
  forall v next reset, latch c v next reset ->
    (reset = 0 -> w v = false) /\ (reset = 1 -> w v = true).

(** One clock: every latch takes the value its next literal had. *)
Definition step_values (c : circuit) (w w' : valuation) : Prop :=
  forall v next reset, latch c v next reset -> w' v = lit_value w next.

(** A run: for every clock a valuation of all variables. *)
Definition run (c : circuit) (w : nat -> valuation) : Prop :=
  (forall t, wires_ok c (w t)) /\
  initial_values c (w 0%nat) /\
  (forall t, step_values c (w t) (w (S t))).

(** The literals that count as bad: the bad literals, and the outputs if asked for. *)
Definition bad_literals (c : circuit) (outputs_are_bad : bool) : list N :=
  c_bad c ++ (if outputs_are_bad then c_outputs c else []).

Definition is_bad (c : circuit) (flag : bool) (w : valuation) : Prop :=
  exists l, In l (bad_literals c flag) /\ lit_value w l = true.

(** No run is ever bad. *)
Definition safe (c : circuit) (flag : bool) : Prop :=
  forall w, run c w -> forall t, ~ is_bad c flag (w t).

(** No run is bad at one of the first [n] clocks. *)
Definition safe_before (c : circuit) (flag : bool) (n : nat) : Prop :=
  forall w, run c w -> forall t, (t < n)%nat -> ~ is_bad c flag (w t).

(** A shortest counterexample has [n] steps. *)
Definition shortest (c : circuit) (flag : bool) (n : nat) : Prop :=
  safe_before c flag n /\ exists w, run c w /\ is_bad c flag (w n).

(** The transitive fan-in: the gate variables reachable from some literals. *)
Inductive fan_in (c : circuit) (lits : list N) : N -> Prop :=
| fan_in_root l : In l lits -> is_gate c (lit_var l) -> fan_in c lits (lit_var l)
| fan_in_step v r0 r1 r :
    fan_in c lits v -> gate c v r0 r1 -> (r = r0 \/ r = r1) -> is_gate c (lit_var r) ->
    fan_in c lits (lit_var r).

(* ----------------------------------------------- a graph represents a circuit *)

(** What a node must contain (symbols are free). *)
Definition node_is (c : circuit) (i : N) (n : AIGNode) : Prop :=
  node_lit n = 2 * i /\
  (i = 0 /\ node_type n = ConstantZero \/
   is_input c i /\ node_type n = Input \/
   (exists next reset, latch c i next reset /\ node_type n = Latch /\
      node_latch_input n = next /\ node_latch_reset n = reset) \/
   (exists r0 r1, gate c i r0 r1 /\ node_type n = And /\
      node_and_input0 n = r0 /\ node_and_input1 n = r1)).

(** The consecutive numbers from .. from+count-1. *)
Definition numbers (from count : N) : list N :=
  map (fun i => from + N.of_nat i) (seq 0 (N.to_nat count)).

(** The graph [a] represents the circuit [c]: one node per variable with the right contents,
    index lists and counts as in the circuit. *)
Definition represents (a : AIG) (c : circuit) : Prop :=
  maximum_variable_index a = c_max c /\
  number_of_inputs a = c_inputs c /\
  number_of_latches a = lenN (c_latches c) /\
  number_of_and_gates a = lenN (c_ands c) /\
  number_of_outputs a = lenN (c_outputs c) /\
  number_of_bad a = lenN (c_bad c) /\
  number_of_constraints a = lenN (c_constraints c) /\
  number_of_justice a = 0 /\
  number_of_fairness a = 0 /\
  lenN (nodes a) = c_max c + 1 /\
  (forall i n, nth_error (nodes a) i = Some n -> node_is c (N.of_nat i) n) /\
  inputs a = numbers 1 (c_inputs c) /\
  latches a = numbers (c_inputs c + 1) (lenN (c_latches c)) /\
  ands a = numbers (c_inputs c + lenN (c_latches c) + 1) (lenN (c_ands c)) /\
  outputs a = c_outputs c /\
  bad a = c_bad c /\
  constraints a = c_constraints c.

(** Limits that every graph read from a file respects: node indices and literals are
    [usize] values below [usize::MAX]. *)
Definition circuit_fits (c : circuit) : Prop := (c_max c + 1) * 168 <= 9223372036854775807.

(* ------------------------------------------------------------------- simulation *)

(** Keys of a map given as a list of pairs. *)
Definition keys {A} (m : list (N * A)) : list N := map fst m.

(** [w] is the behaviour of the circuit on the input maps [ins] (one per clock) from the
    initial latch values [init] (needed for uninitialised latches only). *)
Definition sim_trace (c : circuit) (ins : list BoolMap) (init : BoolMap)
  (w : nat -> valuation) : Prop :=
  forall t m, nth_error ins t = Some m ->
    wires_ok c (w t) /\
    (forall v, is_input c v -> In (v, w t v) m) /\
    (t = 0%nat -> forall v next reset, latch c v next reset ->
       (reset = 0 -> w t v = false) /\ (reset = 1 -> w t v = true) /\
       (reset = 2 * v -> In (v, w t v) init)) /\
    (forall t', t = S t' -> step_values c (w t') (w t)).

(** Two maps with the same entries, whatever the order of the pairs. *)
Definition same_map (m m' : BoolMap) : Prop := forall k v, In (k, v) m <-> In (k, v) m'.

(** A stimulus that says everything needed and nothing else: at least one clock, each with a
    value for exactly the inputs, and initial values for the uninitialised latches (and
    possibly for other latches). *)
Definition complete_stimulus (c : circuit) (ins : list BoolMap) (init : BoolMap) : Prop :=
  ins <> [] /\
  (forall m, In m ins -> NoDup (keys m) /\ forall v, In v (keys m) <-> is_input c v) /\
  NoDup (keys init) /\
  (forall v, In v (keys init) -> is_latch c v) /\
  (forall v next reset, latch c v next reset -> reset = 2 * v -> In v (keys init)).
