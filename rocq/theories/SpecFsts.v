(** Specification: what it means that a transition system was built from a circuit, and when
    its variable numbers fit. *)
From Verif Require Import Base Formulas FormulaLogic Aig Fsts Spec SpecAig.
Open Scope N_scope.

(** [s] was built by [from_aig] from a graph that represents the circuit [c]. *)
Definition system_of (b : build) (c : circuit) (flag : bool) (s : FSTS) : Prop :=
  exists order a, represents a c /\ circuit_wf c /\ circuit_fits c /\ order_ok order /\
    from_aig b order a flag = Ok s.

(** Two time frames of variables fit into 31 bits and no bad literal is a constant. *)
Definition numbering_fits (c : circuit) (flag : bool) : Prop :=
  2 * c_max c <= 2147483647 /\
  Forall (fun l => lit_var l <> 0) (bad_literals c flag).

(** ... or the build is a debug build, which refuses to build systems that do not fit. *)
Definition well_numbered (b : build) (c : circuit) (flag : bool) : Prop :=
  b = Debug \/ numbering_fits c flag.

(** The two halves separately: next-state numbers fit, and no bad literal is a constant (in a
    debug build, [from_aig] checks both). *)
Definition next_fits (b : build) (c : circuit) : Prop :=
  b = Debug \/ forall v, is_latch c v -> v + c_max c <= 2147483647.
Definition bad_fits (b : build) (c : circuit) (flag : bool) : Prop :=
  b = Debug \/ Forall (fun l => lit_var l <> 0) (bad_literals c flag).

(** Two valuations agree on the inputs / on the latches. *)
Definition same_inputs (c : circuit) (w w' : valuation) : Prop :=
  forall v, is_input c v -> w v = w' v.
Definition same_latches (c : circuit) (w w' : valuation) : Prop :=
  forall v, is_latch c v -> w v = w' v.

(** The valuation seen through the variables of time frame [k]. *)
Definition frame (m : N) (k : N) (a : valuation) : valuation := fun v => a (v + k * m).

(** The variable can be moved to time frame [k] without leaving the 31-bit range. *)
Definition fits_frame (s : FSTS) (k v : N) : Prop :=
  1 <= v /\ v + k * get_max_literal_number s <= 2147483647.

(** A cube without complementary literals. *)
Definition consistent (q : Cube) : Prop := exists a, cube_true a q.

(** The cube names exactly the latches, each once, with the values of [w]. *)
Definition state_cube (c : circuit) (w : valuation) (q : Cube) : Prop :=
  NoDup (map lit_var (cube_lits q)) /\
  (forall v, In v (map lit_var (cube_lits q)) <-> is_latch c v) /\
  cube_true w q.

(** Every variable that occurs satisfies [P]. *)
Definition clause_vars (P : N -> Prop) (c : Clause) : Prop :=
  forall l, In l (clause_lits c) -> P (lit_var l).
Definition cube_vars (P : N -> Prop) (q : Cube) : Prop :=
  forall l, In l (cube_lits q) -> P (lit_var l).
Definition cnf_vars (P : N -> Prop) (f : CNF) : Prop :=
  forall c, In c (cnf_clauses f) -> clause_vars P c.

(** The formula, read as a predicate on states, holds initially, is kept by every step, and
    excludes bad states. *)
Definition inductive_safe (c : circuit) (flag : bool) (inv : valuation -> Prop) : Prop :=
  (forall w, wires_ok c w -> initial_values c w -> inv w) /\
  (forall w w', wires_ok c w -> wires_ok c w' -> step_values c w w' -> inv w -> inv w') /\
  (forall w, wires_ok c w -> inv w -> ~ is_bad c flag w).

(** Some AND gate below the literals [lits] has variable [v] as an operand and not the constant 0
    as the other one. *)
Definition read_below (c : circuit) (lits : list N) (v : N) : Prop :=
  exists g r0 r1, fan_in c lits g /\ gate c g r0 r1 /\ r0 <> 0 /\ r1 <> 0 /\
    (lit_var r0 = v \/ lit_var r1 = v).

(** Every latch that is itself a bad literal is also read by a gate below the bad literals; in
    particular when no bad literal is a latch. *)
Definition bad_latches_read (c : circuit) (flag : bool) : Prop :=
  forall l, In l (bad_literals c flag) -> is_latch c (lit_var l) ->
    read_below c (bad_literals c flag) (lit_var l).

(** Variable [v] is the next state of some latch or read by a gate below the next states. *)
Definition read_by_next (c : circuit) (v : N) : Prop :=
  (exists l next reset, latch c l next reset /\ lit_var next = v) \/
  read_below c (map fst (c_latches c)) v.

(** Two systems that no method tells apart: equal numbers, initial relation and properties, equal
    ([==]) formulas with the same largest variable, and the same answers to questions about cubes. *)
Definition same_system (s1 s2 : FSTS) : Prop :=
  get_initial_relation s1 = get_initial_relation s2 /\
  get_unsafety_property s1 = get_unsafety_property s2 /\
  get_safety_property s1 = get_safety_property s2 /\
  get_max_literal_number s1 = get_max_literal_number s2 /\
  get_state_literal_numbers s1 = get_state_literal_numbers s2 /\
  get_input_literal_numbers s1 = get_input_literal_numbers s2 /\
  cnf_eqb (get_transition_relation s1) (get_transition_relation s2) = true /\
  cnf_max (get_transition_relation s1) = cnf_max (get_transition_relation s2) /\
  cnf_eqb (get_state_to_safety_translation s1) (get_state_to_safety_translation s2) = true /\
  cnf_max (get_state_to_safety_translation s1) = cnf_max (get_state_to_safety_translation s2) /\
  forall q, is_cube_initial s1 q = is_cube_initial s2 q /\
    intersect_cube_with_cone_of_safety s1 q = intersect_cube_with_cone_of_safety s2 q /\
    intersect_cube_with_cone_of_transition s1 q = intersect_cube_with_cone_of_transition s2 q.

(** Two systems with the same variables, initial states and steps; they may differ in what is bad. *)
Definition same_dynamics (s1 s2 : FSTS) : Prop :=
  get_initial_relation s1 = get_initial_relation s2 /\
  get_max_literal_number s1 = get_max_literal_number s2 /\
  get_state_literal_numbers s1 = get_state_literal_numbers s2 /\
  get_input_literal_numbers s1 = get_input_literal_numbers s2 /\
  cnf_eqb (get_transition_relation s1) (get_transition_relation s2) = true /\
  cnf_max (get_transition_relation s1) = cnf_max (get_transition_relation s2) /\
  forall q, is_cube_initial s1 q = is_cube_initial s2 q /\
    intersect_cube_with_cone_of_transition s1 q = intersect_cube_with_cone_of_transition s2 q.

(** Both runs end in the same way, with related results. *)
Definition same_outcome {A} (R : A -> A -> Prop) (m1 m2 : res A) : Prop :=
  match m1, m2 with
  | Ok x, Ok y => R x y
  | Panic, Panic | OutOfFuel, OutOfFuel => True
  | _, _ => False
  end.
