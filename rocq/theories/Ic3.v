(** Model of src/algorithms/proof/ic3_stateless_solver.rs ("SL" below),
    src/algorithms/proof/ic3_stateful_solver.rs ("SF" below) and proof_result.rs.

    The two files share the text of the algorithm and differ in how they keep the frames and
    how they ask the SAT questions.  The differing functions are collected in the record
    [Ic3Ops], instantiated twice below; the shared functions are modelled once. *)
From Verif Require Import Base Formulas FormulaLogic Fsts Solvers.
Open Scope nat_scope.

(** proof_result.rs:12-15. *)
Inductive ProofResult :=
| Proof (invariant : CNF)
| ProofCTX (depth : N).

(** [usize -> u32] conversion of a frame number with [try_into().unwrap()] (SL:425, SF:508). *)
Definition depth_of_frame (k : nat) : res N :=
  _ <- assert_ (N.of_nat k <? u32_mod)%N ;; Ok (N.of_nat k).

(* ------------------------------------------------------- priority queue crate *)

(** priority_queue::PriorityQueue<Cube, Reverse<usize>>: items with distinct keys
    (SL:264,350, SF:341,427, pdr.rs:551). *)
Definition Queue (A : Type) := list (A * nat).

(** [push] (SL:289,300,351, SF:366,377,428, pdr.rs:553,606,623,624): an equal item that is
    already queued only gets the new priority. *)
Definition queue_push {A} (eqb : A -> A -> bool) (q : Queue A) (x : A) (n : nat) : Queue A :=
  if existsb (fun e => eqb x (fst e)) q
  then map (fun e => if eqb x (fst e) then (fst e, n) else e) q
  else q ++ [(x, n)].

(** The first element whose number is minimal, and the others (for [queue_pop], SL:269). *)
Fixpoint take_min {A} (best : A * nat) (seen rest : Queue A) : (A * nat) * Queue A :=
  match rest with
  | [] => (best, seen)
  | e :: r => if (snd e <? snd best) then take_min e (best :: seen) r
              else take_min best (e :: seen) r
  end.

(** [pop] (SL:269, SF:346, pdr.rs:561) of a queue ordered by [Reverse<usize>]: some element with the smallest number; the
    choice among equals is made by the permutation [p]. *)
Definition queue_pop {A} (p : forall B : Type, list B -> list B) (q : Queue A)
  : option ((A * nat) * Queue A) :=
  match p (A * nat)%type q with
  | [] => None
  | e :: r => Some (take_min e [] r)
  end.

(* ------------------------------------------------------------------ interface *)

(** The functions in which the two IC3 files differ (SL:89-260, SF:105-284; lines per field). *)
Record Ic3Ops := mkIc3Ops {
  (** the fields of the struct that change: [clauses], solvers, counters *)
  ox : Type;
  (** [self.clauses] *)
  o_clauses : ox -> list CNF;
  (** SL:414,415,417 [self.clauses.push(CNF::new())], SF:121-149 *)
  o_push_frame : ox -> res ox;
  (** SL:143,229 [self.clauses[j].add_clause(c)], SF:105-115 *)
  o_add_clause : ox -> nat -> Clause -> res ox;
  (** SL:111-117, SF:186-192 *)
  o_bad_in_0 : ox -> res (SatResponse * ox);
  (** SL:119-126, SF:194-201 *)
  o_bad_in_1 : ox -> res (SatResponse * ox);
  (** SL:332 with 153-159, SF:209-212 *)
  o_bad_from_fi : ox -> nat -> res (SatResponse * ox);
  (** SL:254-260, SF:203-207 *)
  o_reach_from_fi : ox -> nat -> Cube -> res (SatResponse * ox);
  (** SL:132-140 (query of the propagation loop), SF:260 *)
  o_propagate_query : ox -> nat -> Clause -> res (SatResponse * ox);
  (** SL:162-172, SF:214-223 *)
  o_not_s_and_s_tag : ox -> nat -> Cube -> res (bool * ox);
  (** SL:174-198, SF:274-284 *)
  o_clause_inductive : ox -> Clause -> nat -> res (bool * ox);
  (** SL:101-109, SF:246-254 *)
  o_get_fk : ox -> nat -> res CNF;
  (** SL:420 (nothing more), SF:503 *)
  o_loop_check : ox -> res unit }.

(** State of a run: the struct's fields (SL:59-78, SF:70-94) and the number of random draws
    so far. *)
Record Ic3State (O : Ic3Ops) := mkIc3State { st_ops : ox O; st_draws : nat }.
Arguments mkIc3State {O}.
Arguments st_ops {O}.
Arguments st_draws {O}.

(** SL:45-48, SF:49-52. *)
Inductive InductivelyGeneralizeResult :=
| IG_Success (n : nat)
| IG_Failure.

(** SL:40-43,50-53, SF:44-47,54-57: [Success] / [Failure]. *)
Inductive Outcome := Success | Failure.

Section Algorithm.
Variable (b : build) (R : Random) (O : Ic3Ops) (s : FSTS).
Notation St := (Ic3State O).

(** Running one of the operations on the struct ([&mut self] methods, SL:89-198, SF:105-284). *)
Definition op {A} (f : ox O -> res (A * ox O)) (st : St) : res (A * St) :=
  '(a, x) <- f (st_ops st) ;; Ok (a, mkIc3State x (st_draws st)).

(** An operation without a result (SL:143,229,414-417, SF:105-149). *)
Definition op_ (f : ox O -> res (ox O)) (st : St) : res St :=
  x <- f (st_ops st) ;; Ok (mkIc3State x (st_draws st)).

(** A random permutation ([shuffle], SL:207, SF:293; hash order, SL:131, SF:259). *)
Definition draw {A} (l : list A) (st : St) : list A * St :=
  (R (st_draws st) A l, mkIc3State (st_ops st) (S (st_draws st))).

(** SL:200-224 loop 209-222, SF:286-310 loop 295-308. *)
Fixpoint subclause_loop (fuel : nat) (i : nat) (c_literals : list Literal) (j : nat) (st : St)
  : res (list Literal * St) :=
  if (j <? length c_literals)%nat then
    match fuel with
    | 0 => OutOfFuel
    | S fuel' =>
        '(removed, shorter) <- swap_remove c_literals j ;;
        let d := clause_new shorter in
        '(inductive, st) <- op (fun x => o_clause_inductive O x d i) st ;;
        if (inductive : bool) then subclause_loop fuel' i shorter j st
        else
          let pushed := shorter ++ [removed] in
          let last_index := (length pushed - 1)%nat in
          restored <- swap pushed j last_index ;;
          subclause_loop fuel' i restored (S j) st
    end
  else Ok (c_literals, st).

(** SL:200-224, SF:286-310, [get_subclause_of_not_s_that_is_inductive_relative_to_fi].  The
    loop runs at most once per literal. *)
Definition get_subclause (cube : Cube) (i : nat) (st : St) : res (Clause * St) :=
  let c := cube_not cube in
  let '(c_literals, st) := draw (clause_iter c) st in
  '(lits, st) <- subclause_loop (length c_literals) i c_literals 0 st ;;
  Ok (clause_new lits, st).

(** SL:226-231, SF:312-317, [generate_clause]. *)
Definition generate_clause (cube : Cube) (i : nat) (st : St) : res St :=
  '(c, st) <- get_subclause cube i st ;;
  foldM (fun st j => op_ (fun x => o_add_clause O x j c) st) (seq 1 (S i)) st.

(** SL:243-248, SF:329-334: the frames left to try are [is]. *)
Fixpoint generalize_loop (cube : Cube) (k : nat) (frames : list nat) (st : St)
  : res (InductivelyGeneralizeResult * St) :=
  match frames with
  | [] =>
      st <- generate_clause cube k st ;;
      Ok (IG_Success k, st)
  | i :: rest =>
      '(sat, st) <- op (fun x => o_not_s_and_s_tag O x i cube) st ;;
      if (sat : bool) then
        st <- generate_clause cube (i - 1) st ;;
        Ok (IG_Success (i - 1), st)
      else generalize_loop cube k rest st
  end.

(** SL:233-251, SF:319-337, [inductively_generalize]; [min] is an [isize]. *)
Definition inductively_generalize (cube : Cube) (min : Z) (k : nat) (st : St)
  : res (InductivelyGeneralizeResult * St) :=
  '(fail, st) <- (if (min <? 0)%Z then op (fun x => o_not_s_and_s_tag O x 0 cube) st
                  else Ok (false, st)) ;;
  if (fail : bool) then Ok (IG_Failure, st)
  else
    let start := Z.to_nat (Z.max 1 (min + 1)) in
    generalize_loop cube k (seq start (S k - start)) st.

(** SL:262-306, SF:339-383, [push_generalization]. *)
Fixpoint push_generalization (fuel : nat) (states : Queue Cube) (k : nat) (st : St)
  : res (Outcome * St) :=
  match fuel with
  | 0 => OutOfFuel
  | S fuel' =>
      let p := R (st_draws st) in
      let st := mkIc3State (st_ops st) (S (st_draws st)) in
      '((cube, n), states) <- unwrap (queue_pop p states) ;;
      if (k <? n)%nat then Ok (Success, st)
      else
        '(r, st) <- op (fun x => o_reach_from_fi O x n cube) st ;;
        match r with
        | Sat assignment =>
            pred <- extract_state_from_assignment b s assignment ;;
            '(g, st) <- inductively_generalize pred (Z.of_nat n - 2) k st ;;
            match g with
            | IG_Failure => Ok (Failure, st)
            | IG_Success m =>
                let states := queue_push cube_eqb states cube n in
                let states := queue_push cube_eqb states pred (m + 1) in
                push_generalization fuel' states k st
            end
        | UnSat =>
            '(g, st) <- inductively_generalize cube (Z.of_nat n) k st ;;
            match g with
            | IG_Failure => Ok (Failure, st)
            | IG_Success m =>
                push_generalization fuel' (queue_push cube_eqb states cube (m + 1)) k st
            end
        end
  end.

(** SL:330-367, SF:407-444, [strengthen]; [inner] is the fuel of the inner loop. *)
Fixpoint strengthen (inner fuel : nat) (k : nat) (st : St) : res (Outcome * St) :=
  match fuel with
  | 0 => OutOfFuel
  | S fuel' =>
      '(r, st) <- op (fun x => o_bad_from_fi O x k) st ;;
      match r with
      | UnSat => Ok (Success, st)
      | Sat assignment =>
          cube <- extract_state_from_assignment b s assignment ;;
          '(g, st) <- inductively_generalize cube (Z.of_nat k - 2) k st ;;
          match g with
          | IG_Failure => Ok (Failure, st)
          | IG_Success n =>
              let queue := queue_push cube_eqb [] cube (n + 1) in
              '(o, st) <- push_generalization inner queue k st ;;
              match o with
              | Failure => Ok (Failure, st)
              | Success => strengthen inner fuel' k st
              end
          end
      end
  end.

(** SL:131-149, SF:259-270: the clauses of one frame. *)
Definition propagate_frame (st : St) (i : nat) : res St :=
  clauses_fi <- indexn (o_clauses O (st_ops st)) i ;;
  let '(order, st) := draw (cnf_clauses clauses_fi) st in
  foldM (fun st c =>
           '(r, st) <- op (fun x => o_propagate_query O x i c) st ;;
           match r with
           | UnSat => op_ (fun x => o_add_clause O x (i + 1) c) st
           | Sat _ => Ok st
           end) order st.

(** SL:128-151, SF:256-272, [propagate_clauses]. *)
Definition propagate_clauses (k : nat) (st : St) : res St :=
  foldM propagate_frame (seq 1 k) st.

(** SL:430-442, SF:513-528: look for two equal consecutive frames among [frames]. *)
Fixpoint find_fixpoint (frames : list nat) (x : ox O) : res (option CNF) :=
  match frames with
  | [] => Ok None
  | i :: rest =>
      fi <- indexn (o_clauses O x) i ;;
      fi1 <- indexn (o_clauses O x) (i + 1) ;;
      _ <- debug_assert b (forallb (cnf_contains fi) (cnf_clauses fi1)) ;;
      if (cnf_len fi =? cnf_len fi1)%N then
        inv <- o_get_fk O x i ;; Ok (Some inv)
      else find_fixpoint rest x
  end.

(** SL:416-443, SF:498-529: the main loop; [outer] is its fuel, [inner] the fuel handed to the
    inner loops. *)
Fixpoint prove_loop (inner outer : nat) (k : nat) (st : St) : res (ProofResult * St) :=
  match outer with
  | 0 => OutOfFuel
  | S outer' =>
      st <- op_ (o_push_frame O) st ;;
      _ <- debug_assert b (length (o_clauses O (st_ops st)) =? k + 2)%nat ;;
      _ <- o_loop_check O (st_ops st) ;;
      '(o, st) <- strengthen inner inner k st ;;
      match o with
      | Failure => d <- depth_of_frame k ;; Ok (ProofCTX d, st)
      | Success =>
          st <- propagate_clauses k st ;;
          found <- find_fixpoint (seq 1 k) (st_ops st) ;;
          match found with
          | Some inv => Ok (Proof inv, st)
          | None => prove_loop inner outer' (S k) st
          end
      end
  end.

(** SL:397-445, SF:479-531, [prove]. *)
Definition ic3_prove (fuel : nat) (st : St) : res (ProofResult * St) :=
  '(r0, st) <- op (o_bad_in_0 O) st ;;
  match r0 with
  | Sat _ => Ok (ProofCTX 0, st)
  | UnSat =>
      '(r1, st) <- op (o_bad_in_1 O) st ;;
      match r1 with
      | Sat _ => Ok (ProofCTX 1, st)
      | UnSat =>
          st <- op_ (o_push_frame O) st ;;
          st <- op_ (o_push_frame O) st ;;
          prove_loop fuel fuel 1 st
      end
  end.

End Algorithm.

(* -------------------------------------------------------- constants of [new] *)

(** SL:374-375, SF:451-452. *)
Definition ic3_p0 (s : FSTS) : CNF :=
  cnf_append (get_state_to_safety_translation s) (cube_to_cnf (get_safety_property s)).

(** SL:377-378, SF:454-455. *)
Definition ic3_not_p0 (s : FSTS) : CNF :=
  cnf_append (get_state_to_safety_translation s) (clause_to_cnf (get_unsafety_property s)).

(** The cached formulas, SL:66-71,385-389, SF:82-87,467-471. *)
Record Ic3Cache := mkIc3Cache {
  c_initial : CNF;
  c_transition : CNF;
  c_p0 : CNF;
  c_not_p0 : CNF;
  c_not_p1 : CNF }.

(** SL:385-389, SF:467-471. *)
Definition ic3_cache (b : build) (s : FSTS) : res Ic3Cache :=
  not_p1 <- add_tags_to_relation b s (ic3_not_p0 s) 1 ;;
  Ok (mkIc3Cache (cube_to_cnf (get_initial_relation s)) (get_transition_relation s)
        (ic3_p0 s) (ic3_not_p0 s) not_p1).

(* ------------------------------------------------------------------ stateless *)

(** The counter [number_of_sat_calls] is a [u32] that only grows and is only printed (SL:75,90,318,
    SF:91,161,395).  The model counts without a limit and checks for an overflow, which panics in
    a debug build (SL:90, SF:161), when [prove] is done. *)
Definition sat_calls_fit (b : build) (number_of_sat_calls : nat) : res unit :=
  debug_assert b (N.of_nat number_of_sat_calls <? u32_mod)%N.

(** SL:59-78: the changing fields. *)
Record SLState := mkSLState { sl_clauses : list CNF; sl_calls : nat }.

Section Stateless.
Variable (b : build) (T : StatelessSolver) (s : FSTS) (C : Ic3Cache).

(** SL:89-95, [sat_call]. *)
Definition sl_sat_call (x : SLState) (cnf_to_solve : CNF) : res (SatResponse * SLState) :=
  r <- T (sl_calls x) cnf_to_solve ;;
  Ok (r, mkSLState (sl_clauses x) (S (sl_calls x))).

(** SL:101-109, [get_fk]. *)
Definition sl_get_fk (x : SLState) (k : nat) : res CNF :=
  clauses_fk <- indexn (sl_clauses x) k ;;
  Ok (if (k =? 0)%nat then cnf_append clauses_fk (c_initial C)
      else cnf_append clauses_fk (c_p0 C)).

(** SL:111-117. *)
Definition sl_bad_in_0 (x : SLState) : res (SatResponse * SLState) :=
  sl_sat_call x (cnf_append (cnf_append cnf_new (c_initial C)) (c_not_p0 C)).

(** SL:119-126. *)
Definition sl_bad_in_1 (x : SLState) : res (SatResponse * SLState) :=
  sl_sat_call x
    (cnf_append (cnf_append (cnf_append cnf_new (c_initial C)) (c_transition C)) (c_not_p1 C)).

(** SL:332 and 153-159. *)
Definition sl_bad_from_fi (x : SLState) (k : nat) : res (SatResponse * SLState) :=
  fk <- sl_get_fk x k ;;
  sl_sat_call x
    (cnf_append (cnf_append (cnf_append cnf_new fk) (c_transition C)) (c_not_p1 C)).

(** SL:254-260. *)
Definition sl_reach_from_fi (x : SLState) (i : nat) (cube : Cube) : res (SatResponse * SLState) :=
  fi <- sl_get_fk x i ;;
  tagged <- add_tags_to_relation b s (cube_to_cnf cube) 1 ;;
  sl_sat_call x (cnf_append (cnf_append (cnf_append cnf_new fi) (c_transition C)) tagged).

(** SL:132-140. *)
Definition sl_propagate_query (x : SLState) (i : nat) (c : Clause) : res (SatResponse * SLState) :=
  fi <- sl_get_fk x i ;;
  tagged <- add_tags_to_relation b s (cube_to_cnf (clause_not c)) 1 ;;
  sl_sat_call x (cnf_append (cnf_append (cnf_append cnf_new fi) (c_transition C)) tagged).

(** [match self.sat_call(..) { UnSat => false, Sat => true }] (SL:168-171,188-196, SF:219-222). *)
Definition is_sat_response (r : SatResponse) : bool :=
  match r with UnSat => false | Sat _ => true end.

(** SL:162-172. *)
Definition sl_not_s_and_s_tag (x : SLState) (i : nat) (cube : Cube) : res (bool * SLState) :=
  fi <- sl_get_fk x i ;;
  let new_cnf := cnf_append (cnf_append cnf_new fi) (c_transition C) in
  let new_cnf := cnf_add_clause new_cnf (cube_not cube) in
  tagged <- add_tags_to_relation b s (cube_to_cnf cube) 1 ;;
  '(r, x) <- sl_sat_call x (cnf_append new_cnf tagged) ;;
  Ok (is_sat_response r, x).

(** SL:174-198. *)
Definition sl_clause_inductive (x : SLState) (d : Clause) (i : nat) : res (bool * SLState) :=
  let first_cnf := cnf_append (c_initial C) (cube_to_cnf (clause_not d)) in
  '(r, x) <- sl_sat_call x first_cnf ;;
  match r with
  | Sat _ => Ok (false, x)
  | UnSat =>
      fi <- sl_get_fk x i ;;
      let second_cnf := cnf_append (cnf_add_clause fi d) (c_transition C) in
      tagged <- add_tags_to_relation b s (cube_to_cnf (clause_not d)) 1 ;;
      '(r, x) <- sl_sat_call x (cnf_append second_cnf tagged) ;;
      Ok (negb (is_sat_response r), x)
  end.

(** SL:143,229. *)
Definition sl_add_clause (x : SLState) (j : nat) (c : Clause) : res SLState :=
  f <- indexn (sl_clauses x) j ;;
  Ok (mkSLState (set_nth (sl_clauses x) j (cnf_add_clause f c)) (sl_calls x)).

(** SL:414,415,417. *)
Definition sl_push_frame (x : SLState) : res SLState :=
  Ok (mkSLState (sl_clauses x ++ [cnf_new]) (sl_calls x)).

(** The operations of [IC3Stateless] (SL:89-260). *)
Definition sl_ops : Ic3Ops :=
  mkIc3Ops SLState sl_clauses sl_push_frame sl_add_clause sl_bad_in_0 sl_bad_in_1
    sl_bad_from_fi sl_reach_from_fi sl_propagate_query sl_not_s_and_s_tag sl_clause_inductive
    sl_get_fk (fun _ => Ok tt).

End Stateless.

(** [IC3Stateless::new(&fsts, _)] (SL:373-395) followed by [prove] (SL:397-445): the result and
    the final value of [number_of_sat_calls]. *)
Definition ic3_stateless_run (b : build) (R : Random) (T : StatelessSolver) (fuel : nat) (s : FSTS)
  : res (ProofResult * nat) :=
  C <- ic3_cache b s ;;
  '(r, st) <- ic3_prove b R (sl_ops b T s C) s fuel
              (mkIc3State (O := sl_ops b T s C) (mkSLState [] 0) 0) ;;
  Ok (r, sl_calls (st_ops st)).

(** The same with the counter checked (SL:90). *)
Definition ic3_stateless (b : build) (R : Random) (T : StatelessSolver) (fuel : nat) (s : FSTS)
  : res ProofResult :=
  '(r, n) <- ic3_stateless_run b R T fuel s ;;
  _ <- sat_calls_fit b n ;;
  Ok r.

(** Two calls of [prove] on the same object (SL:397-445 twice). *)
Definition ic3_stateless_twice_run (b : build) (R : Random) (T : StatelessSolver) (fuel : nat)
  (s : FSTS) : res (ProofResult * ProofResult * nat) :=
  C <- ic3_cache b s ;;
  '(r1, st) <- ic3_prove b R (sl_ops b T s C) s fuel
             (mkIc3State (O := sl_ops b T s C) (mkSLState [] 0) 0) ;;
  '(r2, st) <- ic3_prove b R (sl_ops b T s C) s fuel st ;;
  Ok (r1, r2, sl_calls (st_ops st)).

(** The same with the counter checked (SL:90). *)
Definition ic3_stateless_twice (b : build) (R : Random) (T : StatelessSolver) (fuel : nat)
  (s : FSTS) : res (ProofResult * ProofResult) :=
  '(r, n) <- ic3_stateless_twice_run b R T fuel s ;;
  _ <- sat_calls_fit b n ;;
  Ok r.

(* ------------------------------------------------------------------- stateful *)

(** SF:70-94: the changing fields. *)
Record SFState (SS : StatefulSolver) := mkSFState {
  sf_clauses : list CNF;
  sf_fi_t : list (ss_state SS);
  sf_initial : ss_state SS;
  sf_fi_t_notp : list (ss_state SS);
  sf_calls : nat }.
Arguments mkSFState {SS}.
Arguments sf_clauses {SS}.
Arguments sf_fi_t {SS}.
Arguments sf_initial {SS}.
Arguments sf_fi_t_notp {SS}.
Arguments sf_calls {SS}.

Section Stateful.
Variable (b : build) (SS : StatefulSolver) (s : FSTS) (C : Ic3Cache).
Notation X := (SFState SS).

(** [add_cnf] of several formulas in a row (SF:128-145). *)
Definition add_cnfs (st : ss_state SS) (fs : list CNF) : res (ss_state SS) :=
  foldM (ss_add_cnf SS) fs st.

(** SF:175-179, the [Custom] variant of [sat_call]: a solver for one query. *)
Definition sf_custom (x : X) (f : CNF) : res (SatResponse * X) :=
  current_solver <- ss_add_cnf SS (ss_new SS HintNone) f ;;
  '(r, _) <- ss_solve SS current_solver None None ;;
  Ok (r, mkSFState (sf_clauses x) (sf_fi_t x) (sf_initial x) (sf_fi_t_notp x) (S (sf_calls x))).

(** SF:166-168, the [Initial] variant. *)
Definition sf_solve_initial (x : X) (cube : option Cube) (clause : option Clause)
  : res (SatResponse * X) :=
  '(r, st) <- ss_solve SS (sf_initial x) cube clause ;;
  Ok (r, mkSFState (sf_clauses x) (sf_fi_t x) st (sf_fi_t_notp x) (S (sf_calls x))).

(** SF:169-171, the [FiAndT] variant. *)
Definition sf_solve_fi_t (x : X) (j : nat) (cube : option Cube) (clause : option Clause)
  : res (SatResponse * X) :=
  solver <- indexn (sf_fi_t x) j ;;
  '(r, st) <- ss_solve SS solver cube clause ;;
  Ok (r, mkSFState (sf_clauses x) (set_nth (sf_fi_t x) j st) (sf_initial x) (sf_fi_t_notp x)
           (S (sf_calls x))).

(** SF:172-174, the [FiAndTAndNotPTag] variant. *)
Definition sf_solve_fi_t_notp (x : X) (j : nat) : res (SatResponse * X) :=
  solver <- indexn (sf_fi_t_notp x) j ;;
  '(r, st) <- ss_solve SS solver None None ;;
  Ok (r, mkSFState (sf_clauses x) (sf_fi_t x) (sf_initial x) (set_nth (sf_fi_t_notp x) j st)
           (S (sf_calls x))).

(** SF:106-110, 122-126: the three vectors have equal lengths. *)
Definition sf_same_lengths (x : X) : res unit :=
  _ <- debug_assert b (length (sf_clauses x) =? length (sf_fi_t x))%nat ;;
  debug_assert b (length (sf_clauses x) =? length (sf_fi_t_notp x))%nat.

(** SF:105-115, [add_clause_to_clauses]. *)
Definition sf_add_clause (x : X) (j : nat) (c : Clause) : res X :=
  _ <- sf_same_lengths x ;;
  f <- indexn (sf_clauses x) j ;;
  let clauses := set_nth (sf_clauses x) j (cnf_add_clause f c) in
  s1 <- indexn (sf_fi_t x) j ;;
  s1 <- ss_add_cnf SS s1 (clause_to_cnf c) ;;
  s2 <- indexn (sf_fi_t_notp x) j ;;
  s2 <- ss_add_cnf SS s2 (clause_to_cnf c) ;;
  Ok (mkSFState clauses (set_nth (sf_fi_t x) j s1) (sf_initial x)
        (set_nth (sf_fi_t_notp x) j s2) (sf_calls x)).

(** SF:121-149, [push_extra_frame_to_clauses]. *)
Definition sf_push_frame (x : X) : res X :=
  _ <- sf_same_lengths x ;;
  let first := match sf_fi_t x with [] => true | _ => false end in
  let base := if first then c_initial C else c_p0 C in
  fi_and_t <- add_cnfs (ss_new SS HintNone) [c_transition C; base] ;;
  fi_and_t_and_not_p_tag <- add_cnfs (ss_new SS HintNone)
                              [c_transition C; c_not_p1 C; base] ;;
  Ok (mkSFState (sf_clauses x ++ [cnf_new]) (sf_fi_t x ++ [fi_and_t]) (sf_initial x)
        (sf_fi_t_notp x ++ [fi_and_t_and_not_p_tag]) (sf_calls x)).

(** SF:186-192. *)
Definition sf_bad_in_0 (x : X) : res (SatResponse * X) :=
  sf_custom x (cnf_append (cnf_append cnf_new (c_initial C)) (c_not_p0 C)).

(** SF:194-201. *)
Definition sf_bad_in_1 (x : X) : res (SatResponse * X) :=
  sf_custom x
    (cnf_append (cnf_append (cnf_append cnf_new (c_initial C)) (c_transition C)) (c_not_p1 C)).

(** SF:203-207. *)
Definition sf_reach_from_fi (x : X) (i : nat) (cube : Cube) : res (SatResponse * X) :=
  cube_tag <- add_tags_to_cube b s cube 1 ;;
  sf_solve_fi_t x i (Some cube_tag) None.

(** SF:260. *)
Definition sf_propagate_query (x : X) (i : nat) (c : Clause) : res (SatResponse * X) :=
  sf_reach_from_fi x i (clause_not c).

(** SF:214-223. *)
Definition sf_not_s_and_s_tag (x : X) (i : nat) (cube : Cube) : res (bool * X) :=
  s_tag <- add_tags_to_cube b s cube 1 ;;
  '(r, x) <- sf_solve_fi_t x i (Some s_tag) (Some (cube_not cube)) ;;
  Ok (is_sat_response r, x).

(** SF:225-233. *)
Definition sf_clause_and_not_clause_tag (x : X) (i : nat) (d : Clause) : res (bool * X) :=
  not_d_tag <- add_tags_to_cube b s (clause_not d) 1 ;;
  '(r, x) <- sf_solve_fi_t x i (Some not_d_tag) (Some d) ;;
  Ok (is_sat_response r, x).

(** SF:235-240. *)
Definition sf_intersects_initial (x : X) (cube : Cube) : res (bool * X) :=
  '(r, x) <- sf_solve_initial x (Some cube) None ;;
  Ok (is_sat_response r, x).

(** The condition of a [debug_assert!] is only evaluated in debug builds (SF:277,280). *)
Definition sf_debug_check (x : X) (cube : Cube) (expected : bool) : res X :=
  match b with
  | Release => Ok x
  | Debug =>
      '(r, x) <- sf_intersects_initial x cube ;;
      _ <- assert_ (eqb r expected) ;;
      Ok x
  end.

(** SF:274-284. *)
Definition sf_clause_inductive (x : X) (d : Clause) (i : nat) : res (bool * X) :=
  if is_cube_initial s (clause_not d) then
    x <- sf_debug_check x (clause_not d) true ;;
    Ok (false, x)
  else
    x <- sf_debug_check x (clause_not d) false ;;
    '(sat, x) <- sf_clause_and_not_clause_tag x i d ;;
    Ok (negb sat, x).

(** SF:246-254 (with 117-119). *)
Definition sf_get_fk (x : X) (k : nat) : res CNF :=
  clauses_fk <- indexn (sf_clauses x) k ;;
  Ok (if (k =? 0)%nat then cnf_append clauses_fk (c_initial C)
      else cnf_append clauses_fk (c_p0 C)).

(** SF:503. *)
Definition sf_loop_check (x : X) : res unit :=
  f <- indexn (sf_clauses x) 0 ;;
  debug_assert b (cnf_len f =? 0)%N.

(** The operations of [IC3Stateful] (SF:105-284,503). *)
Definition sf_ops : Ic3Ops :=
  mkIc3Ops X sf_clauses sf_push_frame sf_add_clause sf_bad_in_0 sf_bad_in_1
    sf_solve_fi_t_notp sf_reach_from_fi sf_propagate_query sf_not_s_and_s_tag
    sf_clause_inductive sf_get_fk sf_loop_check.

(** SF:457-477: the state after [new]. *)
Definition sf_new : res X :=
  st <- ss_add_cnf SS (ss_new SS HintNone) (c_initial C) ;;
  Ok (mkSFState [] [] st [] 0).

End Stateful.

(** [IC3Stateful::new(&fsts, _)] (SF:450-477) followed by [prove] (SF:479-531): the result and
    the final value of [number_of_sat_calls]. *)
Definition ic3_stateful_run (b : build) (R : Random) (SS : StatefulSolver) (fuel : nat) (s : FSTS)
  : res (ProofResult * nat) :=
  C <- ic3_cache b s ;;
  x <- sf_new SS C ;;
  '(r, st) <- ic3_prove b R (sf_ops b SS s C) s fuel (mkIc3State (O := sf_ops b SS s C) x 0) ;;
  Ok (r, sf_calls (st_ops st)).

(** The same with the counter checked (SF:161). *)
Definition ic3_stateful (b : build) (R : Random) (SS : StatefulSolver) (fuel : nat) (s : FSTS)
  : res ProofResult :=
  '(r, n) <- ic3_stateful_run b R SS fuel s ;;
  _ <- sat_calls_fit b n ;;
  Ok r.

(** Two calls of [prove] on the same object (SF:479-531 twice). *)
Definition ic3_stateful_twice_run (b : build) (R : Random) (SS : StatefulSolver) (fuel : nat)
  (s : FSTS) : res (ProofResult * ProofResult * nat) :=
  C <- ic3_cache b s ;;
  x <- sf_new SS C ;;
  '(r1, st) <- ic3_prove b R (sf_ops b SS s C) s fuel (mkIc3State (O := sf_ops b SS s C) x 0) ;;
  '(r2, st) <- ic3_prove b R (sf_ops b SS s C) s fuel st ;;
  Ok (r1, r2, sf_calls (st_ops st)).

(** The same with the counter checked (SF:161). *)
Definition ic3_stateful_twice (b : build) (R : Random) (SS : StatefulSolver) (fuel : nat)
  (s : FSTS) : res (ProofResult * ProofResult) :=
  '(r, n) <- ic3_stateful_twice_run b R SS fuel s ;;
  _ <- sat_calls_fit b n ;;
  Ok r.
