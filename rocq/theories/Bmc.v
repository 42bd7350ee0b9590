(** Model of src/algorithms/bmc.rs. *)
From Verif Require Import Base Formulas FormulaLogic Fsts.
Open Scope N_scope.

(** bmc.rs:20-28, [BMCResult]. *)
Inductive BMCResult :=
| NoCTX (depth_reached : Z)
| CTX (assignment : Assignment) (depth : N).

(** What the clock and the solver thread do, per depth: whether the timeout has already passed
    when the depth is started (bmc.rs:120), and whether the SAT call is abandoned
    (bmc.rs:64-79). *)
Record Clock := mkClock {
  expired_before : N -> bool;
  call_times_out : N -> bool }.

(** bmc.rs:30-33. *)
Inductive TimedSatResult :=
| TimeOut
| NoTimeOut (response : SatResponse).

(** bmc.rs:53-80, [timed_sat_call]; the sleeping loop is abstracted into
    [call_times_out]. *)
Definition timed_sat_call (T : StatelessSolver) (clk : Clock) (depth : N) (f : CNF)
  : res TimedSatResult :=
  if call_times_out clk depth then Ok TimeOut
  else response <- T (N.to_nat depth) f ;; Ok (NoTimeOut response).

(** [u32 -> i32] with [try_into().unwrap()] (bmc.rs:121,140,148). *)
Definition i32_of_u32 (n : N) : res Z :=
  _ <- assert_ (n <=? 2147483647) ;; Ok (Z.of_N n).

(** bmc.rs:128-130: append the transition relation tagged 0 .. depth-1. *)
Definition bmc_unroll (b : build) (s : FSTS) (tr : CNF) (depth : N) (f : CNF) : res CNF :=
  foldM (fun acc i => t <- add_tags_to_relation b s tr (N.of_nat i) ;; Ok (cnf_append acc t))
    (seq 0 (N.to_nat depth)) f.

(** bmc.rs:127-131: the formula solved at a depth. *)
Definition bmc_formula (b : build) (s : FSTS) (depth : N) : res CNF :=
  let initial := get_initial_relation s in
  let not_p0 := cnf_append (clause_to_cnf (get_unsafety_property s))
                  (get_state_to_safety_translation s) in
  let tr := get_transition_relation s in
  sat_formula <- bmc_unroll b s tr depth (cube_to_cnf initial) ;;
  p <- add_tags_to_relation b s not_p0 depth ;;
  Ok (cnf_append sat_formula p).

(** bmc.rs:112-146, the loop over depths; [remaining] is the number of iterations left. *)
Fixpoint bmc_loop (b : build) (T : StatelessSolver) (clk : Clock) (s : FSTS)
  (limit : N) (remaining : nat) (depth : N) : res BMCResult :=
  match remaining with
  | O => d <- i32_of_u32 limit ;; Ok (NoCTX d)
  | S remaining' =>
      if expired_before clk depth then
        d <- i32_of_u32 depth ;; Ok (NoCTX (d - 1))
      else
        sat_formula <- bmc_formula b s depth ;;
        timed_response <- timed_sat_call T clk depth sat_formula ;;
        match timed_response with
        | NoTimeOut (Sat assignment) => Ok (CTX assignment depth)
        | NoTimeOut UnSat => bmc_loop b T clk s limit remaining' (depth + 1)
        | TimeOut => d <- i32_of_u32 depth ;; Ok (NoCTX (d - 1))
        end
  end.

(** bmc.rs:93-150, [search]. *)
Definition bmc_search (b : build) (T : StatelessSolver) (clk : Clock) (s : FSTS)
  (search_depth_limit : N) : res BMCResult :=
  bound <- u32_add b search_depth_limit 1 ;;
  bmc_loop b T clk s search_depth_limit (N.to_nat bound) 0.
