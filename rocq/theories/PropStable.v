(** Properties C54 - C56: what stays the same when the flag for outputs, the search limit or the
    stimulus of a simulation changes. *)
From Verif Require Import Base Formulas FormulaLogic Aig AigParse Fsts Bmc Solvers Brute Spec SpecText
  SpecAig SpecAiger SpecFsts SpecAlg AigThms FstsThms StableThms.
Open Scope N_scope.

(* ------------------------------------------------------------------------ C54 *)

(** Counting outputs as bad changes the safety side only: the unsafety clause gets the outputs as
    further literals. *)
Theorem C54_flag_changes_only_safety :
  forall b o1 o0 a c s1 s0,
  represents a c -> circuit_wf c -> order_ok o1 -> order_ok o0 ->
  from_aig b o1 a true = Ok s1 -> from_aig b o0 a false = Ok s0 ->
  same_dynamics s1 s0 /\
  forall l, In l (clause_lits (get_unsafety_property s1)) <->
    In l (clause_lits (get_unsafety_property s0)) \/ In l (c_outputs c).
Proof. exact flag_dynamics. Qed.
Print Assumptions C54_flag_changes_only_safety.

(** Only constant outputs, and only in a debug build, make the construction with the flag fail
    where the one without it succeeds. *)
Theorem C54_flag_accepts :
  forall b o1 o0 a c, represents a c -> circuit_wf c -> circuit_fits c ->
  order_ok o1 -> order_ok o0 ->
  (exists s1, from_aig b o1 a true = Ok s1) <->
  (exists s0, from_aig b o0 a false = Ok s0) /\
  (b = Debug -> Forall (fun l => 2 <= l) (c_outputs c)).
Proof. exact flag_accepts. Qed.
Print Assumptions C54_flag_accepts.

Example C54_case :
  let c := mkCircuit 1 [(2, 0); (4, 0)] [6; 3] [8] [] [(6, 4)] in
  let k := mkCircuit 1 [(2, 0); (4, 0)] [1] [8] [] [(6, 4)] in
  exists a s1 s0 a', from_vector_of_bytes (encode ex_style c) = Ok a /\
    from_aig Debug (fun l => l) a true = Ok s1 /\ from_aig Debug (@rev _) a false = Ok s0 /\
    clause_lits (get_unsafety_property s1) = [3; 6; 8] /\
    clause_lits (get_unsafety_property s0) = [8] /\
    cnf_len (get_transition_relation s1) = 4 /\
    from_vector_of_bytes (encode ex_style k) = Ok a' /\
    from_aig Debug (fun l => l) a' true = Panic.
Proof. do 4 eexists. do 7 (split; [vm_compute; reflexivity|]). vm_compute. reflexivity. Qed.

(* ------------------------------------------------------------------------ C55 *)

(** Raising the limit keeps every counterexample and every result of a search that was stopped by
    the clock; lowering it keeps every counterexample that is within the new limit and otherwise
    reports the new limit. *)
Theorem C55_bmc_limits :
  forall b T clk s L L', L <= L' -> L' < 4294967295 ->
  (forall asg d, bmc_search b T clk s L = Ok (CTX asg d) -> bmc_search b T clk s L' = Ok (CTX asg d)) /\
  (forall z, bmc_search b T clk s L = Ok (NoCTX z) -> (z < Z.of_N L)%Z ->
     bmc_search b T clk s L' = Ok (NoCTX z)) /\
  (forall asg d, bmc_search b T clk s L' = Ok (CTX asg d) -> d <= L ->
     bmc_search b T clk s L = Ok (CTX asg d)) /\
  (forall asg d, bmc_search b T clk s L' = Ok (CTX asg d) -> L < d -> L <= 2147483647 ->
     bmc_search b T clk s L = Ok (NoCTX (Z.of_N L))).
Proof. exact bmc_limits. Qed.
Print Assumptions C55_bmc_limits.

(** Two searches for the same circuit, with other solvers, clocks, limits, builds and hash orders,
    never contradict each other. *)
Theorem C55_bmc_searches_agree :
  forall c flag m1 b1 s1 T1 clk1 L1 r1 m2 b2 s2 T2 clk2 L2 r2,
  system_of b1 c flag s1 -> well_numbered b1 c flag -> solver_sound_below m1 T1 ->
  L1 < 4294967296 -> b1 = Debug /\ m1 = 2147483648 \/ (L1 + 1) * c_max c < m1 <= 2147483648 ->
  system_of b2 c flag s2 -> well_numbered b2 c flag -> solver_sound_below m2 T2 ->
  L2 < 4294967296 -> b2 = Debug /\ m2 = 2147483648 \/ (L2 + 1) * c_max c < m2 <= 2147483648 ->
  bmc_search b1 T1 clk1 s1 L1 = Ok r1 -> bmc_search b2 T2 clk2 s2 L2 = Ok r2 ->
  match r1, r2 with
  | CTX _ d1, CTX _ d2 => d1 = d2
  | CTX _ d, NoCTX z | NoCTX z, CTX _ d => (z < Z.of_N d)%Z
  | NoCTX _, NoCTX _ => True
  end.
Proof. exact bmc_two_searches. Qed.
Print Assumptions C55_bmc_searches_agree.

(** A counterexample at depth 2: found with limits 2 and 7, not with limit 1, and not by a search
    that is stopped at depth 1. *)
Example C55_case :
  let never := mkClock (fun _ => false) (fun _ => false) in
  let stop := mkClock (fun _ => false) (fun d => d =? 1) in
  exists s asg, fsts_of Debug shift_circuit false = Ok s /\
    bmc_search Debug brute never s 7 = Ok (CTX asg 2) /\
    bmc_search Debug brute never s 2 = Ok (CTX asg 2) /\
    bmc_search Debug brute never s 1 = Ok (NoCTX 1) /\
    bmc_search Debug brute stop s 2 = Ok (NoCTX 0) /\
    bmc_search Debug brute stop s 7 = Ok (NoCTX 0).
Proof. do 2 eexists. do 5 (split; [vm_compute; reflexivity|]). vm_compute. reflexivity. Qed.

(* ------------------------------------------------------------------------ C56 *)

(** Later clocks do not influence earlier ones. *)
Theorem C56_simulation_causal :
  forall a pre post init r, pre <> [] -> simulate a (pre ++ post) init = Ok r ->
  simulate a pre init = Ok (firstn (length pre) r).
Proof. exact simulate_prefix. Qed.
Print Assumptions C56_simulation_causal.

(** The latches are all that is remembered: two simulations whose latches agree at some clock and
    whose inputs agree from then on agree from then on. *)
Theorem C56_simulation_memoryless :
  forall a c, represents a c -> circuit_wf c -> circuit_fits c ->
  forall pre1 pre2 rest1 rest2 init1 init2 r1 r2,
  Forall (fun m => NoDup (keys m)) (pre1 ++ rest1) -> Forall (fun m => NoDup (keys m)) (pre2 ++ rest2) ->
  NoDup (keys init1) -> NoDup (keys init2) ->
  simulate a (pre1 ++ rest1) init1 = Ok r1 -> simulate a (pre2 ++ rest2) init2 = Ok r2 ->
  Forall2 same_map rest1 rest2 ->
  (forall v, is_latch c v -> nth (N.to_nat v) (nth (length pre1) r1 []) false =
                             nth (N.to_nat v) (nth (length pre2) r2 []) false) ->
  skipn (length pre1) r1 = skipn (length pre2) r2.
Proof. exact simulate_memoryless. Qed.
Print Assumptions C56_simulation_memoryless.

(** Initial values matter for uninitialised latches only, and maps only as functions. *)
Theorem C56_simulation_needs :
  forall a c, represents a c -> circuit_wf c -> circuit_fits c ->
  forall ins1 ins2 init1 init2 r1 r2,
  Forall (fun m => NoDup (keys m)) ins1 -> Forall (fun m => NoDup (keys m)) ins2 ->
  NoDup (keys init1) -> NoDup (keys init2) ->
  simulate a ins1 init1 = Ok r1 -> simulate a ins2 init2 = Ok r2 ->
  Forall2 same_map ins1 ins2 ->
  (forall v next x, latch c v next (2 * v) -> (In (v, x) init1 <-> In (v, x) init2)) ->
  r1 = r2.
Proof. exact simulate_needs. Qed.
Print Assumptions C56_simulation_needs.

(** Latch 2 starts at 0 whatever the map says; after two clocks and after one clock the latches
    agree, and so do the clocks that follow. *)
Example C56_case :
  exists a r1 r2, ex_graph = Ok a /\ represents a ex_circuit /\
    simulate a [[(1, false)]; [(1, true)]; [(1, true)]; [(1, false)]] [(4, true)] = Ok r1 /\
    simulate a [[(1, false)]; [(1, true)]; [(1, true)]; [(1, false)]] [(2, true); (4, true)] = Ok r1 /\
    simulate a [[(1, false)]; [(1, true)]] [(4, true)] = Ok (firstn 2 r1) /\
    simulate a [[(1, true)]; [(1, true)]; [(1, false)]] [(4, true)] = Ok r2 /\
    map (fun v => nth v (nth 2 r1 []) false) [2%nat; 3%nat; 4%nat] =
    map (fun v => nth v (nth 1 r2 []) false) [2%nat; 3%nat; 4%nat] /\
    skipn 2 r1 = skipn 1 r2.
Proof.
  destruct ex_simulation as (a & E & Hr & _). exists a.
  pose proof E as E'. vm_compute in E'. injection E' as <-.
  do 2 eexists. split; [exact E|]. split; [exact Hr|].
  do 5 (split; [vm_compute; reflexivity|]). vm_compute. reflexivity.
Qed.
