(** Properties C32 - C34: bounded model checking. *)
From Verif Require Import Base Formulas FormulaLogic Aig AigParse Fsts Bmc Solvers Brute Spec SpecText
  SpecAig SpecAiger SpecFsts SpecAlg BruteFacts LogicFacts AigThms FstsThms BmcThms.
Open Scope N_scope.

(* ------------------------------------------------------------------------ C32 *)

(** Read at tag t, any completion of the assignment gives the inputs and latches of clock t of a
    run that is bad at clock [d]; no run is bad earlier. *)
Theorem C32_ctx_real_and_shortest :
  forall m b c flag s T clk limit asg d,
  system_of b c flag s -> well_numbered b c flag -> solver_sound_below m T ->
  limit < 4294967296 -> b = Debug /\ m = 2147483648 \/ (limit + 1) * c_max c < m <= 2147483648 ->
  bmc_search b T clk s limit = Ok (CTX asg d) ->
  d <= limit /\ safe_before c flag (N.to_nat d) /\
  forall a, agrees asg a -> exists w, run c w /\ is_bad c flag (w (N.to_nat d)) /\
    forall t v, N.of_nat t <= d -> is_input c v \/ is_latch c v ->
      w t v = a (v + N.of_nat t * c_max c).
Proof. exact bmc_ctx_sound. Qed.
Print Assumptions C32_ctx_real_and_shortest.

(** Feeding the counterexample to [simulate] on the graph the system was built from shows a bad
    literal at clock [d] and at no earlier clock. *)
Theorem C32_ctx_replays :
  forall m b c flag s T clk limit asg d g,
  system_of b c flag s -> well_numbered b c flag -> solver_sound_below m T ->
  limit < 4294967296 -> b = Debug /\ m = 2147483648 \/ (limit + 1) * c_max c < m <= 2147483648 ->
  bmc_search b T clk s limit = Ok (CTX asg d) ->
  represents g c -> circuit_fits c ->
  exists r, simulate g (ctx_inputs c asg d) (ctx_latches c asg) = Ok r /\
    length r = S (N.to_nat d) /\
    bad_in c flag (nth (N.to_nat d) r []) /\
    forall t, (t < N.to_nat d)%nat -> ~ bad_in c flag (nth t r []).
Proof. exact bmc_ctx_replays. Qed.
Print Assumptions C32_ctx_replays.

Example C32_case :
  solver_correct_below 2147483648 brute /\ solver_sound_below 2147483648 brute /\
  exists s asg, fsts_of Debug shift_circuit false = Ok s /\
    bmc_search Debug brute (mkClock (fun _ => false) (fun _ => false)) s 7 = Ok (CTX asg 2) /\
    ctx_inputs shift_circuit asg 2 = [[(1, true)]; [(1, true)]; [(1, false)]] /\
    ctx_latches shift_circuit asg = [(2, false); (3, false); (4, false)].
Proof.
  split; [exact (correct_below _ _ brute_correct)|].
  split; [exact (correct_sound _ _ (correct_below _ _ brute_correct))|]. do 2 eexists. split; [vm_compute; reflexivity|].
  split; [vm_compute; reflexivity|]. split; vm_compute; reflexivity.
Qed.

(* ------------------------------------------------------------------------ C33 *)

Theorem C33_noctx_sound :
  forall m b c flag s T clk limit z,
  system_of b c flag s -> well_numbered b c flag -> solver_sound_below m T ->
  limit < 4294967296 -> b = Debug /\ m = 2147483648 \/ (limit + 1) * c_max c < m <= 2147483648 ->
  bmc_search b T clk s limit = Ok (NoCTX z) ->
  (-1 <= z <= Z.of_N limit)%Z /\
  forall w, run c w -> forall t, (Z.of_nat t <= z)%Z -> ~ is_bad c flag (w t).
Proof. exact bmc_noctx_sound. Qed.
Print Assumptions C33_noctx_sound.

(** No timeout; a call abandoned at depth 1; a timeout before the first depth. *)
Example C33_case :
  exists s, fsts_of Debug shift_circuit false = Ok s /\
    bmc_search Debug brute (mkClock (fun _ => false) (fun _ => false)) s 1 = Ok (NoCTX 1) /\
    bmc_search Debug brute (mkClock (fun _ => false) (fun d => d =? 1)) s 7 = Ok (NoCTX 0) /\
    bmc_search Debug brute (mkClock (fun _ => true) (fun _ => false)) s 7 = Ok (NoCTX (-1)).
Proof.
  eexists. split; [vm_compute; reflexivity|]. split; [vm_compute; reflexivity|].
  split; vm_compute; reflexivity.
Qed.

(* ------------------------------------------------------------------------ C34 *)

Theorem C34_bmc_complete :
  forall m b c flag s T clk limit,
  system_of b c flag s -> well_numbered b c flag -> solver_correct_below m T ->
  limit <= 2147483647 -> (limit + 1) * c_max c < m <= 2147483648 -> never_times_out clk ->
  ((exists w t, run c w /\ N.of_nat t <= limit /\ is_bad c flag (w t)) ->
     exists asg d, bmc_search b T clk s limit = Ok (CTX asg d)) /\
  ((forall w t, run c w -> N.of_nat t <= limit -> ~ is_bad c flag (w t)) ->
     bmc_search b T clk s limit = Ok (NoCTX (Z.of_N limit))).
Proof. exact bmc_complete. Qed.
Print Assumptions C34_bmc_complete.

(** Within the numeric range the search returns whatever the timeouts are. *)
Theorem C34_bmc_returns :
  forall m b c flag s T clk limit,
  system_of b c flag s -> well_numbered b c flag -> solver_correct_below m T ->
  limit <= 2147483647 -> (limit + 1) * c_max c < m <= 2147483648 ->
  exists r, bmc_search b T clk s limit = Ok r.
Proof. exact bmc_total. Qed.
Print Assumptions C34_bmc_returns.

(** Hypotheses met; and the largest limit, outside the range, panics at once. *)
Example C34_case :
  never_times_out (mkClock (fun _ => false) (fun _ => false)) /\
  exists s, fsts_of Release differ_circuit false = Ok s /\
    system_of Release differ_circuit false s /\ well_numbered Release differ_circuit false /\
    (3 + 1) * c_max differ_circuit <= 2147483647 /\
    bmc_search Release brute (mkClock (fun _ => false) (fun _ => false)) s 3 = Ok (NoCTX 3) /\
    bmc_search Debug brute (mkClock (fun _ => false) (fun _ => false)) s 4294967295 = Panic /\
    bmc_search Release brute (mkClock (fun _ => false) (fun _ => false)) s 4294967295 = Panic.
Proof.
  split; [intros d; split; reflexivity|].
  destruct (differ_system Release) as (s & E & Hs & Hn). exists s. split; auto. split; auto.
  split; [right; auto|]. vm_compute in E. injection E as <-. clear.
  split; [vm_compute; congruence|]. split; [vm_compute; reflexivity|].
  split; vm_compute; reflexivity.
Qed.
