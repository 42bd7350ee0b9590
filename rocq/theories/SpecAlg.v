(** Specification vocabulary for the algorithms: reading a counterexample assignment. *)
From Verif Require Import Base Formulas FormulaLogic Aig Fsts Bmc Solvers Ic3 Pdr Spec SpecAig SpecFsts.
Open Scope N_scope.

(** The value an assignment gives to a variable; unassigned variables are read as false. *)
Definition value_of (asg : Assignment) (v : N) : bool :=
  match get_value asg v with Some x => x | None => false end.

(** The stimulus described by the values of all time frames up to [depth]: at clock [t] input [v]
    has the value of variable [v + t * M]; latches start with the values of their own variables. *)
Definition frame_inputs (c : circuit) (a : valuation) (depth : N) : list BoolMap :=
  map (fun t => map (fun v => (v, a (v + N.of_nat t * c_max c))) (numbers 1 (c_inputs c)))
    (seq 0 (S (N.to_nat depth))).
Definition frame_latches (c : circuit) (a : valuation) : BoolMap :=
  map (fun v => (v, a v)) (numbers (c_inputs c + 1) (lenN (c_latches c))).

(** The stimulus described by a counterexample of [depth] steps. *)
Definition ctx_inputs (c : circuit) (asg : Assignment) (depth : N) : list BoolMap :=
  frame_inputs c (value_of asg) depth.
Definition ctx_latches (c : circuit) (asg : Assignment) : BoolMap := frame_latches c (value_of asg).

(** Some bad literal is true in a vector of variable values as returned by [simulate]. *)
Definition bad_in (c : circuit) (flag : bool) (values : list bool) : Prop :=
  exists l, In l (bad_literals c flag) /\
    lit_value (fun v => nth (N.to_nat v) values false) l = true.

(** No timeout ever fires. *)
Definition never_times_out (clk : Clock) : Prop :=
  forall d, expired_before clk d = false /\ call_times_out clk d = false.

(** The verdict of a prover. *)
Definition verdict_proof (r : ProofResult) : Prop := exists inv, r = Proof inv.

(** The answer [r] of a run after which a [u32] has counted to [n]: a debug build panics at the
    overflow. *)
Definition counted_answer {A} (b : build) (n : N) (r : A) : res A :=
  match b with
  | Debug => if n <? 4294967296 then Ok r else Panic
  | Release => Ok r
  end.

(** The largest of the counts of PDR. *)
Definition most_calls (x : SatCallStats) : N :=
  N.max (N.of_nat (calls_get_bad_cube x)) (N.max (N.of_nat (calls_is_blocked x))
    (N.max (N.of_nat (calls_do_not_extract_model x)) (N.max (N.of_nat (calls_no_ind x))
      (N.of_nat (calls_extract_model x))))).

(** Some run is bad at some clock. *)
Definition unsafe (c : circuit) (flag : bool) : Prop :=
  exists w t, run c w /\ is_bad c flag (w t).

(** Loop bound for the provers: they finish within this number of rounds. *)
Definition enough_fuel (c : circuit) (fuel : nat) : Prop :=
  (2 ^ length (c_latches c) * (2 ^ length (c_latches c) + 3) < fuel)%nat.

(** The variables on which the literals [lits] depend, now or at an earlier clock. *)
Inductive influences (c : circuit) (lits : list N) : N -> Prop :=
| influences_root l : In l lits -> influences c lits (lit_var l)
| influences_gate v r0 r1 r :
    influences c lits v -> gate c v r0 r1 -> r = r0 \/ r = r1 -> influences c lits (lit_var r)
| influences_latch v next reset :
    influences c lits v -> latch c v next reset -> influences c lits (lit_var next).

(** The list contains every latch on which badness depends. *)
Definition covers_bad (c : circuit) (flag : bool) (ls : list N) : Prop :=
  forall v, is_latch c v -> influences c (bad_literals c flag) v -> In v ls.

(** Counterexample lengths fit into the [u32] of [ProofResult::CTX]: badness depends on at most
    32 latches, or there is no counterexample, or one that is short enough. *)
Definition depth_fits (c : circuit) (flag : bool) : Prop :=
  (exists ls, covers_bad c flag ls /\ lenN ls <= 32) \/ safe c flag \/
  exists w t, run c w /\ is_bad c flag (w t) /\ N.of_nat t < 4294967296.

(** Every latch has a reset value. *)
Definition all_reset (c : circuit) : Prop :=
  forall v next reset, latch c v next reset -> reset = 0 \/ reset = 1.

(** There is no latch or no bad literal, or some bad literal is an AND gate, or some bad
    literal is an input and every latch has a reset value. *)
Definition states_readable (c : circuit) (flag : bool) : Prop :=
  c_latches c = [] \/ bad_literals c flag = [] \/
  (exists l, In l (bad_literals c flag) /\ is_gate c (lit_var l)) \/
  (exists l, In l (bad_literals c flag) /\ is_input c (lit_var l)) /\ all_reset c.

(** Loop bound for PDR. *)
Definition enough_pdr_fuel (c : circuit) (fuel : nat) : Prop :=
  ((2 ^ length (c_latches c) + 3) ^ 4 < fuel)%nat.

(** Search limits for which BMC's variable numbers stay below [m]. *)
Definition bmc_range (m : N) (c : circuit) (limit : N) : Prop :=
  limit <= 2147483647 /\ (limit + 1) * c_max c < m <= 2147483648.

(** The circuit is safe, or some counterexample is within reach of BMC. *)
Definition bmc_reaches (m : N) (c : circuit) (flag : bool) : Prop :=
  safe c flag \/ exists w t, run c w /\ is_bad c flag (w t) /\ bmc_range m c (N.of_nat t).

(** Two calls of a prover: they return, unless the fuel or the range of the depth does not
    suffice, and both verdicts are right. *)
Definition both_right (c : circuit) (flag : bool) (fuel : nat) (m : res (ProofResult * ProofResult)) : Prop :=
  (enough_fuel c fuel -> m <> OutOfFuel) /\ (depth_fits c flag -> m <> Panic) /\
  forall r1 r2, m = Ok (r1, r2) -> forall r, r = r1 \/ r = r2 ->
    (verdict_proof r <-> safe c flag) /\ forall d, r = ProofCTX d -> safe_before c flag (N.to_nat d).
