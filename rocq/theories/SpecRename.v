(** Specification: two circuits whose bad literals have the same logic behind them, up to the numbering
    of the variables (C60). *)
From Verif Require Import Base Formulas Aig Fsts Bmc Solvers Ic3 Pdr Spec SpecAig SpecFsts SpecAlg.
Open Scope N_scope.

(** The literal of the renamed variable, negated alike. *)
Definition renamed (f : N -> N) (l : N) : N := 2 * f (lit_var l) + (if lit_neg l then 1 else 0).

(** [f] renames the variables on which badness of [c1] depends into variables of [c2] of the same
    kind and with the same definition, and the bad literals of [c1] into those of [c2]. Everything
    else in the two circuits is free. *)
Definition renames (f : N -> N) (c1 : circuit) (flag1 : bool) (c2 : circuit) (flag2 : bool) : Prop :=
  f 0 = 0 /\
  (forall u v, influences c1 (bad_literals c1 flag1) u -> influences c1 (bad_literals c1 flag1) v ->
     f u = f v -> u = v) /\
  (forall v, influences c1 (bad_literals c1 flag1) v -> is_input c1 v -> is_input c2 (f v)) /\
  (forall v next reset, influences c1 (bad_literals c1 flag1) v -> latch c1 v next reset ->
     latch c2 (f v) (renamed f next) (renamed f reset)) /\
  (forall v r0 r1, influences c1 (bad_literals c1 flag1) v -> gate c1 v r0 r1 ->
     gate c2 (f v) (renamed f r0) (renamed f r1) \/ gate c2 (f v) (renamed f r1) (renamed f r0)) /\
  (forall l, In l (bad_literals c2 flag2) <-> exists k, In k (bad_literals c1 flag1) /\ l = renamed f k).

(** Some prover, with some sound solver and any random choices, returns [r]. *)
Definition gives_verdict (b : build) (c : circuit) (flag : bool) (s : FSTS) (r : ProofResult) : Prop :=
  (exists R T fuel, random_ok R /\ solver_sound_below 2147483647 T /\ ic3_stateless b R T fuel s = Ok r) \/
  (exists R SS fuel, random_ok R /\ stateful_sound SS /\ ic3_stateful b R SS fuel s = Ok r) \/
  (bad_latches_read c flag /\
   exists R SS fuel, random_ok R /\ stateful_sound SS /\ pdr b R SS fuel s = Ok r).

(** BMC up to [limit], with some sound solver and any timeouts, returns [r]. *)
Definition bmc_gives (b : build) (c : circuit) (s : FSTS) (limit : N) (r : BMCResult) : Prop :=
  exists m T clk, solver_sound_below m T /\ limit < 4294967296 /\
    (b = Debug /\ m = 2147483648 \/ (limit + 1) * c_max c < m <= 2147483648) /\
    bmc_search b T clk s limit = Ok r.

(** Two results of BMC do not contradict each other: counterexamples have the same depth, and a
    search without one ended before that depth. *)
Definition compatible (r1 r2 : BMCResult) : Prop :=
  match r1, r2 with
  | CTX _ d1, CTX _ d2 => d1 = d2
  | CTX _ d, NoCTX z | NoCTX z, CTX _ d => (z < Z.of_N d)%Z
  | NoCTX _, NoCTX _ => True
  end.
