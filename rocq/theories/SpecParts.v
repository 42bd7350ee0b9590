(** Specification: a circuit with many bad literals and circuits with the same logic that have some of them each (C66). *)
From Verif Require Import Base Formulas Aig Fsts Bmc Solvers Ic3 Pdr Spec SpecAig SpecFsts SpecAlg SpecRename SpecInv.
Open Scope N_scope.

(** The same inputs, latches and gates; outputs and bad literals may differ. *)
Definition same_logic (c c' : circuit) : Prop :=
  c_inputs c = c_inputs c' /\ c_latches c = c_latches c' /\ c_ands c = c_ands c'.

(** A circuit and whether its outputs are bad. *)
Definition part : Type := circuit * bool.

(** Each part has the logic of [c], and the bad literals of the parts together are those of [c]. *)
Definition splits (c : circuit) (flag : bool) (ps : list part) : Prop :=
  (forall p, In p ps -> same_logic (fst p) c) /\
  forall l, In l (bad_literals c flag) <-> exists p, In p ps /\ In l (bad_literals (fst p) (snd p)).

(** Some prover returned a proof for the part. *)
Definition proved_part (p : part) : Prop := exists b s inv, system_of b (fst p) (snd p) s /\
  numbering_fits (fst p) (snd p) /\ gives_verdict b (fst p) (snd p) s (Proof inv).

(** Some BMC search returned the result for the part. *)
Definition searched_part (p : part) (r : BMCResult) : Prop := exists b s limit, system_of b (fst p) (snd p) s /\
  well_numbered b (fst p) (snd p) /\ bmc_gives b (fst p) s limit r.

(** A formula about latches that [check_invariant] accepted for the part. *)
Definition certified_part (p : part) (inv : CNF) : Prop := api_cnf inv /\ cnf_vars (is_latch (fst p)) inv /\
  exists b s, system_of b (fst p) (snd p) s /\ numbering_fits (fst p) (snd p) /\ accepted_once s inv.
