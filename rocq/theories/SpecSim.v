(** Specification: what simulations of a graph show (C67). *)
From Verif Require Import Base Formulas Aig Spec SpecAig SpecAlg.
Open Scope N_scope.

(** The vectors were returned by [simulate], for some stimulus given as maps without repeated keys. *)
Definition simulated (g : AIG) (r : list (list bool)) : Prop :=
  exists ins init, Forall (fun m => NoDup (keys m)) ins /\ NoDup (keys init) /\ simulate g ins init = Ok r.

(** The values of the variables in a vector. *)
Definition vector_values (vec : list bool) : valuation := fun v => nth (N.to_nat v) vec false.

(** In some simulation some bad literal is 1 at clock [t]. *)
Definition shows_bad (c : circuit) (flag : bool) (g : AIG) (t : nat) : Prop :=
  exists r vec, simulated g r /\ nth_error r t = Some vec /\ bad_in c flag vec.
