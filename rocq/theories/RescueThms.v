(** Solvers that may panic or leave variables out of their models: the results of the formula
    logic and of the invariant check are still right. *)
From Verif Require Import Base Formulas FormulaLogic Aig AigParse Fsts Solvers Spec SpecAig SpecAiger
  SpecFsts Tac FormulasFacts LogicFacts FstsThms ReplaceFacts.
Open Scope N_scope.

(** A run that returns is also a run with a correct solver. *)
Lemma fits_ok_inv {A} (x y : res A) r : fits False eq x y -> x = Ok r -> y = Ok r.
Proof. intros H E. subst x. inversion H; subst; auto; contradiction. Qed.
Lemma fits_fuel_inv {A} (x y : res A) : fits False eq x y -> x = OutOfFuel -> y = OutOfFuel.
Proof. intros H E. subst x. inversion H; subst; auto; contradiction. Qed.
Lemma fits_panic_inv {A} (x y : res A) : fits False eq x y -> y = Panic -> x = Panic.
Proof. intros H E. subst y. inversion H; subst; auto; contradiction. Qed.

Lemma implies_sound m T order f g r : solver_sound_below m T -> order_ok order ->
  api_cnf f -> cnf_legal f -> api_cnf g -> cnf_legal g -> cnf_max f < m -> cnf_max g < m ->
  does_a_imply_b T order f g = Ok r -> (r = true <-> forall v, cnf_true v f -> cnf_true v g).
Proof.
  intros HT Ho Hf Lf Hg Lg Mf Mg E.
  apply (fits_ok_inv _ _ _ (fit_implies False T (rescue_stateless T) (rescue_stateless_fits T) order f g)) in E.
  destruct (does_a_imply_b_below m (rescue_stateless T) order f g) as (r' & E' & H); auto.
  { apply rescue_stateless_correct; auto. }
  rewrite E in E'. inv E'. exact H.
Qed.

Lemma both_sound m T f g r : solver_sound_below m T ->
  api_cnf f -> cnf_legal f -> api_cnf g -> cnf_legal g -> cnf_max f < m -> cnf_max g < m ->
  is_a_and_b_satisfiable T f g = Ok r -> (r = true <-> exists v, cnf_true v f /\ cnf_true v g).
Proof.
  intros HT Hf Lf Hg Lg Mf Mg E.
  apply (fits_ok_inv _ _ _ (fit_both False T (rescue_stateless T) (rescue_stateless_fits T) f g)) in E.
  destruct (is_a_and_b_satisfiable_below m (rescue_stateless T) f g) as (r' & E' & H); auto.
  { apply rescue_stateless_correct; auto. }
  rewrite E in E'. inv E'. exact H.
Qed.

Lemma check_sound m b c flag s T1 T2 T3 o1 o2 inv :
  system_of b c flag s -> numbering_fits c flag -> 2 * c_max c < m <= 2147483648 ->
  solver_sound_below m T1 -> solver_sound_below m T2 -> solver_sound_below m T3 ->
  order_ok o1 -> order_ok o2 ->
  api_cnf inv -> cnf_legal inv ->
  b = Debug /\ m = 2147483648 \/ cnf_vars (fun v => v + c_max c < m) inv ->
  check_invariant b T1 T2 T3 o1 o2 s inv = Ok tt ->
  safe c flag /\
  (cnf_vars (fun v => v <= c_max c) inv -> forall w, run c w -> forall t, cnf_true (w t) inv).
Proof.
  intros Hs Hf Hm H1 H2 H3 Ho1 Ho2 Ha Hl Hb E.
  eapply (check_invariant_sound m b c flag s (rescue_stateless T1) (rescue_stateless T2)
    (rescue_stateless T3) o1 o2 inv); auto; try (apply rescue_stateless_correct; assumption).
  eapply fits_ok_inv; [|exact E]. apply check_invariant_fits; auto; apply rescue_stateless_fits.
Qed.
