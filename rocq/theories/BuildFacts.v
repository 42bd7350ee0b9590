(** Debug builds against release builds, function by function. *)
From Verif Require Import Base Formulas FormulaLogic Aig Fsts Bmc Solvers Ic3 Pdr SpecBuild
  Tac Plain ReplaceFacts.
Open Scope N_scope.

Notation same := (fits True eq).

Lemma debug_release : Debug = Release \/ (Debug = Debug /\ Release = Release /\ True).
Proof. auto. Qed.
Notation DR := debug_release.

Lemma same_ok {A} (x y : res A) : same x y -> same_in_release x y.
Proof. intros H r E. subst x. inversion H; subst; auto. Qed.

Lemma same_bind {A B} (x y : res A) (f g : A -> res B) :
  same x y -> (forall a, same (f a) (g a)) -> same (bind x f) (bind y g).
Proof. apply fits_bind_eq. Qed.

Lemma same_refl {A} (x : res A) : same x x.
Proof. apply fits_refl. Qed.

Create HintDb same discriminated.
#[local] Hint Resolve same_refl : same.

Ltac fit :=
  repeat first
  [ solve [auto with same]
  | match goal with
    | |- same (let '(_, _) := ?p in _) (let '(_, _) := ?p in _) => destruct p
    | |- same (bind _ _) (bind _ _) => apply same_bind; [|intros]
    | |- same (if ?c then _ else _) (if ?c then _ else _) => destruct c
    | |- same (match ?c with _ => _ end) (match ?c with _ => _ end) => destruct c
    end
  | progress cbv beta zeta ].

Lemma same_foldM {A X} (f g : X -> A -> res X) l : (forall x a, same (f x a) (g x a)) ->
  forall x, same (foldM f l x) (foldM g l x).
Proof. intros H x. apply fits_foldM_eq. auto. Qed.
Lemma same_mapM {A B} (f g : A -> res B) l : (forall x, same (f x) (g x)) ->
  same (mapM f l) (mapM g l).
Proof. apply fits_mapM. Qed.

Lemma same_debug_assert c : same (debug_assert Debug c) (debug_assert Release c).
Proof. apply (fit_debug_assert _ _ _ DR). Qed.
Lemma same_u32_add x y : same (u32_add Debug x y) (u32_add Release x y).
Proof. apply (fit_u32_add _ _ _ DR). Qed.
Lemma same_i32_wrap z : same (i32_wrap Debug z) (i32_wrap Release z).
Proof. apply (fit_i32_wrap _ _ _ DR). Qed.
Lemma same_i32_add x y : same (i32_add Debug x y) (i32_add Release x y).
Proof. apply same_i32_wrap. Qed.
Lemma same_i32_neg x : same (i32_neg Debug x) (i32_neg Release x).
Proof. apply same_i32_wrap. Qed.
Lemma same_literal_new n : same (literal_new Debug n) (literal_new Release n).
Proof. apply (fit_literal_new _ _ _ DR). Qed.
Lemma same_tags_relation s f n :
  same (add_tags_to_relation Debug s f n) (add_tags_to_relation Release s f n).
Proof. apply (fit_tags_relation _ _ _ DR). Qed.
Lemma same_tags_cube s q n : same (add_tags_to_cube Debug s q n) (add_tags_to_cube Release s q n).
Proof. apply (fit_tags_cube _ _ _ DR). Qed.
Lemma same_tags_clause s c n :
  same (add_tags_to_clause Debug s c n) (add_tags_to_clause Release s c n).
Proof. apply (fit_tags_clause _ _ _ DR). Qed.
Lemma same_extract s a :
  same (extract_state_from_assignment Debug s a) (extract_state_from_assignment Release s a).
Proof. apply (fit_extract_state _ _ _ DR). intros v x; auto. Qed.
#[local] Hint Resolve same_debug_assert same_u32_add same_i32_add same_i32_neg same_literal_new
  same_tags_relation same_tags_cube same_tags_clause same_extract : same.

(* ---------------------------------------------------------------- construction *)

Lemma same_literal_of_aig n : same (literal_of_aig Debug n) (literal_of_aig Release n).
Proof. unfold literal_of_aig. fit. Qed.
#[local] Hint Resolve same_literal_of_aig : same.

Lemma same_encode_gate f g : same (encode_gate Debug f g) (encode_gate Release f g).
Proof. unfold encode_gate. fit. Qed.
#[local] Hint Resolve same_encode_gate : same.

Lemma same_wires_cnf order a w : same (wires_cnf Debug order a w) (wires_cnf Release order a w).
Proof. unfold wires_cnf. fit. apply same_foldM. auto with same. Qed.
#[local] Hint Resolve same_wires_cnf : same.

Lemma same_initial_cnf a : same (create_initial_cnf Debug a) (create_initial_cnf Release a).
Proof.
  unfold create_initial_cnf. fit. apply same_foldM. intros. unfold initial_step. fit.
Qed.

Lemma same_transition_cnf order a m :
  same (create_transition_cnf Debug order a m) (create_transition_cnf Release order a m).
Proof.
  unfold create_transition_cnf. fit. apply same_foldM. intros. unfold transition_step. fit.
Qed.

Lemma same_unsafety a flag :
  same (create_unsafety_property Debug a flag) (create_unsafety_property Release a flag).
Proof. unfold create_unsafety_property. fit. apply same_mapM. auto with same. Qed.

Lemma same_positive_number n : same (positive_number Debug n) (positive_number Release n).
Proof. unfold positive_number. fit. Qed.

Lemma same_numbers a : same (create_input_and_state_literal_numbers Debug a)
  (create_input_and_state_literal_numbers Release a).
Proof.
  unfold create_input_and_state_literal_numbers. fit;
    apply same_mapM; intros; apply same_positive_number.
Qed.
#[local] Hint Resolve same_initial_cnf same_transition_cnf same_unsafety same_numbers : same.

Lemma same_from_aig order a flag :
  same (from_aig Debug order a flag) (from_aig Release order a flag).
Proof. unfold from_aig, create_state_to_safety_translation. fit. Qed.

(* -------------------------------------------------------------------- adapters *)

Lemma same_from_dimacs v :
  same (from_dimacs_assignment Debug v) (from_dimacs_assignment Release v).
Proof.
  unfold from_dimacs_assignment. fit. apply same_foldM. intros. unfold from_dimacs_step. fit.
Qed.
#[local] Hint Resolve same_from_dimacs : same.

Lemma stateless_builds_same T T' : stateless_builds T T' -> forall n f, same (T n f) (T' n f).
Proof.
  intros [] n f; [unfold cadical_solve_cnf|unfold splr_solve_cnf|unfold varisat_solve_cnf|]; fit.
Qed.

Lemma same_cad_push n : forall next table,
  same (cad_push Debug n next table) (cad_push Release n next table).
Proof. induction n as [|n IH]; intros; cbn [cad_push]; unfold cad_new_lit; fit. Qed.
#[local] Hint Resolve same_cad_push : same.

Lemma same_cad_extend st f : same (cad_extend Debug st f) (cad_extend Release st f).
Proof. unfold cad_extend. fit. Qed.

Lemma same_cad_translate table ls :
  same (cad_translate Debug table ls) (cad_translate Release table ls).
Proof. apply same_mapM. intros l. unfold cad_literal. fit. Qed.

Lemma same_cad_solve_raw E st a :
  same (cad_solve_raw Debug E st a) (cad_solve_raw Release E st a).
Proof. unfold cad_solve_raw. fit. Qed.

Lemma same_mini_solve_raw E st a :
  same (mini_solve_raw Debug E st a) (mini_solve_raw Release E st a).
Proof. unfold mini_solve_raw. fit. Qed.
#[local] Hint Resolve same_cad_extend same_cad_translate same_cad_solve_raw same_mini_solve_raw : same.

(** Two solvers with the same states that give the same answers. *)
Record solvers_same (SS TT : StatefulSolver) (r : ss_state SS -> ss_state TT -> Prop) : Prop := {
  same_new : forall h, r (ss_new SS h) (ss_new TT h);
  same_add : forall x y f, r x y -> fits True r (ss_add_cnf SS x f) (ss_add_cnf TT y f);
  same_solve : forall x y q c, r x y ->
    fits True (with_result r) (ss_solve SS x q c) (ss_solve TT y q c) }.

Lemma same_solver_fits SS TT r : solvers_same SS TT r -> solver_fits True SS TT r.
Proof.
  intros [H1 H2 H3]. constructor; auto. intros x y q c H. specialize (H3 x y q c H).
  destruct H3; constructor; auto using result_answered.
Qed.

Lemma same_result {A X} (x y : res (A * X)) : same x y -> fits True (with_result eq) x y.
Proof. intros [|? ? <-| |]; constructor; auto. split; auto. Qed.

Lemma cadical_builds_fit E order :
  solvers_same (cadical_stateful Debug E order) (cadical_stateful Release E order) eq.
Proof.
  constructor; [reflexivity| |].
  - intros x y f <-. cbn [cadical_stateful ss_add_cnf ss_state]. unfold cad_add_cnf. fit.
    apply same_foldM. intros. fit.
  - intros x y q c <-. cbn [cadical_stateful ss_solve ss_state]. apply same_result.
    unfold cad_solve, cad_handle_clause, cad_solve_cube, cad_new_lit. fit.
Qed.

Lemma minisat_builds_fit E order :
  solvers_same (minisat_stateful Debug E order) (minisat_stateful Release E order) eq.
Proof.
  constructor; [reflexivity| |].
  - intros x y f <-. apply same_refl.
  - intros x y q c <-. cbn [minisat_stateful ss_solve ss_state]. apply same_result.
    unfold mini_solve, mini_handle_clause, mini_solve_cube. fit.
Qed.

Lemma stateful_builds_fit SS TT : stateful_builds SS TT -> exists r, solvers_same SS TT r.
Proof.
  intros [].
  - exists eq. apply minisat_builds_fit.
  - exists eq. apply cadical_builds_fit.
  - exists eq. constructor; [reflexivity| |].
    + intros x y f <-. apply same_refl.
    + intros x y q c <-. apply same_result. apply same_refl.
Qed.

(* --------------------------------------------------------------- formula logic *)

Section Solver.
Variables T T' : StatelessSolver.
Hypothesis ST : forall n f, same (T n f) (T' n f).
#[local] Hint Resolve ST : same.

Lemma same_implies order a b : same (does_a_imply_b T order a b) (does_a_imply_b T' order a b).
Proof.
  unfold does_a_imply_b. generalize (order (cnf_clauses b)) as cs, 0%nat as n.
  induction cs as [|c cs IH]; intros n; cbn [implies_loop]; fit.
Qed.

Lemma same_both a b : same (is_a_and_b_satisfiable T a b) (is_a_and_b_satisfiable T' a b).
Proof. unfold is_a_and_b_satisfiable. fit. Qed.

(* ------------------------------------------------------------------------- BMC *)

Lemma same_bmc_formula s d : same (bmc_formula Debug s d) (bmc_formula Release s d).
Proof. unfold bmc_formula, bmc_unroll. fit. apply same_foldM. intros. fit. Qed.
#[local] Hint Resolve same_bmc_formula : same.

Lemma same_bmc_loop clk s limit n : forall d,
  same (bmc_loop Debug T clk s limit n d) (bmc_loop Release T' clk s limit n d).
Proof.
  induction n as [|n IH]; intros d; cbn [bmc_loop]; [apply same_refl|].
  unfold timed_sat_call. fit.
Qed.
#[local] Hint Resolve same_bmc_loop : same.

Lemma same_bmc clk s limit :
  same (bmc_search Debug T clk s limit) (bmc_search Release T' clk s limit).
Proof. unfold bmc_search. fit. Qed.

(* --------------------------------------------------------------- stateless IC3 *)

Lemma same_ic3_stateless R fuel s :
  same (stateless_plain Debug R T fuel s) (stateless_plain Release R T' fuel s).
Proof.
  apply (ic3_stateless_fits _ _ _ DR). intros n f. destruct (ST n f) as [|? ? <-| |]; constructor; auto.
  apply response_same.
Qed.
End Solver.

Lemma same_check_invariant T1 T1' T2 T2' T3 T3' o1 o2 s inv :
  stateless_builds T1 T1' -> stateless_builds T2 T2' -> stateless_builds T3 T3' ->
  same (check_invariant Debug T1 T2 T3 o1 o2 s inv) (check_invariant Release T1' T2' T3' o1 o2 s inv).
Proof.
  intros H1 H2 H3. unfold check_invariant.
  pose proof (same_implies _ _ (stateless_builds_same _ _ H1)).
  pose proof (same_implies _ _ (stateless_builds_same _ _ H2)).
  pose proof (same_both _ _ (stateless_builds_same _ _ H3)). fit.
Qed.

(* -------------------------------------------------------------------- theorems *)

Lemma release_bmc T T' clk s limit : stateless_builds T T' ->
  same_in_release (bmc_search Debug T clk s limit) (bmc_search Release T' clk s limit).
Proof. intros H. apply same_ok, same_bmc, stateless_builds_same, H. Qed.

(** The statistics can only make the debug build panic. *)
Lemma release_linked {A} (plain plain' real real' : res A) : linked Debug plain real -> linked Release plain' real' ->
  same_in_release plain plain' -> same_in_release real real'.
Proof. intros H1 H2 H r E. apply linked_release in H2 as ->. apply H. eapply linked_ok; eauto. Qed.

Lemma release_ic3_stateless T T' R fuel s : stateless_builds T T' ->
  same_in_release (ic3_stateless Debug R T fuel s) (ic3_stateless Release R T' fuel s).
Proof.
  intros H. eapply release_linked; [apply stateless_link..|].
  apply same_ok, same_ic3_stateless, stateless_builds_same, H.
Qed.

Lemma release_ic3_stateful SS TT R fuel s : stateful_builds SS TT ->
  same_in_release (ic3_stateful Debug R SS fuel s) (ic3_stateful Release R TT fuel s).
Proof.
  intros H. apply stateful_builds_fit in H as (r & H). eapply release_linked; [apply stateful_link..|]. apply same_ok.
  exact (ic3_stateful_fits _ _ _ DR R _ _ r fuel s (same_solver_fits _ _ _ H)).
Qed.

Lemma release_pdr SS TT R fuel s : stateful_builds SS TT ->
  same_in_release (pdr Debug R SS fuel s) (pdr Release R TT fuel s).
Proof.
  intros H. apply stateful_builds_fit in H as (r & H). eapply release_linked; [apply pdr_link..|]. apply same_ok.
  exact (pdr_fits _ _ _ DR R _ _ r fuel s (same_solver_fits _ _ _ H)).
Qed.

Lemma release_system order a flag :
  same_in_release (from_aig Debug order a flag) (from_aig Release order a flag).
Proof. apply same_ok, same_from_aig. Qed.

Lemma answers_fit SS TT r : solvers_same SS TT r -> forall calls x y, r x y ->
  same (answers SS x calls) (answers TT y calls).
Proof.
  intros SF. induction calls as [|[f|q c] calls IH]; intros x y H; cbn [answers].
  - constructor. auto.
  - eapply fits_bind; [apply (same_add _ _ _ SF); eauto|]. auto.
  - eapply fits_bind; [apply (same_solve _ _ _ SF); eauto|].
    intros [a x'] [a' y'] [E H']. cbn [fst snd] in E, H'. subst. apply same_bind; auto.
    intros. constructor. auto.
Qed.

Lemma release_answers SS TT h calls : stateful_builds SS TT ->
  same_in_release (answers SS (ss_new SS h) calls) (answers TT (ss_new TT h) calls).
Proof.
  intros H. apply stateful_builds_fit in H as (r & H). apply same_ok.
  apply (answers_fit _ _ _ H). apply (same_new _ _ _ H).
Qed.

Lemma release_solve_cnf T T' n f : stateless_builds T T' -> same_in_release (T n f) (T' n f).
Proof. intros H. apply same_ok, stateless_builds_same, H. Qed.

Lemma release_implies T T' order f g : stateless_builds T T' ->
  same_in_release (does_a_imply_b T order f g) (does_a_imply_b T' order f g) /\
  same_in_release (is_a_and_b_satisfiable T f g) (is_a_and_b_satisfiable T' f g).
Proof.
  intros H. split; apply same_ok; [apply same_implies|apply same_both]; apply stateless_builds_same, H.
Qed.

Lemma release_check T1 T1' T2 T2' T3 T3' o1 o2 s inv :
  stateless_builds T1 T1' -> stateless_builds T2 T2' -> stateless_builds T3 T3' ->
  same_in_release (check_invariant Debug T1 T2 T3 o1 o2 s inv)
    (check_invariant Release T1' T2' T3' o1 o2 s inv).
Proof. intros. apply same_ok, same_check_invariant; auto. Qed.

Lemma release_values n v :
  same_in_release (literal_new Debug n) (literal_new Release n) /\
  same_in_release (from_dimacs_assignment Debug v) (from_dimacs_assignment Release v).
Proof. split; apply same_ok; auto with same. Qed.

Lemma release_features s f q d asg k :
  same_in_release (add_tags_to_relation Debug s f k) (add_tags_to_relation Release s f k) /\
  same_in_release (add_tags_to_cube Debug s q k) (add_tags_to_cube Release s q k) /\
  same_in_release (add_tags_to_clause Debug s d k) (add_tags_to_clause Release s d k) /\
  same_in_release (extract_state_from_assignment Debug s asg)
    (extract_state_from_assignment Release s asg).
Proof. split; [|split; [|split]]; apply same_ok; auto with same. Qed.
