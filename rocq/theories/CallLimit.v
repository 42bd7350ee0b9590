(** The largest possible number of SAT calls of IC3, and small circuits. *)
From Verif Require Import Base Formulas FormulaLogic Aig AigParse Fsts Solvers Ic3 Spec SpecAig SpecAiger
  SpecFsts SpecAlg Tac LogicFacts AigFacts AigThms FstsSem FstsThms BmcThms StateFacts Ic3Core Ic3Thms Plain
  SoundThms CallBound CallUpper CounterGen CounterThms.
Open Scope nat_scope.

Lemma sl_sat_call_cost T x f r x' : sl_sat_call T x f = Ok (r, x') ->
  sl_calls x' = S (sl_calls x) /\ sl_clauses x' = sl_clauses x.
Proof. unfold sl_sat_call. open_step. intros X. injection X as _ <-. split; reflexivity. Qed.

Ltac cost H := destruct H as (?Hn & ?Hc); split; [lia|congruence].

Lemma sl_costs b T s C : costs (sl_ops b T s C) sl_calls.
Proof.
  assert (K := sl_sat_call_cost T).
  constructor; cbn [sl_ops o_push_frame o_add_clause o_bad_in_0 o_bad_in_1 o_bad_from_fi o_reach_from_fi
    o_propagate_query o_not_s_and_s_tag o_clause_inductive o_clauses ox].
  - intros x x'. unfold sl_push_frame. intros X. injection X as <-. split; reflexivity.
  - intros x j d x'. unfold sl_add_clause. destruct (indexn (sl_clauses x) j) as [f| |] eqn:E; cbn [bind]; try discriminate.
    intros X. injection X as <-. split; [reflexivity|]. exists f. split; reflexivity.
  - intros x r x' X. apply K in X. cost X.
  - intros x r x' X. apply K in X. cost X.
  - intros x i r x'. unfold sl_bad_from_fi. open_step. intros X. apply K in X. cost X.
  - intros x i q r x'. unfold sl_reach_from_fi. do 2 open_step. intros X. apply K in X. cost X.
  - intros x i d r x'. unfold sl_propagate_query. do 2 open_step. intros X. apply K in X. cost X.
  - intros x i q r x'. unfold sl_not_s_and_s_tag. do 4 open_step. intros X. injection X as _ <-.
    match goal with H : sl_sat_call _ _ _ = Ok _ |- _ => apply K in H; cost H end.
  - intros x d i r x'. unfold sl_clause_inductive. cbv zeta.
    match goal with |- context [sl_sat_call T x ?f] =>
      destruct (sl_sat_call T x f) as [(r1 & x1)| |] eqn:E1; cbn [bind]; try discriminate end.
    apply K in E1. destruct E1 as (A1 & A2). destruct r1.
    + do 2 open_step. match goal with |- context [sl_sat_call T x1 ?f] =>
        destruct (sl_sat_call T x1 f) as [(r2 & x2)| |] eqn:E2; cbn [bind]; try discriminate end.
      apply K in E2. intros X. injection X as _ <-. cost E2.
    + intros X. injection X as _ <-. split; [lia|congruence].
Qed.

Section StatefulCosts.
Variable (b : build) (SS : StatefulSolver) (s : FSTS) (C : Ic3Cache).

Lemma sf_fi_t_cost (x : SFState SS) j q d r x' : sf_solve_fi_t SS x j q d = Ok (r, x') ->
  sf_calls x' = S (sf_calls x) /\ sf_clauses x' = sf_clauses x.
Proof. unfold sf_solve_fi_t. do 3 open_step. intros X. injection X as _ <-. split; reflexivity. Qed.

Lemma sf_custom_cost (x : SFState SS) f r x' : sf_custom SS x f = Ok (r, x') ->
  sf_calls x' = S (sf_calls x) /\ sf_clauses x' = sf_clauses x.
Proof. unfold sf_custom. do 3 open_step. intros X. injection X as _ <-. split; reflexivity. Qed.

Lemma sf_check_cost (x : SFState SS) q e x' : sf_debug_check b SS x q e = Ok x' ->
  sf_calls x' <= S (sf_calls x) /\ sf_clauses x' = sf_clauses x.
Proof.
  unfold sf_debug_check, sf_intersects_initial, sf_solve_initial. destruct b.
  - destruct (ss_solve SS (sf_initial x) (Some q) None) as [(r & st)| |]; cbn [bind]; try discriminate.
    destruct (assert_ _); cbn [bind]; try discriminate. intros X. injection X as <-. split; [cbn; lia|reflexivity].
  - intros X. injection X as <-. split; [lia|reflexivity].
Qed.

Lemma sf_reach_cost (x : SFState SS) i q r x' : sf_reach_from_fi b SS s x i q = Ok (r, x') ->
  sf_calls x' = S (sf_calls x) /\ sf_clauses x' = sf_clauses x.
Proof. unfold sf_reach_from_fi. open_step. apply sf_fi_t_cost. Qed.

Lemma sf_costs : costs (sf_ops b SS s C) sf_calls.
Proof.
  constructor; cbn [sf_ops o_push_frame o_add_clause o_bad_in_0 o_bad_in_1 o_bad_from_fi o_reach_from_fi
    o_propagate_query o_not_s_and_s_tag o_clause_inductive o_clauses ox].
  - intros x x'. unfold sf_push_frame. repeat open_step. all: intros X; injection X as <-; split; reflexivity.
  - intros x j d x'. unfold sf_add_clause. destruct (sf_same_lengths b SS x); cbn [bind]; try discriminate.
    destruct (indexn (sf_clauses x) j) as [f| |] eqn:E; cbn [bind]; try discriminate.
    repeat open_step. intros X; injection X as <-. split; [reflexivity|]. exists f. split; reflexivity.
  - intros x r x' X. apply sf_custom_cost in X. cost X.
  - intros x r x' X. apply sf_custom_cost in X. cost X.
  - intros x i r x'. unfold sf_solve_fi_t_notp. do 3 open_step. intros X. injection X as _ <-. split; [cbn; lia|reflexivity].
  - intros x i q r x' X. apply sf_reach_cost in X. cost X.
  - intros x i d r x' X. apply sf_reach_cost in X. cost X.
  - intros x i q r x'. unfold sf_not_s_and_s_tag. do 3 open_step. intros X. injection X as _ <-.
    match goal with H : sf_solve_fi_t _ _ _ _ _ = Ok _ |- _ => apply sf_fi_t_cost in H; cost H end.
  - intros x d i r x'. unfold sf_clause_inductive, sf_clause_and_not_clause_tag. destruct (is_cube_initial s (clause_not d)).
    + open_step. intros X. injection X as _ <-.
      match goal with H : sf_debug_check _ _ _ _ _ = Ok _ |- _ => apply sf_check_cost in H; cost H end.
    + destruct (sf_debug_check b SS x (clause_not d) false) as [x1| |] eqn:E1; cbn [bind]; try discriminate.
      destruct (add_tags_to_cube b s (clause_not d) 1) as [t| |]; cbn [bind]; try discriminate.
      destruct (sf_solve_fi_t SS x1 i (Some t) (Some d)) as [(r2 & x2)| |] eqn:E2; cbn [bind]; try discriminate.
      intros X. injection X as _ <-. apply sf_check_cost in E1. apply sf_fi_t_cost in E2. destruct E1. cost E2.
Qed.

End StatefulCosts.

(* ------------------------------------------------------------------ the bound *)

Section Bounded.
Open Scope N_scope.

Definition call_limit (l : N) : N :=
  2 + (2 ^ l + 1) ^ 2 * ((2 ^ l + 1) * (2 ^ l + 2) * (2 ^ l + 3 + 2 * l) + 3 ^ l).

Lemma limit_of_nat c n : (n <= 0 + 2 + (states c + 1) * ((states c + 1) * ((states c * (states c + 3) + 2) *
  (states c + 3 + 2 * length (c_latches c))) + (states c + 1) * 3 ^ length (c_latches c)))%nat ->
  N.of_nat n <= call_limit (lenN (c_latches c)).
Proof.
  intros H. unfold call_limit, lenN. set (l := length (c_latches c)) in *.
  assert (E : N.of_nat (states c) = 2 ^ N.of_nat l) by (unfold states; rewrite Nat2N.inj_pow; reflexivity).
  assert (E3 : N.of_nat (3 ^ l) = 3 ^ N.of_nat l) by (rewrite Nat2N.inj_pow; reflexivity).
  rewrite <- E, <- E3. revert H. generalize (3 ^ l)%nat as t. generalize (states c) as S. clear E E3. intros S t H.
  apply (N.le_trans _ (N.of_nat (0 + 2 + (S + 1) * ((S + 1) * ((S * (S + 3) + 2) * (S + 3 + 2 * l)) + (S + 1) * t)))); [lia|].
  repeat (rewrite Nat2N.inj_add || rewrite Nat2N.inj_mul).
  apply N.eq_le_incl. change (N.of_nat 0) with 0. change (N.of_nat 1) with 1. change (N.of_nat 2) with 2. change (N.of_nat 3) with 3.
  rewrite N.pow_2_r. ring.
Qed.

Lemma limit_small l : l <= 6 -> call_limit l < 4294967296.
Proof.
  intros H. assert (X : l = 0 \/ l = 1 \/ l = 2 \/ l = 3 \/ l = 4 \/ l = 5 \/ l = 6) by lia.
  destruct X as [->|[->|[->|[->|[->|[->| ->]]]]]]; vm_compute; reflexivity.
Qed.

Lemma stateless_bounded b c flag s R T fuel r n : system_of b c flag s -> numbering_fits c flag ->
  random_ok R -> solver_correct_below 2147483647 T -> solver_total_below 2147483647 T ->
  ic3_stateless_run b R T fuel s = Ok (r, n) -> N.of_nat n <= call_limit (lenN (c_latches c)).
Proof.
  intros Hs Hf HR HT HTd. destruct (system_encodes _ _ _ _ Hs (or_intror Hf)) as (Hwf & Hn & He).
  unfold ic3_stateless_run. rewrite (cache_ok c flag s b Hf Hwf He). cbn [bind].
  match goal with |- context [ic3_prove b R ?O s fuel ?st0] =>
    destruct (ic3_prove b R O s fuel st0) as [(r' & st)| |] eqn:E; cbn [bind]; try discriminate end.
  intros X. injection X as -> <-. apply limit_of_nat.
  refine (prove_bounded c flag s Hwf Hn He b R _ _ _ HR (sl_ops_ok c flag s b Hf Hwf He T HT HTd) (sl_costs _ _ _ _) fuel _ _ _ _ _ E).
  - constructor.
  - reflexivity.
Qed.

Lemma stateful_bounded b c flag s R SS fuel r n : system_of b c flag s -> numbering_fits c flag ->
  random_ok R -> stateful_correct SS ->
  ic3_stateful_run b R SS fuel s = Ok (r, n) -> N.of_nat n <= call_limit (lenN (c_latches c)).
Proof.
  intros Hs Hf HR HS. destruct (system_encodes _ _ _ _ Hs (or_intror Hf)) as (Hwf & Hn & He).
  unfold ic3_stateful_run. rewrite (cache_ok c flag s b Hf Hwf He). cbn [bind].
  pose proof (sf_new_ok c flag s Hn He SS HS) as Hnew.
  match goal with |- context [bind (sf_new SS ?C) _] => destruct (sf_new SS C) as [x| |] eqn:Ex; cbn [bind]; try discriminate end.
  destruct Hnew as (x1 & X & Hx & Hcl). injection X as <-.
  assert (Hz : sf_calls x = 0%nat).
  { revert Ex. unfold sf_new. open_step. intros X. injection X as <-. reflexivity. }
  match goal with |- context [ic3_prove b R ?O s fuel ?st0] =>
    destruct (ic3_prove b R O s fuel st0) as [(r' & st)| |] eqn:E; cbn [bind]; try discriminate end.
  intros X. injection X as -> <-. apply limit_of_nat.
  pose proof (prove_bounded c flag s Hwf Hn He b R _ _ _ HR (sf_ops_ok c flag s b Hs Hf Hwf Hn He SS HS)
    (sf_costs _ _ _ _) fuel (mkIc3State (O := sf_ops b SS s (the_cache c s)) x 0) Hx Hcl _ _ E) as X. cbn [st_ops] in X. rewrite Hz in X. exact X.
Qed.

Lemma counted_few b n {A} (r : A) : n < 4294967296 -> counted_answer b n r = Ok r.
Proof. intros H. unfold counted_answer. apply N.ltb_lt in H. rewrite H. destruct b; reflexivity. Qed.

Lemma stateless_small b c flag s R T fuel : system_of b c flag s -> numbering_fits c flag ->
  random_ok R -> solver_correct_below 2147483647 T -> solver_total_below 2147483647 T ->
  enough_fuel c fuel -> lenN (c_latches c) <= 6 ->
  exists r, ic3_stateless b R T fuel s = Ok r /\ (verdict_proof r <-> safe c flag).
Proof.
  intros Hs Hf HR HT HTd Hfu Hl.
  assert (Hd : depth_fits c flag) by (apply few_latches_fit; lia).
  destruct (stateless_answers b c flag s R T fuel Hs Hf HR HT HTd Hfu Hd) as (r & n & E & Hv & Ec).
  exists r. split; auto. rewrite Ec. apply counted_few.
  eapply N.le_lt_trans; [eapply stateless_bounded; eauto|]. apply limit_small; auto.
Qed.

Lemma stateful_small b c flag s R SS fuel : system_of b c flag s -> numbering_fits c flag ->
  random_ok R -> stateful_correct SS -> enough_fuel c fuel -> lenN (c_latches c) <= 6 ->
  exists r, ic3_stateful b R SS fuel s = Ok r /\ (verdict_proof r <-> safe c flag).
Proof.
  intros Hs Hf HR HS Hfu Hl.
  assert (Hd : depth_fits c flag) by (apply few_latches_fit; lia).
  destruct (stateful_answers b c flag s R SS fuel Hs Hf HR HS Hfu Hd) as (r & n & E & Hv & Ec).
  exists r. split; auto. rewrite Ec. apply counted_few.
  eapply N.le_lt_trans; [eapply stateful_bounded; eauto|]. apply limit_small; auto.
Qed.

End Bounded.
