(** A circuit with a very long shortest counterexample, and IC3's counter of SAT calls on it. *)
From Verif Require Import Base Formulas FormulaLogic Aig AigParse Fsts Solvers Ic3 Spec SpecAig SpecAiger
  SpecFsts SpecAlg Tac LogicFacts AigFacts AigThms FstsSem FstsThms BmcThms StateFacts Ic3Core Ic3Thms Plain
  SoundThms CallBound CounterGen.
Open Scope N_scope.

(* ------------------------------------------------------------------ a 32-bit counter *)

Definition counter32 : circuit := counter 32.

Lemma counter32_shortest n : N.of_nat n = 4294967295 -> shortest counter32 false n.
Proof. intros H. apply counter_shortest. change (2 ^ N.of_nat 32) with 4294967296. lia. Qed.

Lemma counter32_system b : exists s, system_of b counter32 false s /\ numbering_fits counter32 false.
Proof.
  destruct (counter_system 32 b) as (s & H); [lia|vm_compute; discriminate|]. exists s. split; [exact H|].
  apply counter_numbering; [lia|vm_compute; discriminate].
Qed.

Lemma counter32_fits : depth_fits counter32 false.
Proof. apply few_latches_fit. vm_compute. discriminate. Qed.

(* ------------------------------------------------------------------ both variants count *)

Ltac open_step :=
  cbv zeta;
  match goal with
  | |- context [bind ?m _] => destruct m as [?| |] eqn:?; cbn [bind]; try discriminate
  | |- context [let '(_, _) := ?p in _] => destruct p as (? & ?)
  | |- context [if ?q then _ else _] => destruct q
  end.

Open Scope nat_scope.

Lemma sl_sat_call_counts T x f r x' : sl_sat_call T x f = Ok (r, x') -> sl_calls x' = S (sl_calls x).
Proof. unfold sl_sat_call. open_step. intros X. injection X as _ <-. reflexivity. Qed.

Lemma sl_counts b T s C : counts (sl_ops b T s C) sl_calls.
Proof.
  assert (K := sl_sat_call_counts T).
  constructor; cbn [sl_ops o_push_frame o_add_clause o_bad_in_0 o_bad_in_1 o_bad_from_fi o_reach_from_fi
    o_propagate_query o_not_s_and_s_tag o_clause_inductive ox].
  - intros x x'. unfold sl_push_frame. intros X. injection X as <-. cbn. lia.
  - intros x j d x'. unfold sl_add_clause. open_step. intros X. injection X as <-. cbn. lia.
  - intros x r x' X. apply K in X. lia.
  - intros x r x' X. apply K in X. lia.
  - intros x i r x'. unfold sl_bad_from_fi. open_step. intros X. apply K in X. lia.
  - intros x i q r x'. unfold sl_reach_from_fi. do 2 open_step. intros X. apply K in X. lia.
  - intros x i d r x'. unfold sl_propagate_query. do 2 open_step. intros X. apply K in X. lia.
  - intros x i q r x'. unfold sl_not_s_and_s_tag. do 4 open_step. intros X. injection X as _ <-.
    match goal with H : sl_sat_call _ _ _ = Ok _ |- _ => apply K in H; lia end.
  - intros x d i r x'. unfold sl_clause_inductive. cbv zeta.
    match goal with |- context [sl_sat_call T x ?f] =>
      destruct (sl_sat_call T x f) as [(r1 & x1)| |] eqn:E1; cbn [bind]; try discriminate end.
    apply K in E1. destruct r1.
    + do 2 open_step. match goal with |- context [sl_sat_call T x1 ?f] =>
        destruct (sl_sat_call T x1 f) as [(r2 & x2)| |] eqn:E2; cbn [bind]; try discriminate end.
      apply K in E2. intros X. injection X as _ <-. lia.
    + intros X. injection X as _ <-. lia.
Qed.

Section StatefulCounts.
Variable (b : build) (SS : StatefulSolver) (s : FSTS) (C : Ic3Cache).

Lemma sf_fi_t_counts (x : SFState SS) j q d r x' : sf_solve_fi_t SS x j q d = Ok (r, x') ->
  sf_calls x' = S (sf_calls x).
Proof. unfold sf_solve_fi_t. do 3 open_step. intros X. injection X as _ <-. reflexivity. Qed.

Lemma sf_custom_counts (x : SFState SS) f r x' : sf_custom SS x f = Ok (r, x') -> sf_calls x' = S (sf_calls x).
Proof. unfold sf_custom. do 3 open_step. intros X. injection X as _ <-. reflexivity. Qed.

Lemma sf_check_counts (x : SFState SS) q e x' : sf_debug_check b SS x q e = Ok x' -> sf_calls x <= sf_calls x'.
Proof.
  unfold sf_debug_check, sf_intersects_initial, sf_solve_initial. destruct b.
  - destruct (ss_solve SS (sf_initial x) (Some q) None) as [(r & st)| |]; cbn [bind]; try discriminate.
    destruct (assert_ _); cbn [bind]; try discriminate. intros X. injection X as <-. cbn. lia.
  - intros X. injection X as <-. lia.
Qed.

Lemma sf_reach_counts (x : SFState SS) i q r x' : sf_reach_from_fi b SS s x i q = Ok (r, x') ->
  sf_calls x' = S (sf_calls x).
Proof. unfold sf_reach_from_fi. open_step. apply sf_fi_t_counts. Qed.

Lemma sf_counts : counts (sf_ops b SS s C) sf_calls.
Proof.
  constructor; cbn [sf_ops o_push_frame o_add_clause o_bad_in_0 o_bad_in_1 o_bad_from_fi o_reach_from_fi
    o_propagate_query o_not_s_and_s_tag o_clause_inductive ox].
  - intros x x'. unfold sf_push_frame. repeat open_step. all: intros X; injection X as <-; cbn; lia.
  - intros x j d x'. unfold sf_add_clause. repeat open_step. all: intros X; injection X as <-; cbn; lia.
  - intros x r x' X. apply sf_custom_counts in X. lia.
  - intros x r x' X. apply sf_custom_counts in X. lia.
  - intros x i r x'. unfold sf_solve_fi_t_notp. do 3 open_step. intros X. injection X as _ <-. cbn. lia.
  - intros x i q r x' X. apply sf_reach_counts in X. lia.
  - intros x i d r x' X. apply sf_reach_counts in X. lia.
  - intros x i q r x'. unfold sf_not_s_and_s_tag. do 3 open_step. intros X. injection X as _ <-.
    match goal with H : sf_solve_fi_t _ _ _ _ _ = Ok _ |- _ => apply sf_fi_t_counts in H; lia end.
  - intros x d i r x'. unfold sf_clause_inductive, sf_clause_and_not_clause_tag. destruct (is_cube_initial s (clause_not d)).
    + open_step. intros X. injection X as _ <-.
      match goal with H : sf_debug_check _ _ _ _ _ = Ok _ |- _ => apply sf_check_counts in H; lia end.
    + destruct (sf_debug_check b SS x (clause_not d) false) as [x1| |] eqn:E1; cbn [bind]; try discriminate.
      destruct (add_tags_to_cube b s (clause_not d) 1) as [t| |]; cbn [bind]; try discriminate.
      destruct (sf_solve_fi_t SS x1 i (Some t) (Some d)) as [(r2 & x2)| |] eqn:E2; cbn [bind]; try discriminate.
      intros X. injection X as _ <-. apply sf_check_counts in E1. apply sf_fi_t_counts in E2. lia.
Qed.

End StatefulCounts.

Lemma stateless_calls b c flag s R T fuel d n : system_of b c flag s -> numbering_fits c flag ->
  random_ok R -> solver_correct_below 2147483647 T -> solver_total_below 2147483647 T ->
  ic3_stateless_run b R T fuel s = Ok (ProofCTX d, n) ->
  exists w t, run c w /\ is_bad c flag (w t) /\ t < n.
Proof.
  intros Hs Hf HR HT HTd. destruct (system_encodes _ _ _ _ Hs (or_intror Hf)) as (Hwf & Hn & He).
  unfold ic3_stateless_run. rewrite (cache_ok c flag s b Hf Hwf He). cbn [bind].
  match goal with |- context [ic3_prove b R ?O s fuel ?st0] =>
    destruct (ic3_prove b R O s fuel st0) as [(r & st)| |] eqn:E; cbn [bind]; try discriminate end.
  intros X. injection X as -> <-.
  eapply (prove_calls c flag s Hwf Hn He b R _ _ _ HR (sl_ops_ok c flag s b Hf Hwf He T HT HTd) (sl_counts _ _ _ _)); [..|exact E].
  - constructor.
  - apply frames_ok_nil.
Qed.

Lemma stateful_calls b c flag s R SS fuel d n : system_of b c flag s -> numbering_fits c flag ->
  random_ok R -> stateful_correct SS ->
  ic3_stateful_run b R SS fuel s = Ok (ProofCTX d, n) ->
  exists w t, run c w /\ is_bad c flag (w t) /\ t < n.
Proof.
  intros Hs Hf HR HS. destruct (system_encodes _ _ _ _ Hs (or_intror Hf)) as (Hwf & Hn & He).
  unfold ic3_stateful_run. rewrite (cache_ok c flag s b Hf Hwf He). cbn [bind].
  pose proof (sf_new_ok c flag s Hn He SS HS) as Hnew.
  match goal with |- context [bind (sf_new SS ?C) _] => destruct (sf_new SS C) as [x| |] eqn:Ex; cbn [bind]; try discriminate end.
  destruct Hnew as (x1 & X & Hx & Hcl). injection X as <-.
  match goal with |- context [ic3_prove b R ?O s fuel ?st0] =>
    destruct (ic3_prove b R O s fuel st0) as [(r & st)| |] eqn:E; cbn [bind]; try discriminate end.
  intros X. injection X as -> <-.
  eapply (prove_calls c flag s Hwf Hn He b R _ _ _ HR (sf_ops_ok c flag s b Hs Hf Hwf Hn He SS HS) (sf_counts _ _ _ _)); [..|exact E].
  - exact Hx.
  - cbn. rewrite Hcl. apply frames_ok_nil.
Qed.

(* ------------------------------------------------------------------ overflow in a debug build *)

Lemma calls_of_shortest c flag m n : shortest c flag m ->
  (exists w t, run c w /\ is_bad c flag (w t) /\ t < n) -> m < n.
Proof.
  intros (Hs & _) (w & t & Hr & Hb & Ht). destruct (Nat.lt_ge_cases t m) as [L|L]; [|lia].
  elim (Hs w Hr t L Hb).
Qed.

Lemma stateless_calls_shortest b c flag s R T fuel d n m : system_of b c flag s -> numbering_fits c flag ->
  random_ok R -> solver_correct_below 2147483647 T -> solver_total_below 2147483647 T -> shortest c flag m ->
  ic3_stateless_run b R T fuel s = Ok (ProofCTX d, n) -> m < n.
Proof. intros. eapply calls_of_shortest; eauto. eapply stateless_calls; eauto. Qed.

Lemma stateful_calls_shortest b c flag s R SS fuel d n m : system_of b c flag s -> numbering_fits c flag ->
  random_ok R -> stateful_correct SS -> shortest c flag m ->
  ic3_stateful_run b R SS fuel s = Ok (ProofCTX d, n) -> m < n.
Proof. intros. eapply calls_of_shortest; eauto. eapply stateful_calls; eauto. Qed.

Lemma shortest_unsafe c flag m : shortest c flag m -> ~ safe c flag.
Proof. intros (_ & w & Hr & Hb) H. exact (H w Hr m Hb). Qed.

(** A debug build checks the count, so a result means that the count is small. *)
Lemma counted_debug n {A} (r r' : A) : counted_answer Debug n r = Ok r' -> (n < 4294967296)%N.
Proof. unfold counted_answer. destruct (N.ltb_spec n 4294967296); auto; discriminate. Qed.

Lemma stateless_overflows c flag s R T fuel m : system_of Debug c flag s -> numbering_fits c flag ->
  random_ok R -> solver_correct_below 2147483647 T -> solver_total_below 2147483647 T ->
  shortest c flag m -> (4294967295 <= N.of_nat m)%N ->
  (forall r, ic3_stateless Debug R T fuel s <> Ok r) /\
  (enough_fuel c fuel -> ic3_stateless Debug R T fuel s = Panic).
Proof.
  intros Hs Hf HR HT HTd Hm Hl.
  assert (K : forall r, ic3_stateless Debug R T fuel s <> Ok r).
  { intros r E. pose proof (ic3_stateless_ok Debug c flag s R T fuel Hs Hf HR HT HTd) as (P1 & _).
    destruct (stateless_link Debug R T fuel s) as (L1 & L2).
    destruct (stateless_plain Debug R T fuel s) as [r'| |] eqn:Ep; cbn [linked] in L1; try congruence.
    destruct (L2 r' eq_refl) as (n & En & Ec). rewrite Ec in E. apply counted_debug in E.
    destruct r' as [inv|d]; [exact (shortest_unsafe _ _ _ Hm (proj1 (P1 inv eq_refl)))|].
    pose proof (stateless_calls_shortest _ _ _ _ _ _ _ _ _ _ Hs Hf HR HT HTd Hm En). lia. }
  split; [exact K|]. intros Hfu.
  pose proof (ic3_stateless_ok Debug c flag s R T fuel Hs Hf HR HT HTd) as (_ & _ & P3 & _).
  specialize (P3 Hfu). destruct (stateless_link Debug R T fuel s) as (L1 & _).
  destruct (ic3_stateless Debug R T fuel s) as [r| |]; [elim (K r eq_refl)|reflexivity|].
  destruct (stateless_plain Debug R T fuel s) as [r'| |]; cbn [linked] in L1; try congruence.
  destruct L1 as [L1|(_ & L1)]; discriminate.
Qed.

Lemma stateful_overflows c flag s R SS fuel m : system_of Debug c flag s -> numbering_fits c flag ->
  random_ok R -> stateful_correct SS ->
  shortest c flag m -> (4294967295 <= N.of_nat m)%N ->
  (forall r, ic3_stateful Debug R SS fuel s <> Ok r) /\
  (enough_fuel c fuel -> ic3_stateful Debug R SS fuel s = Panic).
Proof.
  intros Hs Hf HR HS Hm Hl.
  assert (K : forall r, ic3_stateful Debug R SS fuel s <> Ok r).
  { intros r E. pose proof (ic3_stateful_ok Debug c flag s R SS fuel Hs Hf HR HS) as (P1 & _).
    destruct (stateful_link Debug R SS fuel s) as (L1 & L2).
    destruct (stateful_plain Debug R SS fuel s) as [r'| |] eqn:Ep; cbn [linked] in L1; try congruence.
    destruct (L2 r' eq_refl) as (n & En & Ec). rewrite Ec in E. apply counted_debug in E.
    destruct r' as [inv|d]; [exact (shortest_unsafe _ _ _ Hm (proj1 (P1 inv eq_refl)))|].
    pose proof (stateful_calls_shortest _ _ _ _ _ _ _ _ _ _ Hs Hf HR HS Hm En). lia. }
  split; [exact K|]. intros Hfu.
  pose proof (ic3_stateful_ok Debug c flag s R SS fuel Hs Hf HR HS) as (_ & _ & P3 & _).
  specialize (P3 Hfu). destruct (stateful_link Debug R SS fuel s) as (L1 & _).
  destruct (ic3_stateful Debug R SS fuel s) as [r| |]; [elim (K r eq_refl)|reflexivity|].
  destruct (stateful_plain Debug R SS fuel s) as [r'| |]; cbn [linked] in L1; try congruence.
  destruct L1 as [L1|(_ & L1)]; discriminate.
Qed.

Lemma stateless_counter : exists s, system_of Debug counter32 false s /\
  numbering_fits counter32 false /\ depth_fits counter32 false /\
  forall R T fuel, random_ok R -> solver_correct_below 2147483647 T -> solver_total_below 2147483647 T ->
  (forall r, ic3_stateless Debug R T fuel s <> Ok r) /\
  (enough_fuel counter32 fuel -> ic3_stateless Debug R T fuel s = Panic).
Proof.
  destruct (counter32_system Debug) as (s & Hs & Hf). exists s. split; [exact Hs|]. split; [exact Hf|].
  split; [exact counter32_fits|]. intros R T fuel HR HT HTd.
  assert (X : exists m, N.of_nat m = 4294967295%N) by (exists (N.to_nat 4294967295); apply N2Nat.id).
  destruct X as (m & Hm).
  eapply stateless_overflows; eauto; [apply counter32_shortest; exact Hm|lia].
Qed.

Lemma stateful_counter : exists s, system_of Debug counter32 false s /\
  numbering_fits counter32 false /\ depth_fits counter32 false /\
  forall R SS fuel, random_ok R -> stateful_correct SS ->
  (forall r, ic3_stateful Debug R SS fuel s <> Ok r) /\
  (enough_fuel counter32 fuel -> ic3_stateful Debug R SS fuel s = Panic).
Proof.
  destruct (counter32_system Debug) as (s & Hs & Hf). exists s. split; [exact Hs|]. split; [exact Hf|].
  split; [exact counter32_fits|]. intros R SS fuel HR HS.
  assert (X : exists m, N.of_nat m = 4294967295%N) by (exists (N.to_nat 4294967295); apply N2Nat.id).
  destruct X as (m & Hm).
  eapply stateful_overflows; eauto; [apply counter32_shortest; exact Hm|lia].
Qed.
