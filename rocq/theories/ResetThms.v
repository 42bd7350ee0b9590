(** Lemmas behind C68. *)
From Verif Require Import Base Formulas FormulaLogic Aig AigParse Fsts Bmc Solvers Ic3 Pdr Brute Spec SpecText SpecAig SpecAiger SpecFsts SpecAlg
  SpecRename SpecInv SpecReset Tac FormulasFacts LogicFacts AigFacts SimFacts AigThms FstsFacts FstsSem TagFacts FstsThms BmcThms BruteFacts
  RenameThms QueryFacts InvThms InvComb PartsThms.
Open Scope N_scope.

Section Reset.
Variables c' c : circuit.
Hypothesis H : fixes c' c.

Lemma fix_count : lenN (c_latches c') = lenN (c_latches c).
Proof.
  destruct H as (_ & _ & _ & _ & E & _). unfold lenN. f_equal. rewrite <- (map_length fst (c_latches c')), E. apply map_length.
Qed.
Lemma fix_max : c_max c' = c_max c.
Proof. destruct H as (E1 & E2 & _). unfold c_max. rewrite E1, E2, fix_count. reflexivity. Qed.
Lemma fix_bad flag : bad_literals c' flag = bad_literals c flag.
Proof. destruct H as (_ & _ & E1 & E2 & _). unfold bad_literals. rewrite E1, E2. reflexivity. Qed.
Lemma fix_gate v r0 r1 : gate c' v r0 r1 <-> gate c v r0 r1.
Proof. pose proof fix_count as L. destruct H as (E1 & E2 & _). unfold gate, gate_var. rewrite E1, E2, L. tauto. Qed.
Lemma fix_latch v nx r : latch c v nx r -> exists r', latch c' v nx r'.
Proof.
  destruct H as (E1 & _ & _ & _ & E & _). intros (j & Hj & ->).
  assert (X : nth_error (map fst (c_latches c')) j = Some nx) by (rewrite E; exact (map_nth_error fst j _ Hj)).
  destruct (nth_error (c_latches c') j) as [(nx', r')|] eqn:Y.
  - rewrite (map_nth_error fst j _ Y) in X. injection X as ->. exists r', j. split; [exact Y|]. unfold latch_var. rewrite E1. reflexivity.
  - apply nth_error_None in Y. rewrite <- (map_length fst) in Y. apply nth_error_None in Y. congruence.
Qed.
Lemma fix_latch_back v nx r : latch c' v nx r -> exists r', latch c v nx r'.
Proof.
  destruct H as (E1 & _ & _ & _ & E & _). intros (j & Hj & ->).
  assert (X : nth_error (map fst (c_latches c)) j = Some nx) by (rewrite <- E; exact (map_nth_error fst j _ Hj)).
  destruct (nth_error (c_latches c) j) as [(nx', r')|] eqn:Y.
  - rewrite (map_nth_error fst j _ Y) in X. injection X as ->. exists r', j. split; [exact Y|]. unfold latch_var. rewrite E1. reflexivity.
  - apply nth_error_None in Y. rewrite <- (map_length fst) in Y. apply nth_error_None in Y. congruence.
Qed.
Lemma fix_nexts : latch_nexts c' = latch_nexts c.
Proof. destruct H as (_ & _ & _ & _ & E & _). exact E. Qed.
Lemma fix_fan lits v : fan_in c' lits v <-> fan_in c lits v.
Proof.
  assert (G : forall u, is_gate c' u <-> is_gate c u).
  { intros u. split; intros (r0 & r1 & X); exists r0, r1; apply fix_gate; exact X. }
  split; induction 1 as [l Hl Hg|u r0 r1 r _ IH Hg Hr Hi].
  - apply fan_in_root; auto. apply G; auto.
  - apply (fan_in_step c lits u r0 r1 r); auto; [apply fix_gate; auto|apply G; auto].
  - apply fan_in_root; auto. apply G; auto.
  - apply (fan_in_step c' lits u r0 r1 r); auto; [apply fix_gate; auto|apply G; auto].
Qed.

Lemma fix_wires w : wires_ok c' w <-> wires_ok c w.
Proof. split; intros (W0 & W); (split; [exact W0|]); intros v r0 r1 G; apply W, fix_gate, G. Qed.
Lemma fix_initial w : circuit_wf c -> initial_values c' w -> initial_values c w.
Proof.
  intros Hwf I v nx r L. assert (V : v <> 0) by (destruct L as (j & _ & ->); unfold latch_var; lia).
  destruct H as (_ & _ & _ & _ & _ & K). destruct (K v nx r L) as [->|L']; [|exact (I v nx r L')]. split; intros X; lia.
Qed.
Lemma fix_run w : circuit_wf c -> run c' w -> run c w.
Proof.
  intros Hwf (R1 & R2 & R3). split; [intros t; apply fix_wires, R1|]. split; [apply fix_initial; auto|].
  intros t v nx r L. destruct (fix_latch v nx r L) as (r' & L'). exact (R3 t v nx r' L').
Qed.
Lemma fix_is_bad flag w : is_bad c' flag w <-> is_bad c flag w.
Proof. unfold is_bad. rewrite fix_bad. tauto. Qed.
Lemma fix_safe flag : circuit_wf c -> safe c flag -> safe c' flag.
Proof. intros Hwf S1 w Hr t B. apply (S1 w (fix_run w Hwf Hr) t). apply fix_is_bad. exact B. Qed.
Lemma fix_before flag n : circuit_wf c -> safe_before c flag n -> safe_before c' flag n.
Proof. intros Hwf S1 w Hr t Ht B. apply (S1 w (fix_run w Hwf Hr) t Ht). apply fix_is_bad. exact B. Qed.
Lemma fix_fits flag : numbering_fits c flag <-> numbering_fits c' flag.
Proof. unfold numbering_fits. rewrite fix_max, fix_bad. tauto. Qed.

Lemma fix_passes flag s s' inv : circuit_wf c -> encodes c flag s -> encodes c' flag s' -> passes c s inv -> passes c' s' inv.
Proof.
  intros Hwf He He' (Hi & Hs & Hb).
  assert (ES : forall a, cnf_true a (state_to_safety_translation s') -> cnf_true a (state_to_safety_translation s)).
  { intros a X. apply (e_s_true _ _ _ He). intros v r0 r1 G F. apply (proj1 (e_s_true _ _ _ He' a) X); [apply fix_gate; auto|].
    rewrite fix_bad. apply fix_fan. exact F. }
  assert (ET : forall a, cnf_true a (transition s') -> cnf_true a (transition s)).
  { intros a X. apply (e_t_true _ _ _ He' a) in X. destruct X as (X1 & X2). apply (e_t_true _ _ _ He). split.
    - intros v nx r L. destruct (fix_latch v nx r L) as (r' & L'). rewrite <- fix_max. exact (X1 v nx r' L').
    - intros v r0 r1 G F. apply X2; [apply fix_gate; auto|]. rewrite fix_nexts. apply fix_fan. exact F. }
  split; [|split].
  - intros a H0 HS. apply Hi; auto. apply fix_initial; auto.
  - intros a HT Hinv HS HS'. rewrite fix_max in *. apply Hs; auto.
  - intros a Hinv HS Hu. apply (Hb a); auto. rewrite (e_bad _ _ _ He). rewrite (e_bad _ _ _ He'), fix_bad in Hu. exact Hu.
Qed.

Lemma fixed_proof flag b s inv b' s' r : system_of b c flag s -> numbering_fits c flag -> gives_verdict b c flag s (Proof inv) ->
  system_of b' c' flag s' -> gives_verdict b' c' flag s' r -> verdict_proof r.
Proof.
  intros Hs Hf V Hs' V'. apply (proj1 (verdict_right _ _ _ _ _ Hs' (proj1 (fix_fits flag) Hf) V')).
  apply fix_safe; [eapply system_wf; eauto|]. apply (proj1 (verdict_right _ _ _ _ _ Hs Hf V)). exists inv. reflexivity.
Qed.

Lemma fixed_counterexample flag b s limit r b' s' limit' asg d :
  system_of b c flag s -> well_numbered b c flag -> bmc_gives b c s limit r ->
  system_of b' c' flag s' -> well_numbered b' c' flag -> bmc_gives b' c' s' limit' (CTX asg d) ->
  match r with CTX _ e => e <= d | NoCTX z => (z < Z.of_N d)%Z end.
Proof.
  intros Hs Hw G Hs' Hw' G'. pose proof (system_wf _ _ _ _ Hs) as Hwf.
  apply (bmc_gives_right _ _ flag) in G; auto. apply (bmc_gives_right _ _ flag) in G'; auto. destruct G' as (_ & K).
  assert (X : ~ safe_before c flag (S (N.to_nat d))) by (intros X; apply K; apply fix_before; auto).
  destruct r as [z|a e]; cbn [bmc_right] in G.
  - destruct (Z.lt_ge_cases z (Z.of_N d)); auto. elim X. apply (before_less _ _ _ (Z.to_nat (z + 1))); auto; lia.
  - destruct (N.le_gt_cases e d); auto. elim X. apply (before_less _ _ _ (N.to_nat e)); [lia|apply G].
Qed.

Lemma fixed_accepted flag b s inv b' s' : system_of b c flag s -> numbering_fits c flag -> candidate_fits c inv ->
  accepted_once s inv -> system_of b' c' flag s' -> accepted_for s' inv.
Proof.
  intros Hs Hf HC HA Hs'. destruct (system_encodes _ _ _ _ Hs (or_intror Hf)) as (Hwf & _ & He).
  pose proof (proj1 (fix_fits flag) Hf) as Hf'.
  destruct (system_encodes _ _ _ _ Hs' (or_intror Hf')) as (Hwf' & _ & He'). intros b1 T1 T2 T3 o1 o2 H1 H2 H3 Ho1 Ho2.
  apply (check_passes c' flag s' b1 T1 T2 T3 o1 o2 inv); auto.
  - unfold candidate_fits. rewrite fix_max. exact HC.
  - apply (fix_passes flag s); auto. apply (accepted_passes c flag); auto.
Qed.

(** The invariant a prover returned is such a candidate, and accepted. *)
Lemma verdict_candidate flag b s inv : system_of b c flag s -> numbering_fits c flag -> gives_verdict b c flag s (Proof inv) ->
  candidate_fits c inv /\ accepted_for s inv.
Proof.
  intros Hs Hf V. destruct V as [(R & T & fuel & HR & HT & E)|[(R & SS & fuel & HR & HS & E)|(Hl & R & SS & fuel & HR & HS & E)]].
  - destruct (stateless_invariant b c flag s R T fuel inv Hs Hf HR HT E) as (A & V & _ & _ & K).
    split; [apply (latch_candidate c flag); auto|exact (K b s Hs)].
  - destruct (stateful_invariant b c flag s R SS fuel inv Hs Hf HR HS E) as (A & V & _ & _ & K).
    split; [apply (latch_candidate c flag); auto|exact (K b s Hs)].
  - destruct (pdr_invariant b c flag s R SS fuel inv Hs Hf HR HS E) as (A & V & K).
    split; [apply (latch_candidate c flag); auto; apply latch_vars_le; exact V|exact (K (or_intror Hl) b s Hs)].
Qed.

Lemma fixed_invariant flag b s inv b' s' : system_of b c flag s -> numbering_fits c flag -> gives_verdict b c flag s (Proof inv) ->
  system_of b' c' flag s' -> accepted_for s' inv.
Proof.
  intros Hs Hf V Hs'. destruct (verdict_candidate flag b s inv Hs Hf V) as (HC & HA).
  apply (fixed_accepted flag b s inv b' s'); auto.
  assert (HB : solver_correct_below 2147483647 brute) by exact (correct_below _ _ brute_correct).
  assert (HO : order_ok (fun l : list Clause => l)) by (intros l; apply Permutation_refl).
  exists Debug, brute, brute, brute, (fun l => l), (fun l => l). do 3 (split; [apply correct_sound; exact HB|]). split; auto.
Qed.
End Reset.

(** The run behind a counterexample starts with the values of the assignment. *)
Lemma started_counterexample c' c asg d : started_as c' c asg -> forall flag b s limit b' s' limit' r,
  system_of b c flag s -> well_numbered b c flag -> bmc_gives b c s limit (CTX asg d) ->
  system_of b' c' flag s' -> well_numbered b' c' flag -> bmc_gives b' c' s' limit' r ->
  match r with CTX _ e => e = d | NoCTX z => (z < Z.of_N d)%Z end.
Proof.
  intros (H & I) flag b s limit b' s' limit' r Hs Hw (m & T & clk & HT & Hl & Hm & E) Hs' Hw' G.
  pose proof (system_wf _ _ _ _ Hs) as Hwf. apply (bmc_gives_right _ _ flag) in G; auto.
  destruct (bmc_ctx_sound m b c flag s T clk limit asg d Hs Hw HT Hl Hm E) as (_ & Hsafe & K).
  destruct (K (value_of asg)) as (w & (R1 & R2 & R3) & Hb & Hv).
  { intros v x Hx. unfold value_of. rewrite Hx. reflexivity. }
  assert (R : run c' w).
  { split; [intros t; apply (fix_wires c' c H), R1|]. split.
    - intros v nx rs L. destruct (fix_latch_back c' c H v nx rs L) as (r0 & L0).
      rewrite (Hv 0%nat v) by (try lia; right; exists nx, r0; exact L0).
      replace (v + N.of_nat 0 * c_max c) with v by (cbn; lia). exact (I v nx rs L).
    - intros t v nx rs L. destruct (fix_latch_back c' c H v nx rs L) as (r0 & L0). exact (R3 t v nx r0 L0). }
  assert (X : ~ safe_before c' flag (S (N.to_nat d))).
  { intros X. apply (X w R (N.to_nat d)); [lia|]. apply (fix_is_bad c' c H). exact Hb. }
  pose proof (fix_before c' c H flag _ Hwf Hsafe) as Y.
  destruct r as [z|a e]; cbn [bmc_right] in G.
  - destruct (Z.lt_ge_cases z (Z.of_N d)); auto. elim X. apply (before_less _ _ _ (Z.to_nat (z + 1))); auto; lia.
  - destruct G as (G1 & G2). destruct (N.lt_trichotomy e d) as [Lt|[->|Gt]]; auto.
    + elim G2. apply (before_less _ _ _ (N.to_nat d)); auto; lia.
    + elim X. apply (before_less _ _ _ (N.to_nat e)); auto; lia.
Qed.

(** Latch 2 keeps its value, latch 3 takes the input; gate 4 = latch 3 and latch 2 is bad.  The parameters are the reset
    literals: 0, 1, or 4 and 6 for latches without initial value. *)
Definition with_resets (r2 r3 : N) : circuit := mkCircuit 1 [(4, r2); (2, r3)] [] [8] [] [(6, 4)].

Lemma free_system b : exists s, fsts_of b (with_resets 4 6) false = Ok s /\
  system_of b (with_resets 4 6) false s /\ numbering_fits (with_resets 4 6) false.
Proof. part_system. Qed.
Lemma both_one_system b : exists s, fsts_of b (with_resets 1 1) false = Ok s /\
  system_of b (with_resets 1 1) false s /\ numbering_fits (with_resets 1 1) false.
Proof. part_system. Qed.
Lemma one_system b : exists s, fsts_of b (with_resets 1 0) false = Ok s /\
  system_of b (with_resets 1 0) false s /\ numbering_fits (with_resets 1 0) false.
Proof. part_system. Qed.
Lemma zero_system b : exists s, fsts_of b (with_resets 0 6) false = Ok s /\
  system_of b (with_resets 0 6) false s /\ numbering_fits (with_resets 0 6) false.
Proof. part_system. Qed.
Lemma zero_one_system b : exists s, fsts_of b (with_resets 0 1) false = Ok s /\
  system_of b (with_resets 0 1) false s /\ numbering_fits (with_resets 0 1) false.
Proof. part_system. Qed.
