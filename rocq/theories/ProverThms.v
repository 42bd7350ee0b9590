(** Comparison of the provers, repeated calls, and the witnesses for the PDR properties. *)
From Verif Require Import Base Formulas FormulaLogic Aig AigParse Fsts Bmc Solvers Ic3 Pdr Brute Spec SpecAig SpecAiger
  SpecFsts SpecAlg Tac Plain LogicFacts BruteFacts AigThms FstsThms BmcThms Ic3Thms PdrThms.
Open Scope N_scope.

(* ---------------------------------------------------------------------- agreement *)

Lemma provers_agree b c flag s R1 R2 R3 T S2 S3 fuel : system_of b c flag s -> numbering_fits c flag ->
  random_ok R1 -> random_ok R2 -> random_ok R3 ->
  solver_correct_below 2147483647 T -> solver_total_below 2147483647 T -> stateful_correct S2 -> stateful_correct S3 ->
  bad_latches_read c flag -> states_readable c flag -> depth_fits c flag ->
  enough_fuel c fuel -> enough_pdr_fuel c fuel ->
  exists r1 r2 r3, stateless_plain b R1 T fuel s = Ok r1 /\ stateful_plain b R2 S2 fuel s = Ok r2 /\
    pdr_plain b R3 S3 fuel s = Ok r3 /\
    (verdict_proof r1 <-> verdict_proof r2) /\ (verdict_proof r1 <-> verdict_proof r3).
Proof.
  intros Hs Hf H1 H2 H3 HT HTt HS2 HS3 Hl Hr Hd Hfu Hfp.
  destruct (stateless_total b c flag s R1 T fuel Hs Hf H1 HT HTt Hfu Hd) as (r1 & E1 & V1).
  destruct (stateful_total b c flag s R2 S2 fuel Hs Hf H2 HS2 Hfu Hd) as (r2 & E2 & V2).
  destruct (pdr_total c flag s b Hs Hf S3 HS3 R3 H3 fuel Hl Hr Hfp Hd) as (r3 & E3 & V3).
  exists r1, r2, r3. split; auto. split; auto. split; auto. rewrite V1, V2, V3. split; reflexivity.
Qed.

Lemma ic3_agree b c flag s R1 R2 T SS fuel1 fuel2 r1 r2 : system_of b c flag s -> numbering_fits c flag ->
  random_ok R1 -> random_ok R2 -> solver_correct_below 2147483647 T -> solver_total_below 2147483647 T -> stateful_correct SS ->
  stateless_plain b R1 T fuel1 s = Ok r1 -> stateful_plain b R2 SS fuel2 s = Ok r2 ->
  (verdict_proof r1 <-> verdict_proof r2).
Proof.
  intros Hs Hf H1 H2 HT HTt HS E1 E2.
  assert (V1 : verdict_proof r1 <-> safe c flag).
  { destruct r1 as [inv|d].
    - destruct (stateless_proof b c flag s R1 T fuel1 inv Hs Hf H1 HT HTt E1) as (X & _).
      split; auto. intros _. exists inv. auto.
    - destruct (stateless_ctx b c flag s R1 T fuel1 d Hs Hf H1 HT HTt E1) as ((w & t & W1 & W2) & _).
      split; [intros (inv & X); discriminate|]. intros X. elim (X w W1 t W2). }
  assert (V2 : verdict_proof r2 <-> safe c flag).
  { destruct r2 as [inv|d].
    - destruct (stateful_proof b c flag s R2 SS fuel2 inv Hs Hf H2 HS E2) as (X & _).
      split; auto. intros _. exists inv. auto.
    - destruct (stateful_ctx b c flag s R2 SS fuel2 d Hs Hf H2 HS E2) as ((w & t & W1 & W2) & _).
      split; [intros (inv & X); discriminate|]. intros X. elim (X w W1 t W2). }
  rewrite V1, V2. reflexivity.
Qed.

Lemma bmc_verdict m b c flag s R T1 T2 clk fuel r : system_of b c flag s -> numbering_fits c flag ->
  random_ok R -> solver_correct_below 2147483647 T1 -> solver_total_below 2147483647 T1 -> solver_correct_below m T2 -> never_times_out clk ->
  bmc_reaches m c flag ->
  stateless_plain b R T1 fuel s = Ok r ->
  ((exists d, r = ProofCTX d) <->
   exists limit asg d, bmc_range m c limit /\ bmc_search b T2 clk s limit = Ok (CTX asg d)).
Proof.
  intros Hs Hf HR HT1 HTt HT2 Hclk Hsh E. split.
  - intros (d & ->). destruct (stateless_ctx b c flag s R T1 fuel d Hs Hf HR HT1 HTt E) as ((w & t & W1 & W2) & _).
    destruct Hsh as [Hsafe|(w' & t' & W1' & W2' & Hr)]; [elim (Hsafe w W1 t W2)|].
    destruct (bmc_complete m b c flag s T2 clk (N.of_nat t') Hs (or_intror Hf) HT2) as (Hc & _); auto; try apply Hr.
    destruct Hc as (asg & d' & Hc); [exists w', t'; split; auto; split; [lia|auto]|].
    exists (N.of_nat t'), asg, d'. auto.
  - intros (limit & asg & d & (Hr1 & Hr2) & Eb).
    destruct (bmc_ctx_sound m b c flag s T2 clk limit asg d Hs (or_intror Hf) (correct_sound _ _ HT2)) as (_ & _ & Hw); auto; [lia|].
    destruct (Hw (fun v => match get_value asg v with Some x => x | None => false end)) as (w & W1 & W2 & _).
    { intros v x Hx. rewrite Hx. reflexivity. }
    destruct r as [inv|d']; [|eauto].
    destruct (stateless_proof b c flag s R T1 fuel inv Hs Hf HR HT1 HTt E) as (X & _). elim (X w W1 _ W2).
Qed.

(** The reported depth is never more than the length of the shortest counterexample. *)
Lemma depth_lower b c flag s R1 R2 R3 T S2 S3 fuel : system_of b c flag s -> numbering_fits c flag ->
  random_ok R1 -> random_ok R2 -> random_ok R3 ->
  solver_correct_below 2147483647 T -> solver_total_below 2147483647 T -> stateful_correct S2 -> stateful_correct S3 ->
  forall d w t, run c w -> is_bad c flag (w t) ->
  stateless_plain b R1 T fuel s = Ok (ProofCTX d) \/ stateful_plain b R2 S2 fuel s = Ok (ProofCTX d) \/
  (b = Debug \/ bad_latches_read c flag) /\ pdr_plain b R3 S3 fuel s = Ok (ProofCTX d) ->
  (d <= N.of_nat t).
Proof.
  intros Hs Hf H1 H2 H3 HT HTt HS2 HS3 d w t Hw Hb H.
  assert (X : safe_before c flag (N.to_nat d)).
  { destruct H as [H|[H|(Hl & H)]].
    - apply (stateless_ctx b c flag s R1 T fuel d Hs Hf H1 HT HTt H).
    - apply (stateful_ctx b c flag s R2 S2 fuel d Hs Hf H2 HS2 H).
    - apply (pdr_ctx_depth c flag s b Hs Hf S3 HS3 R3 H3 fuel d Hl H). }
  destruct (N.le_gt_cases d (N.of_nat t)) as [|Hlt]; auto. elim (X w Hw t); auto. lia.
Qed.

(* ---------------------------------------------------------------------- witnesses *)

(** Safe; one bad literal is a latch that stays 0, the other a gate over two other latches. *)
Definition false_ctx_circuit : circuit := mkCircuit 0 [(3, 1); (4, 0); (6, 0)] [] [6; 8] [] [(4, 2)].

(** One latch, reset to 0, that becomes 1 after a step; it is the bad literal. *)
Definition false_proof_circuit : circuit := mkCircuit 0 [(1, 0)] [] [2] [] [].

(** The bad literal is an input, the latch has no reset value. *)
Definition input_bad_circuit : circuit := mkCircuit 1 [(2, 4)] [] [2] [] [].

(** A shift register of two latches; the first one is a bad literal, the other bad literal is a
    gate over both. *)
Definition read_latch_circuit : circuit := mkCircuit 1 [(6, 0); (2, 0)] [] [4; 8] [] [(6, 4)].

(** A bad state is first reached after three steps. *)
Definition late_circuit : circuit := mkCircuit 0 [(4, 0); (7, 0); (9, 0)] [] [10] [] [(7, 3); (6, 2)].

Lemma case_system b c flag s : circuit_wfb c = true -> file_fits c -> no_constants c flag = true ->
  fsts_of b c flag = Ok s -> system_of b c flag s /\ numbering_fits c flag.
Proof.
  intros H1 H2 H3 H4. split; [apply fsts_of_system; auto|apply no_constants_ok; auto].
Qed.

(** From the verdict of a correct prover. *)
Lemma ic3_says_safe b c flag s inv : system_of b c flag s -> numbering_fits c flag ->
  stateless_plain b no_random brute 100%nat s = Ok (Proof inv) -> safe c flag.
Proof.
  intros H1 H2 E.
  apply (stateless_proof b c flag s no_random brute 100%nat inv H1 H2 no_random_ok (correct_below _ _ brute_correct) (total_below _ _ brute_total) E).
Qed.
Lemma ic3_says_unsafe b c flag s d : system_of b c flag s -> numbering_fits c flag ->
  stateless_plain b no_random brute 100%nat s = Ok (ProofCTX d) -> unsafe c flag.
Proof.
  intros H1 H2 E.
  apply (stateless_ctx b c flag s no_random brute 100%nat d H1 H2 no_random_ok (correct_below _ _ brute_correct) (total_below _ _ brute_total) E).
Qed.

Ltac system_case b c :=
  let s := fresh "s" in let E := fresh "E" in
  destruct (fsts_of b c false) as [s| |] eqn:E; [|vm_compute in E; discriminate..];
  destruct (case_system b c false s) as (?Hs & ?Hn);
    [vm_compute; reflexivity|vm_compute; repeat split|vm_compute; reflexivity|exact E|];
  vm_compute in E; injection E as <-.

Lemma false_proof : exists c flag s inv, system_of Release c flag s /\ numbering_fits c flag /\
  pdr Release no_random brute_stateful 100%nat s = Ok (Proof inv) /\ ~ safe c flag /\
  check_invariant Release brute brute brute (fun l => l) (fun l => l) s inv = Panic.
Proof.
  exists false_proof_circuit, false. system_case Release false_proof_circuit.
  do 2 eexists. split; [exact Hs|]. split; [exact Hn|]. split; [vm_compute; reflexivity|]. split.
  - intros X. eassert (H : unsafe _ _); [eapply (ic3_says_unsafe _ _ _ _ 1 Hs Hn); vm_compute; reflexivity|].
    destruct H as (w & t & W1 & W2). apply (X w W1 t W2).
  - vm_compute. reflexivity.
Qed.

Lemma false_ctx b : exists c flag s d, system_of b c flag s /\ numbering_fits c flag /\
  pdr b no_random brute_stateful 100%nat s = Ok (ProofCTX d) /\ safe c flag.
Proof.
  exists false_ctx_circuit, false.
  destruct b; [system_case Debug false_ctx_circuit|system_case Release false_ctx_circuit];
    do 2 eexists; (split; [exact Hs|]); (split; [exact Hn|]); (split; [vm_compute; reflexivity|]);
    eapply (ic3_says_safe _ _ _ _ _ Hs Hn); vm_compute; reflexivity.
Qed.

Lemma pdr_debug_panics : exists c flag s, system_of Debug c flag s /\ numbering_fits c flag /\
  pdr Debug no_random brute_stateful 100%nat s = Panic /\
  exists d, ic3_stateless Debug no_random brute 100%nat s = Ok (ProofCTX d).
Proof.
  exists false_proof_circuit, false. system_case Debug false_proof_circuit.
  eexists. split; [exact Hs|]. split; [exact Hn|]. split; [vm_compute; reflexivity|].
  eexists. vm_compute. reflexivity.
Qed.

Lemma pdr_release_panics : exists c flag s, system_of Release c flag s /\ numbering_fits c flag /\
  bad_latches_read c flag /\ pdr Release no_random brute_stateful 100%nat s = Panic /\
  exists d, ic3_stateless Release no_random brute 100%nat s = Ok (ProofCTX d).
Proof.
  exists input_bad_circuit, false. system_case Release input_bad_circuit.
  eexists. split; [exact Hs|]. split; [exact Hn|]. split.
  { intros l [<-|[]] (nx & r & j & Hj & Hv). unfold lit_var, latch_var in Hv.
    cbn [c_inputs input_bad_circuit] in Hv. change (2 / 2) with 1 in Hv. lia. }
  split; [vm_compute; reflexivity|]. eexists. vm_compute. reflexivity.
Qed.

Lemma late_latches_read : bad_latches_read late_circuit false.
Proof.
  intros l [<-|[]] (nx & r & j & Hj & Hv).
  destruct j as [|[|[|j]]]; [discriminate Hv..|destruct j; discriminate Hj].
Qed.
Lemma late_readable : states_readable late_circuit false.
Proof.
  right. right. left. exists 10. split; [left; reflexivity|]. exists 6, 2. exists 1%nat. split; reflexivity.
Qed.

Lemma depth_not_length b : exists c flag s asg, system_of b c flag s /\ numbering_fits c flag /\
  bad_latches_read c flag /\ states_readable c flag /\
  bmc_search b brute (mkClock (fun _ => false) (fun _ => false)) s 7 = Ok (CTX asg 3) /\
  ic3_stateless b no_random brute 100%nat s = Ok (ProofCTX 1) /\
  ic3_stateful b no_random brute_stateful 100%nat s = Ok (ProofCTX 1) /\
  pdr b no_random brute_stateful 100%nat s = Ok (ProofCTX 2).
Proof.
  exists late_circuit, false. pose proof late_latches_read as Hl. pose proof late_readable as Hr.
  destruct b; [system_case Debug late_circuit|system_case Release late_circuit];
    do 2 eexists; (split; [exact Hs|]); (split; [exact Hn|]); (split; [exact Hl|]); (split; [exact Hr|]);
    (split; [vm_compute; reflexivity|]); (split; [vm_compute; reflexivity|]); (split; vm_compute; reflexivity).
Qed.

Lemma provers_disagree b : exists c flag s d inv, system_of b c flag s /\ numbering_fits c flag /\
  pdr b no_random brute_stateful 100%nat s = Ok (ProofCTX d) /\
  ic3_stateless b no_random brute 100%nat s = Ok (Proof inv).
Proof.
  exists false_ctx_circuit, false.
  destruct b; [system_case Debug false_ctx_circuit|system_case Release false_ctx_circuit];
    do 3 eexists; (split; [exact Hs|]); (split; [exact Hn|]); (split; vm_compute; reflexivity).
Qed.

Lemma bmc_says_unsafe c flag s limit asg d : system_of Debug c flag s -> bmc_range 2147483648 c limit ->
  bmc_search Debug brute (mkClock (fun _ => false) (fun _ => false)) s limit = Ok (CTX asg d) -> bmc_reaches 2147483648 c flag.
Proof.
  intros Hs (L1 & L2) E. right.
  destruct (bmc_ctx_sound 2147483648 Debug c flag s brute (mkClock (fun _ => false) (fun _ => false)) limit asg d Hs (or_introl eq_refl) (correct_sound _ _ (correct_below _ _ brute_correct))) as (Hd & _ & Hw);
    [lia|left; split; reflexivity|exact E|].
  destruct (Hw (fun v => match get_value asg v with Some x => x | None => false end)) as (w & W1 & W2 & _).
  { intros v x Hx. rewrite Hx. reflexivity. }
  exists w, (N.to_nat d). split; [exact W1|]. split; [exact W2|]. rewrite N2Nat.id. split; [lia|].
  split; [|apply L2]. apply N.le_lt_trans with ((limit + 1) * c_max c); [|apply L2].
  apply N.mul_le_mono_r. lia.
Qed.

Lemma late_reaches : bmc_reaches 2147483648 late_circuit false.
Proof.
  system_case Debug late_circuit.
  eapply (bmc_says_unsafe _ _ _ 7 _ 3 Hs); [vm_compute; repeat split; congruence|vm_compute; reflexivity].
Qed.
