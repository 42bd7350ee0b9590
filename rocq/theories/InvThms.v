(** The invariants returned by the provers: their clauses, and that they are accepted for other systems built from
    the circuit (C62, C63). *)
From Verif Require Import Base Formulas FormulaLogic Aig AigParse Fsts Bmc Solvers Ic3 Pdr Brute Spec SpecText SpecAig SpecAiger SpecFsts SpecAlg SpecInv Tac Plain
  FormulasFacts LogicFacts AigFacts SimFacts AigThms FstsFacts FstsSem TagFacts FstsThms BmcThms BruteFacts
  ConeThms StateFacts Ic3Core QueryFacts Ic3Thms PdrThms ReplaceFacts SoundThms.
Open Scope nat_scope.

(** What a proof of IC3 is, and that no initial state is bad. *)
Definition ic3_proof (c : circuit) (flag : bool) (s : FSTS) (inv : CNF) : Prop :=
  proof_ok c flag s inv /\ forall w, wires_ok c w -> initial_values c w -> ~ is_bad c flag w.

Lemma stateless_ic3_proof b c flag s R T fuel inv : system_of b c flag s -> numbering_fits c flag ->
  random_ok R -> solver_sound_below 2147483647 T ->
  ic3_stateless b R T fuel s = Ok (Proof inv) -> ic3_proof c flag s inv.
Proof.
  intros Hs Hf HR HT E. apply (stateless_rescued_ok b R T fuel s _) in E.
  apply rescue_stateless_correct in HT as [HT' HTd]. generalize dependent (rescue_stateless T). intros T' HT' HTd E.
  destruct (system_encodes _ _ _ _ Hs (or_intror Hf)) as (Hwf & Hn & He).
  assert (H : post (stateless_plain b R T' fuel s) (overlong c flag) (fuel <= states c * (states c + 3))
    (fun r => result_ok c flag s r /\
       forall inv, r = Proof inv -> forall w, wires_ok c w -> initial_values c w -> ~ is_bad c flag w)).
  { unfold stateless_plain. rewrite (cache_ok c flag s b Hf Hwf He). cbn [bind].
    eapply post_bind; [apply (prove_ok c flag s Hwf Hn He b R _ _ HR (sl_ops_ok c flag s b Hf Hwf He T' HT' HTd))|].
    - constructor.
    - apply frames_ok_nil.
    - reflexivity.
    - intros (r & st) (H1 & _ & _ & _ & _ & H2). exact (conj H1 H2). }
  rewrite E in H. destruct H as (H1 & H2). split; [exact H1|exact (H2 inv eq_refl)].
Qed.

Lemma stateful_ic3_proof b c flag s R SS fuel inv : system_of b c flag s -> numbering_fits c flag ->
  random_ok R -> stateful_sound SS ->
  ic3_stateful b R SS fuel s = Ok (Proof inv) -> ic3_proof c flag s inv.
Proof.
  intros Hs Hf HR HS E. apply (ic3_rescued_ok b R SS fuel s _) in E. apply rescue_correct in HS as HS'.
  generalize dependent (rescue SS). intros S' E HS'.
  destruct (system_encodes _ _ _ _ Hs (or_intror Hf)) as (Hwf & Hn & He).
  assert (H : post (stateful_plain b R S' fuel s) (overlong c flag) (fuel <= states c * (states c + 3))
    (fun r => result_ok c flag s r /\
       forall inv, r = Proof inv -> forall w, wires_ok c w -> initial_values c w -> ~ is_bad c flag w)).
  { unfold stateful_plain. rewrite (cache_ok c flag s b Hf Hwf He). cbn [bind].
    eapply bind_okay; [apply (sf_new_ok c flag s Hn He S' HS')|]. intros x (Hx & Ex).
    eapply post_bind; [apply (prove_ok c flag s Hwf Hn He b R _ _ HR (sf_ops_ok c flag s b Hs Hf Hwf Hn He S' HS'))|].
    - exact Hx.
    - cbn [st_ops]. cbn in Ex. cbn. rewrite Ex. apply frames_ok_nil.
    - intros _. exact Ex.
    - intros (r & st) (H1 & _ & _ & _ & _ & H2). exact (conj H1 H2). }
  rewrite E in H. destruct H as (H1 & H2). split; [exact H1|exact (H2 inv eq_refl)].
Qed.

Lemma pdr_latch_proof c flag s b R SS fuel inv : system_of b c flag s -> numbering_fits c flag ->
  random_ok R -> stateful_sound SS -> pdr b R SS fuel s = Ok (Proof inv) ->
  api_cnf inv /\ cnf_vars (is_latch c) inv.
Proof.
  intros Hs Hf HR HS E. apply (pdr_rescued_ok b R SS fuel s _) in E.
  pose proof (pdr_post c flag s b Hs Hf _ (rescue_correct SS HS) R HR fuel) as H. rewrite E in H.
  cbn [post pdr_result_ok] in H. split; apply H.
Qed.

(* ------------------------------------------------------------------------ clauses *)

Section Shape.
Variables (c : circuit) (flag : bool) (s : FSTS).
Hypothesis Hf : numbering_fits c flag.
Hypothesis Hwf : circuit_wf c.
Hypothesis He : encodes c flag s.

Lemma in_p0 d : In d (cnf_clauses (ic3_p0 s)) <-> In d (cnf_clauses (get_state_to_safety_translation s)) \/
  exists l, In l (bad_literals c flag) /\ d = clause_new [literal_not l].
Proof.
  unfold ic3_p0. rewrite in_append, in_cube_to_cnf. unfold get_safety_property. rewrite (e_bad _ _ _ He).
  split; (intros [H|(l & H & ->)]; [left; exact H|right]).
  - apply in_clause_not in H. rewrite in_clause_new in H. exists (literal_not l). split; auto.
    rewrite literal_not_invol. reflexivity.
  - exists (literal_not l). split; [|reflexivity]. apply in_clause_not. rewrite literal_not_invol, in_clause_new. exact H.
Qed.

Lemma ic3_clauses inv : ic3_proof c flag s inv -> clauses_of_invariant c flag s inv.
Proof.
  intros ((f & -> & (_ & Vf) & _) & _). split; [|split].
  - intros d Hd. apply in_append in Hd. destruct Hd as [Hd|Hd]; [left; apply Vf; exact Hd|right; apply in_p0; exact Hd].
  - intros d Hd. apply in_append. right. apply in_p0. auto.
  - intros l Hl. apply in_append. right. apply in_p0. right. eauto.
Qed.

Lemma ic3_vars inv : ic3_proof c flag s inv -> api_cnf inv /\ cnf_vars (fun v => 1 <= v <= c_max c)%N inv.
Proof.
  intros ((f & -> & (Af & Vf) & _) & _). split; [apply api_cnf_append; auto; apply (p0_api c flag s He)|].
  apply cnf_append_vars; [apply latch_vars_le; exact Vf|apply (p0_vars c flag s Hwf Hf He)].
Qed.

Lemma ic3_state inv : ic3_proof c flag s inv -> state_and_not_bad c flag inv.
Proof.
  intros ((f & -> & (_ & Vf) & _) & _). exists f. split; [exact Vf|]. split.
  - intros d Hd. apply in_append. auto.
  - intros w Hw. rewrite cnf_append_true. split; intros (H1 & H2); split; auto.
    + apply (p0_not_bad c flag s He); auto.
    + apply (p0_complete c flag s He); auto.
Qed.

(** A system with other bad literals, all of them bad here, above the same gates. *)
Lemma ic3_accepted_by inv flag' s' : ic3_proof c flag s inv -> numbering_fits c flag' -> encodes c flag' s' ->
  incl (bad_literals c flag') (bad_literals c flag) ->
  (forall v, fan_in c (bad_literals c flag) v -> fan_in c (bad_literals c flag') v) -> accepted_for s' inv.
Proof.
  intros (Hok & Hp0) Hf' He' Hincl Hfan b T1 T2 T3 o1 o2 H1 H2 H3 Ho1 Ho2.
  pose proof (ic3_vars inv (conj Hok Hp0)) as (A & V). destruct Hok as (f & -> & (Af & Vf) & Hi & Hs).
  pose proof (proj1 Hf) as Hsz.
  assert (P0 : forall a, cnf_true a (state_to_safety_translation s') -> ~ bad_state c flag a -> cnf_true a (ic3_p0 s)).
  { intros a HS' Hb. assert (HS : cnf_true a (state_to_safety_translation s)).
    { apply (e_s_true _ _ _ He). intros v r0 r1 G F. apply (proj1 (e_s_true _ _ _ He' a) HS' v r0 r1 G). auto. }
    unfold ic3_p0. apply cnf_append_true. split; auto. apply cube_to_cnf_true.
    unfold get_safety_property. apply clause_not_true. intros Hu. apply Hb.
    apply (notp0_bad c flag s Hwf Hf He). unfold ic3_not_p0. apply cnf_append_true. split; auto.
    apply clause_to_cnf_true. auto. }
  apply (check_invariant_below c flag' s' Hwf Hf' He' 2147483647); auto.
  - apply (vars_legal c flag Hf); auto.
  - right. apply (vars_bumpable c flag Hf); auto.
  - lia.
  - eapply cnf_vars_impl; [|exact V]. intros v Hx. cbv beta in Hx. lia.
  - eapply cnf_vars_impl; [|exact V]. intros v Hx. cbv beta in Hx. lia.
  - split; [|split].
    + intros a H0 HS. apply cnf_append_true. split; auto. apply P0; auto.
      intros (w & W1 & W2 & W3). apply (Hp0 w); auto. eapply initial_same; [|exact H0]. auto using same_latches_sym.
    + intros a HT Hinv HS HS'. apply cnf_append_true in Hinv. destruct Hinv as (I1 & I2).
      destruct (Hs (ev c a) (shift (c_max c) a)) as (X1 & X2).
      * eapply trans_steps; eauto.
      * eapply latch_cnf_same; [exact Vf| |exact I1]. apply same_latches_sym, ev_latches.
      * apply (p0_safe c flag s Hwf Hf He); auto.
      * apply cnf_append_true. split; auto.
    + intros a Hinv HS Hu. apply cnf_append_true in Hinv. destruct Hinv as (I1 & I2).
      unfold ic3_p0 in I2. apply cnf_append_true in I2. destruct I2 as (_ & I2).
      apply cube_to_cnf_true in I2. unfold get_safety_property in I2. apply clause_not_true in I2. apply I2.
      rewrite (e_bad _ _ _ He). rewrite (e_bad _ _ _ He') in Hu. destruct Hu as (l & Hl & Ht). exists l. split; auto.
      rewrite in_clause_new in *. apply Hincl. exact Hl.
Qed.

Lemma ic3_accepted inv s' : ic3_proof c flag s inv -> encodes c flag s' -> accepted_for s' inv.
Proof. intros H He'. apply (ic3_accepted_by inv flag); auto. apply incl_refl. Qed.

Lemma initial_exists : exists w, wires_ok c w /\ initial_values c w.
Proof.
  set (src := fun v : N => match nth_error (c_latches c) (N.to_nat (v - c_inputs c - 1)) with
                           | Some (_, r) => (r =? 1)%N | None => false end).
  exists (ev c src). split; [apply ev_wires_ok; auto|]. eapply initial_same; [apply same_latches_sym, ev_latches|].
  intros v nx r (j & Hj & ->). unfold src, latch_var. replace (N.to_nat (c_inputs c + 1 + N.of_nat j - c_inputs c - 1)) with j by lia.
  rewrite Hj. split; intros ->; reflexivity.
Qed.

(** A gate of the invariant the other system does not know: the first check fails. *)
Lemma ic3_rejected inv flag' s' g : ic3_proof c flag s inv -> numbering_fits c flag' -> encodes c flag' s' ->
  fan_in c (bad_literals c flag) g -> ~ fan_in c (bad_literals c flag') g -> ~ accepted_for s' inv.
Proof.
  intros Hok Hf' He' Hg Hng Hacc. pose proof (ic3_vars inv Hok) as (A & V). pose proof (proj1 Hf) as Hsz.
  pose proof (correct_below 2147483647 _ brute_correct) as HB.
  assert (HO : order_ok (fun l : list Clause => l)) by (intros l; apply Permutation_refl).
  specialize (Hacc Debug brute brute brute _ _ HB HB HB HO HO).
  apply (check_invariant_below c flag' s' Hwf Hf' He' 2147483647) in Hacc; auto; [|apply (vars_legal c flag Hf); auto|
    right; apply (vars_bumpable c flag Hf); auto|lia|
    eapply cnf_vars_impl; [|exact V]; intros v Hx; cbv beta in Hx; lia|
    eapply cnf_vars_impl; [|exact V]; intros v Hx; cbv beta in Hx; lia].
  destruct Hacc as (Hi & _). destruct initial_exists as (w & (W0 & Hw) & H0).
  assert (Gg : exists r0 r1, gate c g r0 r1) by (destruct Hg; auto). destruct Gg as (r0 & r1 & Gg).
  pose proof (proj1 (is_gate_iff c g) (ex_intro _ r0 (ex_intro _ r1 Gg))) as Rg.
  set (a := fun v => if (v =? g)%N then negb (w v) else w v).
  assert (Out : forall v, v <> g -> a v = w v) by (intros v Hv; unfold a; destruct (N.eqb_spec v g); congruence).
  assert (Val : forall r, lit_var r <> g -> lit_value (zero a) r = lit_value w r).
  { intros r Hr. unfold lit_value. f_equal. destruct (N.eq_dec (lit_var r) 0) as [E|E].
    - unfold zero. rewrite E, W0. reflexivity.
    - rewrite zero_pos by exact E. apply Out. exact Hr. }
  assert (Hinv : cnf_true a inv).
  { apply Hi.
    - eapply initial_same; [|exact H0]. intros v Hv. symmetry. apply Out. apply is_latch_iff in Hv. lia.
    - apply (e_s_true _ _ _ He'). intros v q0 q1 G F. unfold gate_holds.
      assert (No : forall q, q = q0 \/ q = q1 -> lit_var q <> g).
      { intros q Hq E. apply Hng. rewrite <- E. apply (fan_in_step c _ v q0 q1 q); auto. rewrite E. exists r0, r1. exact Gg. }
      rewrite Out by (intros ->; contradiction). rewrite !Val by (apply No; auto). apply Hw; auto. }
  destruct Hok as ((f & -> & _) & _). apply cnf_append_true in Hinv. destruct Hinv as (_ & Hp).
  unfold ic3_p0 in Hp. apply cnf_append_true in Hp. destruct Hp as (Ht & _).
  pose proof (proj1 (e_s_true _ _ _ He a) Ht g r0 r1 Gg Hg) as X. unfold gate_holds in X.
  destruct Hwf as (_ & _ & _ & _ & Hord). pose proof (Hord g r0 r1 Gg) as Ho.
  rewrite !Val in X by (unfold lit_var; lia). rewrite <- (Hw g r0 r1 Gg) in X. unfold a in X. rewrite N.eqb_refl in X.
  destruct (w g); discriminate.
Qed.
End Shape.

Lemma ic3_invariant b c flag s inv : system_of b c flag s -> numbering_fits c flag -> ic3_proof c flag s inv ->
  api_cnf inv /\ cnf_vars (fun v => 1 <= v <= c_max c)%N inv /\ clauses_of_invariant c flag s inv /\
  state_and_not_bad c flag inv /\
  forall b' s', system_of b' c flag s' -> accepted_for s' inv.
Proof.
  intros Hs Hf H. destruct (system_encodes _ _ _ _ Hs (or_intror Hf)) as (Hwf & Hn & He).
  destruct (ic3_vars c flag s Hf Hwf He inv H) as (A & V).
  split; auto. split; auto. split; [apply ic3_clauses; auto|]. split; [apply (ic3_state c flag s); auto|].
  intros b' s' Hs'. destruct (system_encodes _ _ _ _ Hs' (or_intror Hf)) as (_ & _ & He').
  apply (ic3_accepted c flag s); auto.
Qed.

Lemma stateless_invariant b c flag s R T fuel inv : system_of b c flag s -> numbering_fits c flag ->
  random_ok R -> solver_sound_below 2147483647 T ->
  ic3_stateless b R T fuel s = Ok (Proof inv) ->
  api_cnf inv /\ cnf_vars (fun v => 1 <= v <= c_max c)%N inv /\ clauses_of_invariant c flag s inv /\
  state_and_not_bad c flag inv /\
  forall b' s', system_of b' c flag s' -> accepted_for s' inv.
Proof. intros H1 H2 H3 H4 E. apply (ic3_invariant b); auto. eapply stateless_ic3_proof; eauto. Qed.

Lemma stateful_invariant b c flag s R SS fuel inv : system_of b c flag s -> numbering_fits c flag ->
  random_ok R -> stateful_sound SS ->
  ic3_stateful b R SS fuel s = Ok (Proof inv) ->
  api_cnf inv /\ cnf_vars (fun v => 1 <= v <= c_max c)%N inv /\ clauses_of_invariant c flag s inv /\
  state_and_not_bad c flag inv /\
  forall b' s', system_of b' c flag s' -> accepted_for s' inv.
Proof. intros H1 H2 H3 H4 E. apply (ic3_invariant b); auto. eapply stateful_ic3_proof; eauto. Qed.

Lemma pdr_invariant b c flag s R SS fuel inv : system_of b c flag s -> numbering_fits c flag ->
  random_ok R -> stateful_sound SS ->
  pdr b R SS fuel s = Ok (Proof inv) ->
  api_cnf inv /\ cnf_vars (is_latch c) inv /\
  (b = Debug \/ bad_latches_read c flag -> forall b' s', system_of b' c flag s' -> accepted_for s' inv).
Proof.
  intros Hs Hf HR HS E. destruct (pdr_latch_proof c flag s b R SS fuel inv) as (A & V); auto.
  split; auto. split; auto. intros Hb b' s' Hs' b1 T1 T2 T3 o1 o2 H1 H2 H3 Ho1 Ho2.
  destruct (sound_pdr_proof c flag s b Hs Hf SS HS R HR fuel inv Hb E) as (_ & Hi & _).
  apply (check_invariant_complete b' b1 c flag); auto.
Qed.

(* ------------------------------------------------------------------- the other flag *)

Lemma bad_without_outputs c w : is_bad c false w -> is_bad c true w.
Proof. intros (l & Hl & H). exists l. split; auto. unfold bad_literals in *. rewrite app_nil_r in Hl. apply in_app_iff. auto. Qed.

Lemma inductive_without_outputs c P : inductive_safe c true P -> inductive_safe c false P.
Proof. intros (H1 & H2 & H3). split; auto. split; auto. intros w Hw Hp Hb. apply (H3 w Hw Hp), bad_without_outputs, Hb. Qed.

Lemma fits_without_outputs c : numbering_fits c true -> numbering_fits c false.
Proof.
  intros (H1 & H2). split; auto. unfold bad_literals in *. rewrite app_nil_r. apply Forall_app in H2. apply H2.
Qed.

Lemma pdr_carries_over b c s R SS fuel inv b' s' : system_of b c true s -> numbering_fits c true ->
  random_ok R -> stateful_sound SS -> b = Debug \/ bad_latches_read c true ->
  pdr b R SS fuel s = Ok (Proof inv) ->
  system_of b' c false s' -> inductive_safe c false (fun w => cnf_true w inv) /\ accepted_for s' inv.
Proof.
  intros Hs Hf HR HS Hb E Hs'. destruct (pdr_latch_proof c true s b R SS fuel inv) as (A & V); auto.
  destruct (sound_pdr_proof c true s b Hs Hf SS HS R HR fuel inv Hb E) as (_ & Hi & _).
  apply inductive_without_outputs in Hi. split; [exact Hi|]. intros b1 T1 T2 T3 o1 o2 H1 H2 H3 Ho1 Ho2.
  apply (check_invariant_complete b' b1 c false); auto. apply fits_without_outputs, Hf.
Qed.

Lemma known_gate c flag s v : encodes c flag s -> is_gate c v ->
  {fan_in c (bad_literals c flag) v} + {~ fan_in c (bad_literals c flag) v}.
Proof.
  intros He Hv. destruct (in_dec N.eq_dec v (variable_numbers (state_to_safety_translation s))) as [Hin|Hin]; [left|right].
  - apply (e_s_occurs _ _ _ He) in Hin. destruct Hin as (g & r0 & r1 & G & F & [->|(_ & _ & _ & Hr)]); auto.
    destruct Hr as [<-|<-]; eapply fan_in_step; eauto.
  - intros F. apply Hin, (e_s_occurs _ _ _ He). destruct Hv as (r0 & r1 & G). exists v, r0, r1. auto.
Qed.

Lemma ic3_carries_over b c s inv b' s' : system_of b c true s -> numbering_fits c true -> ic3_proof c true s inv ->
  system_of b' c false s' -> inductive_safe c false (fun w => cnf_true w inv) /\
  (accepted_for s' inv <-> forall v, fan_in c (bad_literals c true) v -> fan_in c (bad_literals c false) v).
Proof.
  intros Hs Hf H Hs'. pose proof (fits_without_outputs c Hf) as Hf'.
  destruct (system_encodes _ _ _ _ Hs (or_intror Hf)) as (Hwf & Hn & He).
  destruct (system_encodes _ _ _ _ Hs' (or_intror Hf')) as (_ & Hn' & He').
  split; [apply inductive_without_outputs; apply (proof_inductive c true s); auto; apply H|]. split.
  - intros Hacc v Hv. assert (Hg : is_gate c v) by (destruct Hv; auto).
    destruct (known_gate c false s' v He' Hg) as [F|F]; auto.
    elim (ic3_rejected c true s Hf Hwf He inv false s' v H Hf' He' Hv F Hacc).
  - intros Hfan. apply (ic3_accepted_by c true s Hf Hwf He inv false s'); auto.
    intros l Hl. unfold bad_literals in *. rewrite app_nil_r in Hl. apply in_app_iff. auto.
Qed.

Lemma stateless_carries_over b c s R T fuel inv b' s' : system_of b c true s -> numbering_fits c true ->
  random_ok R -> solver_sound_below 2147483647 T -> ic3_stateless b R T fuel s = Ok (Proof inv) ->
  system_of b' c false s' -> inductive_safe c false (fun w => cnf_true w inv) /\
  (accepted_for s' inv <-> forall v, fan_in c (bad_literals c true) v -> fan_in c (bad_literals c false) v).
Proof. intros H1 H2 H3 H4 E. apply (ic3_carries_over b c s); auto. eapply stateless_ic3_proof; eauto. Qed.

Lemma stateful_carries_over b c s R SS fuel inv b' s' : system_of b c true s -> numbering_fits c true ->
  random_ok R -> stateful_sound SS -> ic3_stateful b R SS fuel s = Ok (Proof inv) ->
  system_of b' c false s' -> inductive_safe c false (fun w => cnf_true w inv) /\
  (accepted_for s' inv <-> forall v, fan_in c (bad_literals c true) v -> fan_in c (bad_literals c false) v).
Proof. intros H1 H2 H3 H4 E. apply (ic3_carries_over b c s); auto. eapply stateful_ic3_proof; eauto. Qed.

(** Gate 5 is an output only. *)
Definition outputs_circuit : circuit := mkCircuit 1 [(2, 0); (3, 1)]%N [10]%N [8]%N [] [(6, 4); (8, 2)]%N.

Lemma outputs_system b flag : exists s, fsts_of b outputs_circuit flag = Ok s /\
  system_of b outputs_circuit flag s /\ numbering_fits outputs_circuit flag.
Proof.
  destruct (fsts_of b outputs_circuit flag) as [s| |] eqn:E; [|destruct b, flag; vm_compute in E; discriminate..].
  exists s. split; auto. split.
  - apply fsts_of_system; auto; vm_compute; repeat split.
  - apply no_constants_ok. destruct flag; vm_compute; reflexivity.
Qed.

Lemma ic3_not_carried_over :
  exists c s s' inv, system_of Debug c true s /\ numbering_fits c true /\ system_of Debug c false s' /\
  ic3_stateless Debug no_random brute 100 s = Ok (Proof inv) /\
  check_invariant Debug brute brute brute (fun l => l) (fun l => l) s' inv = Panic.
Proof.
  exists outputs_circuit. destruct (outputs_system Debug true) as (s & E & Hs & Hn).
  destruct (outputs_system Debug false) as (s' & E' & Hs' & _).
  vm_compute in E, E'. injection E as <-. injection E' as <-. do 3 eexists.
  split; [exact Hs|]. split; [exact Hn|]. split; [exact Hs'|]. split; [vm_compute; reflexivity|]. vm_compute. reflexivity.
Qed.

(** Latch 3 follows latch 2, which stays 0; bad when latch 3 and the input are 1. *)
Definition follow_circuit : circuit := mkCircuit 1 [(0, 0); (4, 0)]%N [] [8]%N [] [(6, 2)]%N.

Lemma follow_system b : exists s, fsts_of b follow_circuit false = Ok s /\
  system_of b follow_circuit false s /\ numbering_fits follow_circuit false.
Proof.
  destruct (fsts_of b follow_circuit false) as [s| |] eqn:E; [|destruct b; vm_compute in E; discriminate..].
  exists s. split; auto. split.
  - apply fsts_of_system; auto; vm_compute; repeat split.
  - apply no_constants_ok. vm_compute. reflexivity.
Qed.
