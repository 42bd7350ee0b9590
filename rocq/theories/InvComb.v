(** Formulas accepted by [check_invariant]: the answer depends on the circuit only, accepted formulas can be put
    together, and nothing else reports a counterexample (C64). *)
From Verif Require Import Base Formulas FormulaLogic Aig AigParse Fsts Bmc Solvers Ic3 Pdr Brute Spec SpecText SpecAig SpecAiger SpecFsts SpecAlg SpecInv Tac
  FormulasFacts LogicFacts AigFacts SimFacts AigThms FstsFacts FstsSem TagFacts FstsThms BmcThms BruteFacts
  ConeThms Plain StateFacts Ic3Core QueryFacts Ic3Thms PdrThms ReplaceFacts RescueThms SoundThms InvThms.
Open Scope N_scope.

Lemma candidate_legal c inv : candidate_fits c inv -> cnf_legal inv.
Proof.
  intros (_ & V). apply cnf_vars_legal. eapply cnf_vars_impl; [|exact V]. intros v Hv. cbv beta in Hv. unfold bumpable. lia.
Qed.

(** The three conditions behind [check_invariant]. *)
Definition passes (c : circuit) (s : FSTS) (inv : CNF) : Prop := inv_init c s inv /\ inv_step c s inv /\ inv_safe s inv.

Lemma check_passes c flag s b T1 T2 T3 o1 o2 inv : circuit_wf c -> numbering_fits c flag -> encodes c flag s ->
  solver_correct_below 2147483647 T1 -> solver_correct_below 2147483647 T2 -> solver_correct_below 2147483647 T3 ->
  order_ok o1 -> order_ok o2 -> candidate_fits c inv ->
  (check_invariant b T1 T2 T3 o1 o2 s inv = Ok tt <-> passes c s inv).
Proof.
  intros Hwf Hf He H1 H2 H3 Ho1 Ho2 HC. pose proof (proj1 Hf) as Hsz. pose proof (candidate_legal c inv HC) as Hl.
  destruct HC as (A & V). apply (check_invariant_below c flag s Hwf Hf He 2147483647); auto.
  - right. eapply cnf_vars_impl; [|exact V]. intros v Hv. cbv beta in Hv. unfold bumpable. lia.
  - lia.
  - eapply cnf_vars_impl; [|exact V]. intros v Hv. cbv beta in Hv. lia.
  - eapply cnf_vars_impl; [|exact V]. intros v Hv. cbv beta in Hv. lia.
Qed.

Lemma accepted_passes c flag s inv : circuit_wf c -> numbering_fits c flag -> encodes c flag s -> candidate_fits c inv ->
  accepted_once s inv -> passes c s inv.
Proof.
  intros Hwf Hf He HC (b & T1 & T2 & T3 & o1 & o2 & H1 & H2 & H3 & Ho1 & Ho2 & E).
  apply (check_passes c flag s b (rescue_stateless T1) (rescue_stateless T2) (rescue_stateless T3) o1 o2 inv Hwf Hf He);
    auto; try (apply rescue_stateless_correct; assumption).
  eapply fits_ok_inv; [|exact E]. apply check_invariant_fits; auto; apply rescue_stateless_fits.
Qed.

(** The conditions are about the circuit. *)
Lemma same_passes c flag s s' inv : encodes c flag s -> encodes c flag s' -> passes c s inv -> passes c s' inv.
Proof.
  intros He He' (Hi & Hs & Hb).
  assert (ES : forall a, cnf_true a (state_to_safety_translation s') -> cnf_true a (state_to_safety_translation s)).
  { intros a H. apply (e_s_true _ _ _ He). apply (e_s_true _ _ _ He'). exact H. }
  assert (ET : forall a, cnf_true a (transition s') -> cnf_true a (transition s)).
  { intros a H. apply (e_t_true _ _ _ He). apply (e_t_true _ _ _ He'). exact H. }
  split; [|split].
  - intros a H0 HS. apply Hi; auto.
  - intros a HT Hinv HS HS'. apply Hs; auto.
  - intros a Hinv HS Hu. apply (Hb a); auto. rewrite (e_bad _ _ _ He). rewrite (e_bad _ _ _ He') in Hu. exact Hu.
Qed.

Lemma passes_append c s f g : passes c s f -> passes c s g -> passes c s (cnf_append f g).
Proof.
  intros (I1 & S1 & B1) (I2 & S2 & B2). split; [|split].
  - intros a H0 HS. apply cnf_append_true. auto.
  - intros a HT Hinv HS HS'. apply cnf_append_true in Hinv. destruct Hinv. apply cnf_append_true. auto.
  - intros a Hinv. apply cnf_append_true in Hinv. apply B1, Hinv.
Qed.

Lemma candidate_append c f g : candidate_fits c f -> candidate_fits c g -> candidate_fits c (cnf_append f g).
Proof. intros (A1 & V1) (A2 & V2). split; [apply api_cnf_append; auto|apply cnf_append_vars; auto]. Qed.

Lemma latch_candidate c flag inv : numbering_fits c flag -> api_cnf inv -> cnf_vars (fun v => 1 <= v <= c_max c) inv ->
  candidate_fits c inv.
Proof.
  intros Hf A V. split; auto. eapply cnf_vars_impl; [|exact V]. intros v Hv. cbv beta in Hv. pose proof (proj1 Hf). lia.
Qed.

Lemma accepted_everywhere b c flag s inv b' s' : system_of b c flag s -> numbering_fits c flag ->
  candidate_fits c inv -> accepted_once s inv -> system_of b' c flag s' -> accepted_for s' inv.
Proof.
  intros Hs Hf HC HA Hs'. destruct (system_encodes _ _ _ _ Hs (or_intror Hf)) as (Hwf & _ & He).
  destruct (system_encodes _ _ _ _ Hs' (or_intror Hf)) as (_ & _ & He'). intros b1 T1 T2 T3 o1 o2 H1 H2 H3 Ho1 Ho2.
  apply (check_passes c flag s' b1 T1 T2 T3 o1 o2 inv); auto. apply (same_passes c flag s); auto.
  apply (accepted_passes c flag); auto.
Qed.

Lemma accepted_append b1 b2 b c flag s1 s2 s f g : numbering_fits c flag ->
  system_of b1 c flag s1 -> candidate_fits c f -> accepted_once s1 f ->
  system_of b2 c flag s2 -> candidate_fits c g -> accepted_once s2 g ->
  system_of b c flag s -> accepted_for s (cnf_append f g).
Proof.
  intros Hf Hs1 Cf Af Hs2 Cg Ag Hs b0 T1 T2 T3 o1 o2 H1 H2 H3 Ho1 Ho2.
  destruct (system_encodes _ _ _ _ Hs (or_intror Hf)) as (Hwf & _ & He).
  destruct (system_encodes _ _ _ _ Hs1 (or_intror Hf)) as (_ & _ & He1).
  destruct (system_encodes _ _ _ _ Hs2 (or_intror Hf)) as (_ & _ & He2).
  apply (check_passes c flag s); auto using candidate_append.
  apply passes_append; [apply (same_passes c flag s1)|apply (same_passes c flag s2)]; auto;
    apply (accepted_passes c flag); auto.
Qed.

(** A formula about the circuit that passes is inductive and safe. *)
Lemma passes_inductive c flag s inv : circuit_wf c -> numbering_fits c flag -> encodes c flag s ->
  cnf_vars (fun v => 1 <= v <= c_max c) inv -> passes c s inv -> inductive_safe c flag (fun w => cnf_true w inv).
Proof.
  intros Hwf Hf He V (Hi & Hs & Hb). split; [|split].
  - intros w Hw H0. apply Hi; auto. apply (safety_complete c flag s He); auto.
  - intros w w' Hw Hw' Hst Hinv. destruct (N.eq_dec (c_max c) 0) as [HM|HM].
    + revert Hinv. apply (cnf_true_ext (fun _ => False)); [|tauto].
      eapply cnf_vars_impl; [|exact V]. intros v Hv. cbv beta in Hv. lia.
    + set (tr := fun i : nat => match i with O => w | S _ => w' end).
      assert (V1 : cnf_vars (fun v => 1 <= v) inv).
      { eapply cnf_vars_impl; [|exact V]. intros v Hv. cbv beta in Hv. lia. }
      assert (X : cnf_true (shift (c_max c) (unroll (c_max c) tr)) inv).
      { apply Hs.
        - apply (unroll_trans c flag s Hwf He); auto.
        - apply (unroll_ext c); auto.
        - apply (unroll_ext c); [apply (e_s_vars _ _ _ He)|]. apply (safety_complete c flag s He); auto.
        - apply (unroll_bump c); auto.
          + eapply cnf_vars_impl; [|apply (e_s_vars _ _ _ He)]. intros v Hv. cbv beta in Hv. lia.
          + apply (unroll_ext c); [apply (e_s_vars _ _ _ He)|]. apply (safety_complete c flag s He); auto. }
      apply (unroll_bump c) in X; auto. apply (unroll_ext c) in X; auto.
  - intros w Hw Hinv Hbad. apply (Hb w Hinv).
    + apply (safety_complete c flag s He); auto.
    + apply (unsafe_true c flag s He); auto.
Qed.

Lemma accepted_inductive b c flag s inv : system_of b c flag s -> numbering_fits c flag ->
  api_cnf inv -> cnf_vars (fun v => 1 <= v <= c_max c) inv -> accepted_once s inv ->
  inductive_safe c flag (fun w => cnf_true w inv).
Proof.
  intros Hs Hf A V HA. destruct (system_encodes _ _ _ _ Hs (or_intror Hf)) as (Hwf & _ & He).
  apply (passes_inductive c flag s); auto. apply (accepted_passes c flag); auto. apply (latch_candidate c flag); auto.
Qed.

Lemma latch_exact b c flag s inv : system_of b c flag s -> numbering_fits c flag ->
  api_cnf inv -> cnf_vars (is_latch c) inv ->
  (accepted_once s inv <-> inductive_safe c flag (fun w => cnf_true w inv)) /\
  (accepted_for s inv <-> inductive_safe c flag (fun w => cnf_true w inv)).
Proof.
  intros Hs Hf A V.
  assert (V' : cnf_vars (fun v => 1 <= v <= c_max c) inv) by (apply latch_vars_le; exact V).
  pose proof (correct_below 2147483647 _ brute_correct) as HB.
  assert (HO : order_ok (fun l : list Clause => l)) by (intros l; apply Permutation_refl).
  assert (Hfor : accepted_for s inv -> accepted_once s inv).
  { intros H. exists Debug, brute, brute, brute, (fun l => l), (fun l => l).
    do 3 (split; [apply correct_sound; exact HB|]). split; auto. }
  assert (Hind : inductive_safe c flag (fun w => cnf_true w inv) -> accepted_for s inv).
  { intros H b' T1 T2 T3 o1 o2 H1 H2 H3 Ho1 Ho2. apply (check_invariant_complete b b' c flag); auto. }
  assert (Honce : accepted_once s inv -> inductive_safe c flag (fun w => cnf_true w inv)).
  { apply (accepted_inductive b); auto. }
  split; split; auto.
Qed.

Lemma accepted_without_outputs b c s inv b' s' : system_of b c true s -> numbering_fits c true ->
  api_cnf inv -> cnf_vars (is_latch c) inv -> accepted_once s inv ->
  system_of b' c false s' -> accepted_for s' inv.
Proof.
  intros Hs Hf A V HA Hs'. apply (proj2 (latch_exact b' c false s' inv Hs' (fits_without_outputs c Hf) A V)).
  apply inductive_without_outputs. apply (proj1 (latch_exact b c true s inv Hs Hf A V)). exact HA.
Qed.

Lemma accepted_safe b c flag s inv : system_of b c flag s -> numbering_fits c flag -> candidate_fits c inv ->
  accepted_once s inv -> safe c flag.
Proof.
  intros Hs Hf HC HA. destruct (system_encodes _ _ _ _ Hs (or_intror Hf)) as (Hwf & _ & He).
  destruct (accepted_passes c flag s inv Hwf Hf He HC HA) as (H1 & H2 & H3).
  apply (inductive_safe_runs c flag s Hwf Hf He inv); auto.
  destruct HC as (_ & V). eapply cnf_vars_impl; [|exact V]. intros v Hv. cbv beta in Hv. lia.
Qed.

Lemma accepted_bmc b c flag s inv : system_of b c flag s -> numbering_fits c flag -> candidate_fits c inv ->
  accepted_once s inv ->
  forall m b' s' T clk limit asg d, system_of b' c flag s' -> solver_sound_below m T -> limit < 4294967296 ->
  b' = Debug /\ m = 2147483648 \/ (limit + 1) * c_max c < m <= 2147483648 ->
  bmc_search b' T clk s' limit <> Ok (CTX asg d).
Proof.
  intros Hs Hf HC HA m b' s' T clk limit asg d Hs' HT Hl Hm E. pose proof (accepted_safe b c flag s inv Hs Hf HC HA) as Hsafe.
  destruct (bmc_ctx_sound m b' c flag s' T clk limit asg d Hs' (or_intror Hf) HT Hl Hm E) as (_ & _ & H).
  destruct (H _ (complete_agrees asg)) as (w & Hr & Hb & _). exact (Hsafe w Hr _ Hb).
Qed.

Lemma accepted_provers b c flag s inv : system_of b c flag s -> numbering_fits c flag -> candidate_fits c inv ->
  accepted_once s inv ->
  forall b' s' R T SS fuel d, system_of b' c flag s' -> random_ok R ->
  solver_sound_below 2147483647 T -> stateful_sound SS ->
  ic3_stateless b' R T fuel s' <> Ok (ProofCTX d) /\ ic3_stateful b' R SS fuel s' <> Ok (ProofCTX d) /\
  (bad_latches_read c flag -> pdr b' R SS fuel s' <> Ok (ProofCTX d)).
Proof.
  intros Hs Hf HC HA b' s' R T SS fuel d Hs' HR HT HS. pose proof (accepted_safe b c flag s inv Hs Hf HC HA) as Hsafe.
  assert (No : unsafe c flag -> False) by (intros (w & t & Hr & Hb); exact (Hsafe w Hr t Hb)).
  split; [|split].
  - intros E. apply (stateless_sound_ctx b' c flag s') in E; auto. apply No, E.
  - intros E. apply (sound_ctx b' c flag s') in E; auto. apply No, E.
  - intros Hb E. apply (sound_pdr_ctx c flag s' b') in E; auto. apply No, E.
Qed.

(* ------------------------------------------------------------------ every safe circuit has one *)

Lemma excluding c (qs : list Cube) : (forall q, In q qs -> api_cube q /\ cube_vars (is_latch c) q) ->
  exists g, api_cnf g /\ cnf_vars (is_latch c) g /\ forall a, cnf_true a g <-> forall q, In q qs -> ~ cube_true a q.
Proof.
  induction qs as [|q qs IH]; intros H.
  - exists cnf_new. split; [auto with api|]. split; [intros d []|]. intros a. split; [intros _ q []|intros _ d []].
  - destruct IH as (g & A & V & T); [intros; apply H; right; auto|]. destruct (H q (or_introl eq_refl)) as (Aq & Vq).
    exists (cnf_add_clause g (cube_not q)). split; [auto with api|]. split.
    + intros d Hd. apply in_add_clause in Hd. destruct Hd as [Hd| ->]; [apply V; auto|].
      intros l Hl. apply in_cube_not in Hl. rewrite <- (lit_var_not l). apply Vq. exact Hl.
    + intros a. rewrite cnf_add_clause_true, cube_not_true, T. split.
      * intros (H1 & H2) q' [<-|Hq]; auto.
      * intros H1. split; [intros q' Hq; apply H1; right; auto|apply H1; left; auto].
Qed.

(** The states from which some input shows a bad literal. *)
Definition bad_states (c : circuit) (flag : bool) : list Cube :=
  map (state_of c) (filter (fun w => existsb (lit_value w) (bad_literals c flag))
    (map (fun t => ev c (fun v => existsb (N.eqb v) t)) (all_subsets (N.to_nat (c_max c))))).

Lemma in_bad_states c flag q : In q (bad_states c flag) ->
  exists w, q = state_of c w.
Proof. intros H. apply in_map_iff in H. destruct H as (w & <- & _). eauto. Qed.

Lemma bad_states_true c flag a : circuit_wf c ->
  (exists q, In q (bad_states c flag) /\ cube_true a q) <-> bad_state c flag a.
Proof.
  intros Hwf. split.
  - intros (q & Hq & Ha). apply in_map_iff in Hq. destruct Hq as (w & <- & Hw). apply filter_In in Hw.
    destruct Hw as (Hin & Hb). apply in_map_iff in Hin. destruct Hin as (t & <- & _). apply state_of_true in Ha.
    eexists. split; [apply ev_wires_ok; exact Hwf|]. split; [apply same_latches_sym; exact Ha|].
    apply existsb_exists in Hb. exact Hb.
  - intros (w & Hw & Hsame & l & Hl & Hv).
    destruct (all_subsets_complete (N.to_nat (c_max c)) w) as (t & Ht & Hx).
    set (w' := ev c (fun v => existsb (N.eqb v) t)).
    assert (E : forall v, v <= c_max c -> w v = w' v).
    { apply wires_unique; auto. intros v Hi. symmetry. apply Hx. destruct Hi as [Hi|Hi].
      - unfold is_input in Hi. unfold c_max. lia.
      - pose proof (latch_le_max _ _ Hi). apply is_latch_iff in Hi. lia. }
    exists (state_of c w'). split.
    + apply in_map_iff. exists w'. split; auto. apply filter_In. split; [apply in_map_iff; exists t; auto|].
      apply existsb_exists. exists l. split; auto. rewrite <- Hv. unfold lit_value. f_equal. symmetry. apply E.
      pose proof (bad_range c flag Hwf) as R. rewrite Forall_forall in R. specialize (R l Hl). red in R. unfold lit_var in *. lia.
    + apply state_of_true. intros v Hi. rewrite <- (Hsame v Hi). apply E. apply latch_le_max. exact Hi.
Qed.

Lemma safe_ic3_proof b c flag s : system_of b c flag s -> numbering_fits c flag -> safe c flag ->
  exists inv, ic3_proof c flag s inv.
Proof.
  intros Hs Hf Hsafe. destruct (system_encodes _ _ _ _ Hs (or_intror Hf)) as (Hwf & Hn & He).
  set (fuel := S (states c * (states c + 3))).
  assert (HT : solver_correct_below 2147483647 brute) by (apply correct_below, brute_correct).
  assert (HTd : solver_total_below 2147483647 brute) by (apply total_below, brute_total).
  assert (HR : random_ok no_random) by (apply no_random_ok).
  assert (H : post (stateless_plain b no_random brute fuel s) (overlong c flag) (fuel <= states c * (states c + 3))%nat
    (fun r => result_ok c flag s r /\
       forall inv, r = Proof inv -> forall w, wires_ok c w -> initial_values c w -> ~ is_bad c flag w)).
  { unfold stateless_plain. rewrite (cache_ok c flag s b Hf Hwf He). cbn [bind].
    eapply post_bind; [apply (prove_ok c flag s Hwf Hn He b no_random _ _ HR (sl_ops_ok c flag s b Hf Hwf He brute HT HTd))|].
    - constructor.
    - apply frames_ok_nil.
    - reflexivity.
    - intros (r & st) (H1 & _ & _ & _ & _ & H2). exact (conj H1 H2). }
  assert (No : bad_run c flag -> False) by (intros (w & t & Hr & Hb); exact (Hsafe w Hr t Hb)).
  destruct (stateless_plain b no_random brute fuel s) as [[inv|d]| |]; cbn [post] in H.
  - exists inv. split; [apply H|]. apply (proj2 H inv eq_refl).
  - destruct H as ((Hb & _) & _). elim (No Hb).
  - destruct H as (_ & Hb & _). elim (No Hb).
  - unfold fuel in H. lia.
Qed.

Lemma safe_has_invariant b c flag s : system_of b c flag s -> numbering_fits c flag ->
  (safe c flag <-> exists inv, api_cnf inv /\ cnf_vars (is_latch c) inv /\ accepted_for s inv).
Proof.
  intros Hs Hf. destruct (system_encodes _ _ _ _ Hs (or_intror Hf)) as (Hwf & Hn & He). split.
  - intros Hsafe. destruct (safe_ic3_proof b c flag s Hs Hf Hsafe) as (inv & (f & -> & (Af & Vf) & Hi & Hst) & H0).
    destruct (excluding c (bad_states c flag)) as (g & Ag & Vg & Tg).
    { intros q Hq. apply in_bad_states in Hq. destruct Hq as (w & ->). split; [apply state_of_api|apply state_of_vars]. }
    assert (Vfg : cnf_vars (is_latch c) (cnf_append f g)) by (apply cnf_append_vars; auto).
    assert (Afg : api_cnf (cnf_append f g)) by (apply api_cnf_append; auto).
    assert (G : forall a, cnf_true a g <-> ~ bad_state c flag a).
    { intros a. rewrite Tg, <- (bad_states_true c flag a Hwf). clear. split.
      - intros H (q & H1 & H2). exact (H q H1 H2).
      - intros H q H1 H2. apply H. exists q. auto. }
    exists (cnf_append f g). split; auto. split; auto. apply (proj2 (latch_exact b c flag s _ Hs Hf Afg Vfg)).
    split; [|split].
    + intros w Hw Hini. apply cnf_append_true. split; auto. apply G. intros (u & U1 & U2 & U3).
      apply (H0 u U1); auto. eapply initial_same; [|exact Hini]. apply same_latches_sym. exact U2.
    + intros w w' Hw Hw' Hstep Hinv. apply cnf_append_true in Hinv. destruct Hinv as (F1 & F2). apply cnf_append_true.
      destruct (Hst w w') as (X1 & X2); auto; [split; auto|intros Hb|split; auto; apply G; auto].
      apply G in F2. apply F2. exists w. split; auto. split; auto. apply same_latches_refl.
    + intros w Hw Hinv Hb. apply cnf_append_true in Hinv. apply (proj1 (G w)); [apply Hinv|].
      exists w. split; auto. split; auto. apply same_latches_refl.
  - intros (inv & A & V & H). pose proof (proj1 (proj2 (latch_exact b c flag s inv Hs Hf A V)) H) as Hi.
    apply (inductive_is_safe c flag _ Hi).
Qed.

Lemma follow_read : bad_latches_read follow_circuit false.
Proof. intros l [<-|[]] H. apply is_latch_iff in H. unfold lit_var in H. cbn [c_inputs c_latches follow_circuit] in H. change (lenN [(0, 0); (4, 0)]) with 2 in H. change (8 / 2) with 4 in H. lia. Qed.

Lemma follow_safe : safe follow_circuit false.
Proof.
  destruct (follow_system Debug) as (s & E & Hs & Hn).
  set (inv := run_history (H_add (H_add H_new [5]) [7])).
  apply (accepted_safe Debug follow_circuit false s inv Hs Hn).
  - split; [eexists; reflexivity|]. intros d [<-|[<-|[]]] l [<-|[]]; vm_compute; split; [discriminate|reflexivity|discriminate|reflexivity].
  - assert (HB : solver_sound_below 2147483647 brute) by (apply correct_sound, correct_below, brute_correct).
    exists Debug, brute, brute, brute, (fun l => l), (fun l => l). do 3 (split; [exact HB|]).
    do 2 (split; [intros l; apply Permutation_refl|]). vm_compute in E. injection E as <-. vm_compute. reflexivity.
Qed.

Lemma shift_unsafe : unsafe shift_circuit false.
Proof. destruct shift_shortest as (_ & w & Hr & Hb). exists w, 2%nat. auto. Qed.
