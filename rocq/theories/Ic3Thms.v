(** IC3 with a stateless and with a stateful solver: the SAT questions meet the contract of
    Ic3Core, and the properties C35 - C40 follow. *)
From Coq Require Import Permutation.
From Verif Require Import Base Formulas FormulaLogic Aig Fsts Solvers Ic3 Brute Spec SpecAig SpecFsts SpecAlg Tac Plain
  FormulasFacts LogicFacts AigFacts SimFacts AigThms FstsFacts FstsSem TagFacts FstsThms BmcThms BruteFacts
  ConeThms StateFacts Ic3Core QueryFacts.
Open Scope nat_scope.

Lemma answers_bool c r Q : answers c r Q ->
  (is_sat_response r = true <-> exists w w', steps c w w' /\ Q w w').
Proof.
  destruct r as [|asg]; cbn; intros H; split; try discriminate; auto.
  - intros (w & w' & H1 & H2). elim (H w w' H1 H2).
  - destruct H as (w & w' & H1 & H2 & _). eauto.
Qed.

Lemma answers_impl c r (Q Q' : valuation -> valuation -> Prop) : (forall w w', Q w w' <-> Q' w w') ->
  answers c r Q -> answers c r Q'.
Proof.
  intros E. destruct r as [|asg]; cbn.
  - intros H w w' Hst HQ. apply (H w w' Hst), E, HQ.
  - intros (w & w' & H1 & H2 & H3). exists w, w'. split; auto. split; auto. apply E; auto.
Qed.

Lemma nth_error_set_nth {A} (l : list A) i j x : i < length l ->
  nth_error (set_nth l i x) j = if j =? i then Some x else nth_error l j.
Proof.
  revert i j; induction l as [|y l IH]; intros [|i] [|j] H; simpl in *; auto; try lia.
  rewrite IH by lia. reflexivity.
Qed.

Lemma Forall_set_nth {A} (P : A -> Prop) l i x : Forall P l -> P x -> Forall P (set_nth l i x).
Proof.
  intros H Hx. revert i. induction H as [|y l Hy H IH]; intros [|i]; simpl; auto.
Qed.

Section Instances.
Variables (c : circuit) (flag : bool) (s : FSTS) (b : build).
Hypothesis Hsys : system_of b c flag s.
Hypothesis Hf : numbering_fits c flag.
Hypothesis Hwf : circuit_wf c.
Hypothesis Hn : numbered c flag.
Hypothesis He : encodes c flag s.
Notation M := (c_max c).

Definition the_cache : Ic3Cache :=
  mkIc3Cache (cube_to_cnf (get_initial_relation s)) (transition s) (ic3_p0 s) (ic3_not_p0 s)
    (tagged_cnf M (ic3_not_p0 s)).

Lemma cache_ok : ic3_cache b s = Ok the_cache.
Proof.
  unfold ic3_cache. rewrite (tag_cnf c flag s Hf He b (ic3_not_p0 s) (notp0_api c flag s He) (notp0_vars c flag s Hwf Hf He)).
  reflexivity.
Qed.

Notation frq := (basef s).

Lemma fr_latch cls i : Forall (latch_cnf c) cls -> latch_cnf c (fr cls i).
Proof.
  intros H. unfold fr. destruct (Nat.lt_ge_cases i (length cls)) as [Hi|Hi].
  - rewrite Forall_forall in H. apply H, nth_In, Hi.
  - rewrite nth_overflow by auto. split; [apply api_cnf_new|apply cnf_new_vars].
Qed.

(** The four parts of a question. *)
Definition parts (cls : list CNF) (i : nat) (d : Clause) : Prop :=
  In d (cnf_clauses (fr cls i)) \/ In d (cnf_clauses (frq i)) \/ In d (cnf_clauses (transition s)).
Definition parts_true (cls : list CNF) (i : nat) (a : valuation) : Prop :=
  cnf_true a (fr cls i) /\ cnf_true a (frq i) /\ cnf_true a (transition s).

Lemma parts_true_iff cls i a : (forall d, parts cls i d -> clause_true a d) <-> parts_true cls i a.
Proof.
  unfold parts, parts_true, cnf_true, clauses_true. split.
  - intros H. repeat split; auto.
  - intros (H1 & H2 & H3) d [H|[H|H]]; auto.
Qed.

Lemma parts_sound cls i a : Forall (latch_cnf c) cls -> parts_true cls i a ->
  steps c (ev c a) (shift M a) /\ in_frame c flag cls i (ev c a).
Proof.
  intros Hc (H1 & H2 & H3). split; [eapply trans_steps; eauto|].
  apply (frame_sound c flag s Hwf Hf He); auto. apply fr_latch; auto.
Qed.
Lemma parts_complete cls i w w' : Forall (latch_cnf c) cls -> steps c w w' ->
  in_frame c flag cls i w -> parts_true cls i (pair c w w').
Proof.
  intros Hc Hst Hw.
  destruct (frame_complete c flag s Hwf Hf He cls i w w') as (H1 & H2);
    [apply fr_latch; auto|apply Hst|auto|].
  split; auto. split; auto. apply (trans_pair c flag s Hwf He); auto.
Qed.

(** What the question adds to frame, base and transition relation. *)
Definition extra_ok (X : valuation -> Prop) (Q : valuation -> valuation -> Prop) : Prop :=
  (forall a, X a -> Q (ev c a) (shift M a)) /\
  (forall w w', steps c w w' -> Q w w' -> exists w2, step_values c w w2 /\ X (pair c w w2)).

Lemma extra_bad : extra_ok (fun a => cnf_true a (tagged_cnf M (ic3_not_p0 s))) (fun w w' => bad_state c flag w').
Proof.
  split.
  - intros a Ha. apply tagged_cnf_true in Ha. apply (notp0_bad c flag s Hwf Hf He); auto.
  - intros w w' (Hw & Hst) (x & X1 & X2 & X3). exists x. split.
    + intros v nx r L. rewrite (X2 v) by (exists nx, r; auto). apply (Hst _ _ _ L).
    + apply tagged_cnf_true. apply shift_cnf; [apply (notp0_vars c flag s Hwf Hf He)|].
      apply (notp0_complete c flag s He); auto.
Qed.

Lemma extra_cube q : cube_vars (is_latch c) q ->
  extra_ok (fun a => cube_true (shift M a) q) (fun w w' => cube_true w' q).
Proof.
  intros V. split; auto. intros w w' (Hw & Hst) Hq. exists w'. split; auto. apply shift_cube; auto.
Qed.

Lemma extra_both q d : cube_vars (is_latch c) q -> clause_vars (is_latch c) d ->
  extra_ok (fun a => clause_true a d /\ cube_true (shift M a) q)
           (fun w w' => clause_true w d /\ cube_true w' q).
Proof.
  intros V W. split.
  - intros a (H1 & H2). split; auto. apply ev_clause; auto.
  - intros w w' (Hw & Hst) (Hd & Hq). exists w'. split; auto. split; [apply lo_clause; auto|apply shift_cube; auto].
Qed.

(** Model and circuit views of a question, for any engine. *)
Lemma question cls i (P : Clause -> Prop) X Q : Forall (latch_cnf c) cls -> extra_ok X Q ->
  (forall a, (forall d, P d -> clause_true a d) <-> parts_true cls i a /\ X a) ->
  (forall a, (forall d, P d -> clause_true a d) -> in_frame c flag cls i (ev c a) /\ Q (ev c a) (shift M a)) /\
  (forall w w', steps c w w' -> in_frame c flag cls i w /\ Q w w' -> exists a, forall d, P d -> clause_true a d).
Proof.
  intros Hc (E1 & E2) HP. split.
  - intros a Ha. apply HP in Ha. destruct Ha as (H1 & H2). split; auto.
    destruct (parts_sound cls i a Hc H1); auto.
  - intros w w' Hst (Hw & HQ). destruct (E2 w w' Hst HQ) as (w2 & Hs2 & HX). exists (pair c w w2).
    apply HP. split; auto. apply parts_complete; auto. split; auto. apply Hst.
Qed.

(* --------------------------------------------------------------------- stateless *)

Section SL.
Variable T : StatelessSolver.
Hypothesis HT : solver_correct_below 2147483647 T.
Hypothesis HTd : solver_total_below 2147483647 T.

(** Questions mention the variables of two frames only. *)
Definition narrow (f : CNF) : Prop := cnf_vars (fun v => 1 <= v <= 2 * M)%N f.
Lemma narrow_legal f : narrow f -> cnf_legal f.
Proof.
  intros H. apply cnf_vars_legal. eapply cnf_vars_impl; [|exact H]. intros v Hv. cbv beta in Hv. unfold bumpable.
  pose proof (proj1 Hf). lia.
Qed.
Lemma narrow_below f : api_cnf f -> narrow f -> (cnf_max f < 2147483647)%N.
Proof.
  intros Ha H. apply vars_below; auto; [lia|]. eapply cnf_vars_impl; [|exact H]. intros v Hv. cbv beta in Hv.
  pose proof (proj1 Hf). lia.
Qed.
Lemma narrow_lo f : cnf_vars (fun v => 1 <= v <= M)%N f -> narrow f.
Proof. apply cnf_vars_impl. intros v Hv. lia. Qed.
Lemma narrow_tagged f : cnf_vars (fun v => 1 <= v <= M)%N f -> narrow (tagged_cnf M f).
Proof. intros H. apply tagged_cnf_vars. eapply cnf_vars_impl; [|exact H]. intros v Hv. cbv beta in Hv. lia. Qed.
Lemma narrow_append f g : narrow f -> narrow g -> narrow (cnf_append f g).
Proof. apply cnf_append_vars. Qed.
Lemma narrow_latch q : clause_vars (is_latch c) q -> clause_vars (fun v => 1 <= v <= 2 * M)%N q.
Proof. intros H l Hl. specialize (H l Hl). apply latch_bounds in H. lia. Qed.
Lemma narrow_add f q : narrow f -> clause_vars (is_latch c) q -> narrow (cnf_add_clause f q).
Proof. intros H1 H2. apply cnf_add_vars; auto. apply narrow_latch; auto. Qed.
Lemma narrow_new : narrow cnf_new.
Proof. apply cnf_new_vars. Qed.
Lemma narrow_cube q : cube_vars (is_latch c) q -> narrow (cube_to_cnf q).
Proof. intros H. apply narrow_lo, latch_vars_le, cube_to_cnf_vars, H. Qed.
Lemma narrow_transition : narrow (transition s).
Proof.
  eapply cnf_vars_impl; [|apply (e_t_vars _ _ _ He)]. intros v Hx. cbv beta in Hx. destruct Hx as [Hx|Hx]; [lia|].
  apply latch_bounds in Hx. lia.
Qed.

Definition sl_good (x : SLState) : Prop := Forall (latch_cnf c) (sl_clauses x).

Lemma sl_query x f (Q : valuation -> valuation -> Prop) : api_cnf f -> narrow f ->
  (forall d, In d (cnf_clauses (transition s)) -> In d (cnf_clauses f)) ->
  (forall a, cnf_true a f -> Q (ev c a) (shift M a)) ->
  (forall w w', steps c w w' -> Q w w' -> exists a, cnf_true a f) ->
  okay (sl_sat_call T x f) (fun rx => sl_clauses (snd rx) = sl_clauses x /\ answers c (fst rx) Q).
Proof.
  intros Ha Hl Ht H1 H2. unfold sl_sat_call.
  pose proof (narrow_below f Ha Hl) as Hm. pose proof (narrow_legal f Hl) as Hl'.
  destruct (HT (sl_calls x) f Ha Hl' Hm) as [(asg & E & Hs)|(E & Hu)]; rewrite E; cbn [bind];
    eexists; (split; [reflexivity|]); cbn [fst snd sl_clauses]; split; auto.
  - apply (sat_answers c flag s Hwf Hf He (cnf_clauses f)); auto.
    rewrite <- cnf_max_max_var by auto. apply (HTd (sl_calls x) f); auto.
  - eapply unsat_answers; eauto.
Qed.

Lemma sl_fk x i : sl_good x -> i < length (sl_clauses x) ->
  sl_get_fk the_cache x i = Ok (cnf_append (fr (sl_clauses x) i) (frq i)).
Proof.
  intros Hg Hi. unfold sl_get_fk. rewrite (indexn_nth _ _ cnf_new) by auto. cbn [bind].
  unfold basef, the_cache. cbn [c_initial c_p0]. fold (fr (sl_clauses x) i). destruct (i =? 0); reflexivity.
Qed.

Lemma fr_base_api cls i : Forall (latch_cnf c) cls -> api_cnf (cnf_append (fr cls i) (frq i)).
Proof.
  intros H. apply api_cnf_append; [apply (fr_latch cls i H)|apply (basef_api c flag s He)].
Qed.
Lemma fr_base_narrow cls i : Forall (latch_cnf c) cls -> narrow (cnf_append (fr cls i) (frq i)).
Proof.
  intros H. apply narrow_append; apply narrow_lo; [apply latch_vars_le, (fr_latch cls i H)|].
  apply (basef_vars c flag s Hwf Hf He).
Qed.

(** A question about frame [i] made of the frame, T and further clauses [E]. *)
Lemma sl_question x i f (E : Clause -> Prop) X Q : sl_good x -> extra_ok X Q -> api_cnf f -> narrow f ->
  (forall d, In d (cnf_clauses f) <-> parts (sl_clauses x) i d \/ E d) ->
  (forall a, (forall d, E d -> clause_true a d) <-> X a) ->
  okay (sl_sat_call T x f) (fun rx => sl_clauses (snd rx) = sl_clauses x /\
    answers c (fst rx) (fun w w' => in_frame c flag (sl_clauses x) i w /\ Q w w')).
Proof.
  intros Hg HX Ha Hl Hin HE.
  destruct (question (sl_clauses x) i (fun d => In d (cnf_clauses f)) X Q Hg HX) as (Q1 & Q2).
  { intros a. rewrite <- HE, <- parts_true_iff. setoid_rewrite Hin. split; [auto|].
    intros (H1 & H2) d [Hd|Hd]; auto. }
  apply sl_query; auto. intros d Hd. apply Hin. left. right. right. auto.
Qed.

Lemma tagged_units_true a q : (forall d, In d (cnf_clauses (tagged_cnf M (cube_to_cnf q))) -> clause_true a d) <->
  cube_true (shift M a) q.
Proof. 
  change (cnf_true a (tagged_cnf M (cube_to_cnf q)) <-> cube_true (shift M a) q).
  rewrite tagged_cnf_true, cube_to_cnf_true. tauto.
Qed.

Lemma tagged_units_narrow q : cube_vars (is_latch c) q -> narrow (tagged_cnf M (cube_to_cnf q)).
Proof. intros V. apply narrow_tagged, latch_vars_le, cube_to_cnf_vars, V. Qed.
Lemma tag_units q : cube_vars (is_latch c) q ->
  add_tags_to_relation b s (cube_to_cnf q) 1 = Ok (tagged_cnf M (cube_to_cnf q)).
Proof.
  intros V. apply (tag_cnf c flag s Hf He); [apply api_cube_to_cnf|].
  apply latch_vars_le, cube_to_cnf_vars, V.
Qed.
Hint Resolve api_cube_to_cnf tagged_cnf_api fr_base_api fr_base_narrow tagged_units_narrow narrow_append narrow_add
  narrow_new narrow_cube narrow_transition : api.

Lemma sl_reach_ok x i q : sl_good x -> i < length (sl_clauses x) -> cube_vars (is_latch c) q ->
  okay (sl_reach_from_fi b T s the_cache x i q) (fun rx => sl_good (snd rx) /\ sl_clauses (snd rx) = sl_clauses x /\
    answers c (fst rx) (fun w w' => in_frame c flag (sl_clauses x) i w /\ cube_true w' q)).
Proof.
  intros Hg Hi V. unfold sl_reach_from_fi. rewrite sl_fk by auto. cbn [bind].
  rewrite tag_units by auto. cbn [bind]. cbn [the_cache c_transition].
  pose proof (e_t_api _ _ _ He).
  eapply okay_impl; [eapply (sl_question x i _ (fun d => In d (cnf_clauses (tagged_cnf M (cube_to_cnf q)))))|].
  - auto.
  - apply (extra_cube q V).
  - auto 7 with api.
  - auto 7 with api.
  - intros d. rewrite !in_append. unfold parts. simpl. tauto.
  - intros a. apply tagged_units_true.
  - intros (r & x') (H1 & H2). cbn [fst snd] in *. unfold sl_good. rewrite H1. auto.
Qed.

Lemma sl_ops_ok : ops_ok c flag s (sl_ops b T s the_cache) sl_good.
Proof.
  pose proof (e_t_api _ _ _ He) as At.
  pose proof (init_api c flag s He) as Ai. pose proof (init_vars c flag s He) as Vi.
  pose proof (notp0_api c flag s He) as An.
  pose proof (narrow_lo _ (notp0_vars c flag s Hwf Hf He)) as Ln.
  pose proof (narrow_tagged _ (notp0_vars c flag s Hwf Hf He)) as Ln1.
  assert (Lii : narrow (cube_to_cnf (get_initial_relation s))) by (apply narrow_cube; exact Vi).
  split; cbn [sl_ops ox o_clauses o_push_frame o_add_clause o_bad_in_0 o_bad_in_1 o_bad_from_fi o_reach_from_fi
    o_propagate_query o_not_s_and_s_tag o_clause_inductive o_get_fk o_loop_check].
  - auto.
  - intros x Hg. eexists. split; [reflexivity|]. cbn [sl_clauses]. split; auto. apply Forall_app. split; auto.
    constructor; [|constructor]. split; [apply api_cnf_new|apply cnf_new_vars].
  - intros x j d Hg Hj (Hd1 & Hd2). unfold sl_add_clause. rewrite (indexn_nth _ _ cnf_new) by auto. cbn [bind].
    eexists. split; [reflexivity|]. cbn [sl_clauses]. split; auto.
    apply Forall_set_nth; auto. destruct (fr_latch (sl_clauses x) j Hg) as (A & V).
    split; [apply api_cnf_add; auto|apply cnf_add_vars; auto].
  - intros x Hg. unfold sl_bad_in_0, sl_sat_call. cbn [the_cache c_initial c_not_p0].
    set (f := cnf_append _ _).
    assert (Hf1 : api_cnf f) by (unfold f; auto 6 with api).
    assert (Hf2 : narrow f) by (unfold f; auto 6 with api).
    assert (Hft : forall a, cnf_true a f <-> initial_values c a /\ cnf_true a (ic3_not_p0 s)).
    { intros a. unfold f. rewrite !cnf_append_true, (init_raw c flag s He).
      pose proof (cnf_new_true a). tauto. }
    destruct (solver_sat_below _ T (sl_calls x) f HT Hf1 (narrow_legal f Hf2) (narrow_below f Hf1 Hf2)) as (r & E & Hr). rewrite E. cbn [bind].
    eexists. split; [reflexivity|]. cbn [fst snd sl_clauses]. split; auto. split; auto.
    destruct r as [|asg].
    + intros w Hw Hi Hb. apply (Hr w). apply Hft. split; auto. apply (notp0_complete c flag s He); auto.
    + specialize (Hr _ (complete_agrees asg)). apply Hft in Hr. destruct Hr as (Hi & Hb).
      apply (notp0_bad c flag s Hwf Hf He) in Hb. destruct Hb as (w & W1 & W2 & W3). exists w.
      split; auto. split; auto. eapply initial_same; [|apply Hi]. apply same_latches_sym; auto.
  - intros x Hg. unfold sl_bad_in_1, sl_sat_call. cbn [the_cache c_initial c_transition c_not_p1].
    set (f := cnf_append _ _).
    assert (Hf1 : api_cnf f) by (unfold f; auto 7 with api).
    assert (Hf2 : narrow f) by (unfold f; auto 7 with api).
    assert (Hft : forall a, cnf_true a f <-> initial_values c a /\ cnf_true a (transition s) /\
       cnf_true a (tagged_cnf M (ic3_not_p0 s))).
    { intros a. unfold f. rewrite !cnf_append_true, (init_raw c flag s He).
      pose proof (cnf_new_true a). tauto. }
    destruct (solver_sat_below _ T (sl_calls x) f HT Hf1 (narrow_legal f Hf2) (narrow_below f Hf1 Hf2)) as (r & E & Hr). rewrite E. cbn [bind].
    eexists. split; [reflexivity|]. cbn [fst snd sl_clauses]. split; auto. split; auto.
    destruct extra_bad as (X1 & X2). destruct r as [|asg].
    + intros w w' Hst Hi Hb. destruct (X2 w w' Hst Hb) as (w2 & Hs2 & HX).
      apply (Hr (pair c w w2)). apply Hft. split; [|split; auto].
      * eapply initial_same; [|exact Hi]. intros v Hv. symmetry. apply pair_lo. apply latch_bounds in Hv. lia.
      * apply (trans_pair c flag s Hwf He). split; auto. apply Hst.
    + specialize (Hr _ (complete_agrees asg)). apply Hft in Hr. destruct Hr as (Hi & Ht & Hb).
      set (a := complete asg) in *. exists (ev c a), (shift M a).
      split; [eapply trans_steps; eauto|]. split.
      * eapply initial_same; [|exact Hi]. apply same_latches_sym, ev_latches.
      * apply X1 in Hb. exact Hb.
  - intros x i Hg Hi. unfold sl_bad_from_fi. rewrite sl_fk by auto. cbn [bind the_cache c_transition c_not_p1].
    eapply okay_impl; [eapply (sl_question x i _ (fun d => In d (cnf_clauses (tagged_cnf M (ic3_not_p0 s)))))|].
    + auto.
    + apply extra_bad.
    + auto 7 with api.
    + auto 7 with api.
    + intros d. rewrite !in_append. unfold parts. simpl. tauto.
    + intros a. reflexivity.
    + intros (r & x') (H1 & H2). cbn [fst snd] in *. unfold sl_good. rewrite H1. auto.
  - intros x i q Hg Hi _ V. apply sl_reach_ok; auto.
  - intros x i d Hg Hi (A & V).
    eapply okay_impl; [apply (sl_reach_ok x i (clause_not d)); auto using clause_not_vars|].
    intros (r & x') (H1 & H2 & H3). cbn [fst snd] in *. split; auto. split; auto.
    eapply answers_impl; [|exact H3]. intros w w'. cbv beta. rewrite clause_not_true. tauto.
  - intros x i q Hg Hi A V. unfold sl_not_s_and_s_tag. rewrite sl_fk by auto. cbn [bind].
    rewrite tag_units by auto. cbn [bind the_cache c_transition].
    eapply okay_bind; [eapply (sl_question x i _ (fun d => d = cube_not q \/
       In d (cnf_clauses (tagged_cnf M (cube_to_cnf q)))))|].
    + auto.
    + apply (extra_both q (cube_not q) V (cube_not_vars _ _ V)).
    + pose proof (cube_not_api q). auto 8 with api.
    + pose proof (cube_not_vars _ _ V). auto 8 with api.
    + intros d. rewrite in_append, in_add_clause, !in_append. unfold parts. simpl. tauto.
    + intros a. cbv beta. rewrite <- tagged_units_true. split; [auto|]. intros (H1 & H2) d [->|Hd]; auto.
    + intros (r & x') (H1 & H2). cbn [fst snd] in *. eexists. split; [reflexivity|]. cbn [fst snd].
      unfold sl_good. rewrite H1. split; auto. split; auto. rewrite (answers_bool _ _ _ H2).
      split; intros (w & w' & X1 & X2); exists w, w'; split; auto; rewrite cube_not_true in *; tauto.
  - intros x d i Hg Hi (A & V) _. unfold sl_clause_inductive. cbn [the_cache c_initial c_transition].
    assert (V' : cube_vars (is_latch c) (clause_not d)) by (apply clause_not_vars; auto).
    set (f := cnf_append _ _).
    assert (Hf1 : api_cnf f) by (unfold f; auto 7 with api).
    assert (Hf2 : narrow f) by (unfold f; auto with api).
    assert (Hft : forall a, cnf_true a f <-> initial_values c a /\ ~ clause_true a d).
    { intros a. unfold f. rewrite cnf_append_true, (init_raw c flag s He), cube_to_cnf_true, clause_not_true. tauto. }
    unfold sl_sat_call at 1.
    destruct (solver_sat_below _ T (sl_calls x) f HT Hf1 (narrow_legal f Hf2) (narrow_below f Hf1 Hf2)) as (r & E & Hr). rewrite E. cbn [bind].
    destruct r as [|asg].
    + rewrite sl_fk by auto. cbn [bind sl_clauses]. rewrite tag_units by auto. cbn [bind].
      eapply okay_bind; [eapply (sl_question (mkSLState (sl_clauses x) (S (sl_calls x))) i _
        (fun e => e = d \/ In e (cnf_clauses (tagged_cnf M (cube_to_cnf (clause_not d))))))|].
      * auto.
      * apply (extra_both (clause_not d) d V' V).
      * auto 8 with api.
      * auto 8 with api.
      * intros e. cbn [sl_clauses]. rewrite !in_append, in_add_clause, in_append. unfold parts. tauto.
      * intros a. cbv beta. rewrite <- tagged_units_true. split; [auto|]. intros (H1 & H2) e [->|Hd]; auto.
      * intros (r & x') (H1 & H2). cbn [fst snd sl_clauses] in *. eexists. split; [reflexivity|]. cbn [fst snd].
        unfold sl_good. rewrite H1. split; auto. split; auto.
        pose proof (answers_bool _ _ _ H2) as Hb. split.
        -- intros Hx. apply negb_true_iff in Hx. split.
           ++ intros w Hw. destruct (clause_true_dec w d); auto. elim (Hr w). apply Hft. auto.
           ++ intros w w' Hst Hw Hd. destruct (clause_true_dec w' d) as [|Hnd]; auto.
              assert (Y : is_sat_response r = true); [|congruence]. apply Hb. exists w, w'.
              split; auto. split; auto. split; auto. apply clause_not_true; auto.
        -- intros (X1 & X2). apply negb_true_iff, not_true_iff_false. intros Y. apply Hb in Y.
           destruct Y as (w & w' & Y1 & Y2 & Y3 & Y4). apply clause_not_true in Y4. apply Y4. eauto.
    + eexists. split; [reflexivity|]. cbn [fst snd sl_clauses]. split; auto. split; auto.
      split; [discriminate|]. intros (X1 & _). specialize (Hr _ (complete_agrees asg)).
      apply Hft in Hr. elim (proj2 Hr). apply X1. apply Hr.
  - intros x i Hg Hi. apply sl_fk; auto.
  - auto.
Qed.

End SL.

(* ---------------------------------------------------------------------- stateful *)

Section SF.
Variable SS : StatefulSolver.
Hypothesis HS : stateful_correct SS.

(** The solver holds exactly the clauses in [P]. *)
Definition tracks (st : ss_state SS) (P : Clause -> Prop) : Prop :=
  exists cs, reaches SS st cs /\ forall d, In d cs <-> P d.

Lemma tracks_new h : tracks (ss_new SS h) (fun _ => False).
Proof. exists []. split; [constructor|]. intros d. simpl. tauto. Qed.

Lemma tracks_iff st (P Q : Clause -> Prop) : (forall d, P d <-> Q d) -> tracks st P -> tracks st Q.
Proof. intros E (cs & H1 & H2). exists cs. split; auto. intros d. rewrite H2. apply E. Qed.

Lemma tracks_add st (P : Clause -> Prop) f : tracks st P -> api_cnf f -> cnf_legal f ->
  okay (ss_add_cnf SS st f) (fun st' => tracks st' (fun d => P d \/ In d (cnf_clauses f))).
Proof.
  intros (cs & H1 & H2) A L. destruct (proj1 (HS st cs H1) f A L) as (st' & E). exists st'. split; auto.
  exists (cs ++ cnf_clauses f). split; [econstructor; eauto|]. intros d. rewrite in_app_iff, H2. tauto.
Qed.

Definition cube_fine (q : option Cube) := forall x, q = Some x -> api_cube x /\ cube_legal x.
Definition clause_fine (d : option Clause) := forall x, d = Some x -> api_clause x /\ clause_legal x.

Lemma cube_fine_some q : api_cube q -> cube_legal q -> cube_fine (Some q).
Proof. intros H1 H2 x [= <-]. auto. Qed.
Lemma cube_fine_none : cube_fine None.
Proof. intros x; discriminate. Qed.
Lemma clause_fine_some q : api_clause q -> clause_legal q -> clause_fine (Some q).
Proof. intros H1 H2 x [= <-]. auto. Qed.
Lemma clause_fine_none : clause_fine None.
Proof. intros x; discriminate. Qed.
Hint Resolve cube_fine_some cube_fine_none clause_fine_some clause_fine_none : api.

Lemma tracks_solve st P cube clause : tracks st P -> cube_fine cube -> clause_fine clause ->
  okay (ss_solve SS st cube clause) (fun rs => tracks (snd rs) P /\
    exists cs, (forall d, In d cs <-> P d \/ In d (temp_clauses cube clause)) /\
      match fst rs with
      | UnSat => ~ satisfiable cs
      | Sat asg => satisfies_clauses asg cs /\ defined_upto asg (max_var cs)
      end).
Proof.
  intros (cs & H1 & H2) A B.
  assert (E : forall d, In d (cs ++ temp_clauses cube clause) <-> P d \/ In d (temp_clauses cube clause)).
  { intros d. rewrite in_app_iff, H2. tauto. }
  destruct (proj2 (HS st cs H1) cube clause A B) as [(asg & st' & E1 & E2)|(st' & E1 & E2)];
    eexists; (split; [exact E1|]); cbn [fst snd]; (split; [|eexists; split; [exact E|auto]]);
    exists cs; split; auto; eapply reaches_solve; eauto.
Qed.

(** A question without a transition relation: only whether there is a model. *)
Lemma tracks_sat st P cube clause : tracks st P -> cube_fine cube -> clause_fine clause ->
  okay (ss_solve SS st cube clause) (fun rs => tracks (snd rs) P /\
    match fst rs with
    | UnSat => forall a, (forall d, P d -> clause_true a d) -> clauses_true a (temp_clauses cube clause) -> False
    | Sat asg => exists a, (forall d, P d -> clause_true a d) /\ clauses_true a (temp_clauses cube clause)
    end).
Proof.
  intros H A B. eapply okay_impl; [apply tracks_solve; eauto|]. intros (r & st') (Ht & cs & Hc & Hr).
  cbn [fst snd] in *. split; auto. destruct r as [|asg].
  - intros a H1 H2. apply Hr. exists a. intros d Hd. apply Hc in Hd. destruct Hd; auto.
  - exists (complete asg). pose proof (proj1 Hr _ (complete_agrees asg)) as Hm.
    split; intros d Hd; apply Hm, Hc; auto.
Qed.

Lemma tracks_answers st P cls i cube clause X Q : tracks st P -> cube_fine cube -> clause_fine clause ->
  Forall (latch_cnf c) cls -> extra_ok X Q ->
  (forall d, In d (cnf_clauses (transition s)) -> P d) ->
  (forall a, (forall d, P d -> clause_true a d) /\ clauses_true a (temp_clauses cube clause) <->
     parts_true cls i a /\ X a) ->
  okay (ss_solve SS st cube clause) (fun rs => tracks (snd rs) P /\
    answers c (fst rs) (fun w w' => in_frame c flag cls i w /\ Q w w')).
Proof.
  intros H A B Hc HX Ht HP. eapply okay_impl; [apply tracks_solve; eauto|]. intros (r & st') (Htr & cs & Hcs & Hr).
  cbn [fst snd] in *. split; auto.
  destruct (question cls i (fun d => In d cs) X Q Hc HX) as (Q1 & Q2).
  { intros a. rewrite <- HP. split.
    - intros Hd. split; [|intros d Hd']; intros; apply Hd, Hcs; auto.
    - intros (H1 & H2) d Hd. apply Hcs in Hd. destruct Hd; auto. }
  destruct r as [|asg].
  - eapply unsat_answers; eauto.
  - apply (sat_answers c flag s Hwf Hf He cs); try tauto; auto. intros d Hd. apply Hcs. auto.
Qed.

Definition notp_parts (cls : list CNF) (i : nat) (d : Clause) : Prop :=
  parts cls i d \/ In d (cnf_clauses (tagged_cnf M (ic3_not_p0 s))).

Record sf_good (x : SFState SS) : Prop := {
  g_latch : Forall (latch_cnf c) (sf_clauses x);
  g_len1 : length (sf_fi_t x) = length (sf_clauses x);
  g_len2 : length (sf_fi_t_notp x) = length (sf_clauses x);
  g_init : tracks (sf_initial x) (fun d => In d (cnf_clauses (cube_to_cnf (get_initial_relation s))));
  g_fi : forall i st, nth_error (sf_fi_t x) i = Some st -> tracks st (parts (sf_clauses x) i);
  g_fin : forall i st, nth_error (sf_fi_t_notp x) i = Some st -> tracks st (notp_parts (sf_clauses x) i) }.

Lemma indexn_error {A} (l : list A) i : i < length l -> exists x, nth_error l i = Some x /\ indexn l i = Ok x.
Proof.
  intros H. destruct (nth_error l i) as [x|] eqn:E; [|apply nth_error_None in E; lia].
  exists x. split; auto. unfold indexn. rewrite E. reflexivity.
Qed.

Lemma sf_fi_t_ok x i cube clause X Q : sf_good x -> i < length (sf_clauses x) ->
  cube_fine cube -> clause_fine clause -> extra_ok X Q ->
  (forall a, clauses_true a (temp_clauses cube clause) <-> X a) ->
  okay (sf_solve_fi_t SS x i cube clause) (fun rx => sf_good (snd rx) /\ sf_clauses (snd rx) = sf_clauses x /\
    answers c (fst rx) (fun w w' => in_frame c flag (sf_clauses x) i w /\ Q w w')).
Proof.
  intros Hg Hi A B HX HP. unfold sf_solve_fi_t.
  destruct (indexn_error (sf_fi_t x) i) as (st & E1 & E2); [rewrite (g_len1 _ Hg); auto|].
  rewrite E2. cbn [bind]. 
  eapply okay_bind; [eapply (tracks_answers st (parts (sf_clauses x) i) (sf_clauses x) i cube clause X Q); auto|].
  - apply (g_fi _ Hg i st E1).
  - apply (g_latch _ Hg).
  - intros d Hd. right. right. auto.
  - intros a. rewrite parts_true_iff, HP. tauto.
  - intros (r & st') (H1 & H2). cbn [fst snd] in *. eexists. split; [reflexivity|]. cbn [fst snd sf_clauses].
    split; auto. split; cbn [sf_clauses sf_fi_t sf_fi_t_notp sf_initial]; try apply Hg.
    + rewrite set_nth_length. apply Hg.
    + intros j sj. rewrite nth_error_set_nth by (rewrite (g_len1 _ Hg); auto).
      destruct (Nat.eqb_spec j i) as [->|]; [intros [= <-]; auto|apply (g_fi _ Hg)].
Qed.

Lemma sf_custom_ok x f : api_cnf f -> cnf_legal f ->
  okay (sf_custom SS x f) (fun rx => (sf_good x -> sf_good (snd rx)) /\ sf_clauses (snd rx) = sf_clauses x /\
    match fst rx with
    | UnSat => forall a, ~ cnf_true a f
    | Sat _ => exists a, cnf_true a f
    end).
Proof.
  intros A L. unfold sf_custom.
  eapply okay_bind; [apply (tracks_add _ _ f (tracks_new HintNone) A L)|]. intros st Ht.
  eapply okay_bind; [apply (tracks_sat st _ None None Ht); auto with api|].
  intros (r & st') (H1 & H2). cbn [fst snd] in *. eexists. split; [reflexivity|]. cbn [fst snd sf_clauses]. split; [|split; auto].
  { intros Hg. split; cbn [sf_clauses sf_fi_t sf_fi_t_notp sf_initial]; apply Hg. }
  destruct r as [|asg].
  - intros a Ha. apply (H2 a); [|intros d []]. intros d [[]|Hd]; auto.
  - destruct H2 as (a & H2 & _). exists a. intros d Hd. apply H2. auto.
Qed.

Lemma temp_cube a q : clauses_true a (temp_clauses (Some q) None) <-> cube_true a q.
Proof. rewrite temp_clauses_true. tauto. Qed.
Lemma temp_both a q d : clauses_true a (temp_clauses (Some q) (Some d)) <-> clause_true a d /\ cube_true a q.
Proof. rewrite temp_clauses_true. tauto. Qed.

Lemma sf_reach_ok x i q : sf_good x -> i < length (sf_clauses x) -> api_cube q -> cube_vars (is_latch c) q ->
  okay (sf_reach_from_fi b SS s x i q) (fun rx => sf_good (snd rx) /\ sf_clauses (snd rx) = sf_clauses x /\
    answers c (fst rx) (fun w w' => in_frame c flag (sf_clauses x) i w /\ cube_true w' q)).
Proof.
  intros Hg Hi A V. unfold sf_reach_from_fi. rewrite (tag_cube c flag s Hf He b q A V). cbn [bind].
  apply (sf_fi_t_ok x i (Some (bumped_cube M q)) None (fun a => cube_true (shift M a) q)); auto with api.
  - apply cube_fine_some; [apply bumped_cube_api; auto|apply (bumped_cube_fits c flag Hf); auto].
  - apply (extra_cube q V).
  - intros a. rewrite temp_cube. apply bumped_cube_true.
Qed.

(** The two-literal questions of SF:214-233. *)
Lemma sf_pair_ok x i q d : sf_good x -> i < length (sf_clauses x) -> api_cube q -> cube_vars (is_latch c) q ->
  latch_clause c d ->
  okay (cube_tag <- add_tags_to_cube b s q 1 ;;
        '(r, x) <- sf_solve_fi_t SS x i (Some cube_tag) (Some d) ;;
        Ok (is_sat_response r, x))
    (fun rx => sf_good (snd rx) /\ sf_clauses (snd rx) = sf_clauses x /\
      (fst rx = true <-> exists w w', steps c w w' /\ in_frame c flag (sf_clauses x) i w /\ 
         clause_true w d /\ cube_true w' q)).
Proof.
  intros Hg Hi A V (Ad & Vd). rewrite (tag_cube c flag s Hf He b q A V). cbn [bind].
  eapply okay_bind; [apply (sf_fi_t_ok x i (Some (bumped_cube M q)) (Some d) 
    (fun a => clause_true a d /\ cube_true (shift M a) q) (fun w w' => clause_true w d /\ cube_true w' q)); auto|].
  - apply cube_fine_some; [apply bumped_cube_api; auto|apply (bumped_cube_fits c flag Hf); auto].
  - apply clause_fine_some; auto. apply (latch_clause_legal c flag Hf); auto.
  - apply (extra_both q d V Vd).
  - intros a. rewrite temp_both, bumped_cube_true. tauto.
  - intros (r & x') (H1 & H2 & H3). cbn [fst snd] in *. eexists. split; [reflexivity|]. cbn [fst snd].
    split; auto. split; auto. apply (answers_bool _ _ _ H3).
Qed.

Lemma sf_intersects_ok x q : sf_good x -> api_cube q -> cube_vars (is_latch c) q ->
  okay (sf_intersects_initial SS x q) (fun rx => sf_good (snd rx) /\ sf_clauses (snd rx) = sf_clauses x /\
    (fst rx = true <-> exists w, initial_values c w /\ cube_true w q)).
Proof.
  intros Hg A V. unfold sf_intersects_initial, sf_solve_initial.
  destruct (tracks_sat _ _ (Some q) None (g_init _ Hg)) as ((r & st') & E & H1 & H2); auto with api.
  { apply cube_fine_some; auto. apply (latch_cube_legal c flag Hf); auto. }
  rewrite E. cbn [bind fst snd] in *. eexists. split; [reflexivity|]. cbn [fst snd sf_clauses].
  split; [|split; auto].
  - split; cbn [sf_clauses sf_fi_t sf_fi_t_notp sf_initial]; try apply Hg. auto.
  - destruct r as [|asg]; cbn [is_sat_response].
    + split; [discriminate|]. intros (w & W1 & W2). elim (H2 w); [|rewrite temp_cube; auto].
      apply (init_raw c flag s He). auto.
    + split; auto. intros _. destruct H2 as (a & A1 & A2). exists a. rewrite temp_cube in A2.
      split; auto. apply (init_raw c flag s He). exact A1.
Qed.

Lemma sf_debug_ok x q (e : bool) : sf_good x -> api_cube q -> cube_vars (is_latch c) q ->
  (e = true <-> exists w, initial_values c w /\ cube_true w q) ->
  okay (sf_debug_check b SS x q e) (fun x' => sf_good x' /\ sf_clauses x' = sf_clauses x).
Proof.
  intros Hg A V Hq. unfold sf_debug_check. destruct b; [|eexists; split; [reflexivity|auto]].
  destruct (sf_intersects_ok x q Hg A V) as ((r & x') & E & H1 & H2 & H3). rewrite E. cbn [bind fst snd] in *.
  assert (r = e) as -> by (destruct r, e; try reflexivity; intuition discriminate).
  rewrite eqb_reflx. cbn. eexists. split; [reflexivity|auto].
Qed.

Lemma sf_lengths_ok x : sf_good x -> sf_same_lengths b SS x = Ok tt.
Proof.
  intros Hg. unfold sf_same_lengths. rewrite (g_len1 _ Hg), (g_len2 _ Hg), Nat.eqb_refl. destruct b; reflexivity.
Qed.

Lemma parts_set cls j d i e : Forall (latch_cnf c) cls -> j < length cls ->
  parts (set_nth cls j (cnf_add_clause (fr cls j) d)) i e <-> parts cls i e \/ (i = j /\ e = d).
Proof.
  intros Hc Hj. unfold parts, fr. rewrite nth_set_nth by auto. destruct (Nat.eqb_spec i j) as [->|N].
  - rewrite in_add_clause. tauto.
  - intuition lia.
Qed.

Lemma parts_snoc cls i e : parts (cls ++ [cnf_new]) i e <-> parts cls i e.
Proof.
  unfold parts, fr. destruct (Nat.lt_ge_cases i (length cls)) as [H|H].
  - rewrite app_nth1 by auto. tauto.
  - rewrite app_nth2 by auto. rewrite (nth_overflow cls) by auto.
    destruct (i - length cls) as [|[|n]]; tauto.
Qed.

Lemma add_two st P f g : tracks st P -> api_cnf f -> cnf_legal f -> api_cnf g -> cnf_legal g ->
  okay (add_cnfs SS st [f; g]) (fun st' => tracks st' (fun d => (P d \/ In d (cnf_clauses f)) \/ In d (cnf_clauses g))).
Proof.
  intros H A1 L1 A2 L2. unfold add_cnfs. cbn [foldM].
  eapply okay_bind; [apply tracks_add; eauto|]. intros st1 H1. cbv beta in H1.
  eapply okay_bind; [apply (tracks_add st1 _ g H1 A2 L2)|]. intros st2 H2. eexists. split; [reflexivity|]. exact H2.
Qed.
Lemma add_three st P f g h : tracks st P -> api_cnf f -> cnf_legal f -> api_cnf g -> cnf_legal g ->
  api_cnf h -> cnf_legal h ->
  okay (add_cnfs SS st [f; g; h]) (fun st' => tracks st' (fun d => ((P d \/ In d (cnf_clauses f)) \/ In d (cnf_clauses g))
    \/ In d (cnf_clauses h))).
Proof.
  intros H A1 L1 A2 L2 A3 L3. unfold add_cnfs. cbn [foldM].
  eapply okay_bind; [apply tracks_add; eauto|]. intros st1 H1. cbv beta in H1.
  eapply okay_bind; [apply (tracks_add st1 _ g H1 A2 L2)|]. intros st2 H2. cbv beta in H2.
  eapply okay_bind; [apply (tracks_add st2 _ h H2 A3 L3)|]. intros st3 H3. eexists. split; [reflexivity|]. exact H3.
Qed.

Lemma sf_ops_ok : ops_ok c flag s (sf_ops b SS s the_cache) sf_good.
Proof.
  pose proof (e_t_api _ _ _ He) as At. pose proof (e_t_legal _ _ _ He) as Lt.
  pose proof (init_api c flag s He) as Ai. pose proof (init_legal c flag s Hn He) as Li.
  pose proof (notp0_api c flag s He) as An.
  pose proof (vars_legal c flag Hf _ (notp0_vars c flag s Hwf Hf He)) as Ln.
  assert (Ln1 : cnf_legal (tagged_cnf M (ic3_not_p0 s))).
  { apply tagged_cnf_legal, (vars_bumpable c flag Hf), (notp0_vars c flag s Hwf Hf He). }
  assert (An1 : api_cnf (tagged_cnf M (ic3_not_p0 s))) by (apply tagged_cnf_api; auto).
  assert (Lii : cnf_legal (cube_to_cnf (get_initial_relation s))) by (apply cube_to_cnf_legal; exact Li).
  assert (Aii : api_cnf (cube_to_cnf (get_initial_relation s))) by apply api_cube_to_cnf.
  split; cbn [sf_ops ox o_clauses o_push_frame o_add_clause o_bad_in_0 o_bad_in_1 o_bad_from_fi o_reach_from_fi
    o_propagate_query o_not_s_and_s_tag o_clause_inductive o_get_fk o_loop_check].
  - intros x Hg. apply Hg.
  - intros x Hg. unfold sf_push_frame. rewrite sf_lengths_ok by auto. cbn [bind the_cache c_initial c_p0 c_transition c_not_p1].
    set (n := length (sf_clauses x)).
    assert (Eb : (if match sf_fi_t x with [] => true | _ :: _ => false end
                  then cube_to_cnf (get_initial_relation s) else ic3_p0 s) = frq n).
    { unfold basef, n. rewrite <- (g_len1 _ Hg). destruct (sf_fi_t x); reflexivity. }
    rewrite Eb.
    assert (Ab : api_cnf (frq n)) by (apply (basef_api c flag s He)).
    assert (Lb : cnf_legal (frq n)) by (apply (vars_legal c flag Hf), (basef_vars c flag s Hwf Hf He)).
    eapply okay_bind; [apply (add_two _ _ (transition s) (frq n) (tracks_new HintNone)); auto|]. intros st1 T1.
    eapply okay_bind; [apply (add_three _ _ (transition s) (tagged_cnf M (ic3_not_p0 s)) (frq n) (tracks_new HintNone)); auto|].
    intros st2 T2. eexists. split; [reflexivity|]. cbn [sf_clauses]. split; auto.
    assert (Hnew : forall e, parts (sf_clauses x) n e <-> In e (cnf_clauses (frq n)) \/ In e (cnf_clauses (transition s))).
    { intros e. unfold parts, fr, n. rewrite nth_overflow by auto. simpl. tauto. }
    split; cbn [sf_clauses sf_fi_t sf_fi_t_notp sf_initial]; try apply Hg.
    + apply Forall_app. split; [apply Hg|]. constructor; [|constructor]. split; [apply api_cnf_new|apply cnf_new_vars].
    + rewrite !app_length, (g_len1 _ Hg). reflexivity.
    + rewrite !app_length, (g_len2 _ Hg). reflexivity.
    + intros i st Hi. destruct (Nat.lt_ge_cases i n) as [Hl|Hl].
      * rewrite nth_error_app1 in Hi by (rewrite (g_len1 _ Hg); auto).
        eapply tracks_iff; [|apply (g_fi _ Hg i st Hi)]. intros d. symmetry. apply parts_snoc.
      * rewrite nth_error_app2 in Hi by (rewrite (g_len1 _ Hg); auto). rewrite (g_len1 _ Hg) in Hi. fold n in Hi.
        destruct (i - n) as [|m] eqn:Em; [|destruct m; discriminate]. cbn in Hi. injection Hi as <-.
        assert (i = n) as -> by lia. eapply tracks_iff; [|exact T1]. intros d. cbv beta. 
        rewrite parts_snoc, Hnew. tauto.
    + intros i st Hi. unfold notp_parts. destruct (Nat.lt_ge_cases i n) as [Hl|Hl].
      * rewrite nth_error_app1 in Hi by (rewrite (g_len2 _ Hg); auto).
        eapply tracks_iff; [|apply (g_fin _ Hg i st Hi)]. intros d. rewrite parts_snoc. reflexivity.
      * rewrite nth_error_app2 in Hi by (rewrite (g_len2 _ Hg); auto). rewrite (g_len2 _ Hg) in Hi. fold n in Hi.
        destruct (i - n) as [|m] eqn:Em; [|destruct m; discriminate]. cbn in Hi. injection Hi as <-.
        assert (i = n) as -> by lia. eapply tracks_iff; [|exact T2]. intros d. cbv beta. 
        rewrite parts_snoc, Hnew. tauto.
  - intros x j d Hg Hj (Hd1 & Hd2). unfold sf_add_clause. rewrite sf_lengths_ok by auto. cbn [bind].
    rewrite (indexn_nth _ _ cnf_new) by auto. cbn [bind].
    destruct (indexn_error (sf_fi_t x) j) as (u1 & U1 & U2); [rewrite (g_len1 _ Hg); auto|]. rewrite U2. cbn [bind].
    assert (Ac : api_cnf (clause_to_cnf d)) by (apply api_clause_to_cnf; auto).
    assert (Lc : cnf_legal (clause_to_cnf d)) by (apply clause_to_cnf_legal, (latch_clause_legal c flag Hf); auto).
    eapply okay_bind; [apply (tracks_add _ _ _ (g_fi _ Hg j u1 U1) Ac Lc)|]. intros st1 T1. cbv beta in T1.
    destruct (indexn_error (sf_fi_t_notp x) j) as (u2 & U3 & U4); [rewrite (g_len2 _ Hg); auto|]. rewrite U4. cbn [bind].
    eapply okay_bind; [apply (tracks_add _ _ _ (g_fin _ Hg j u2 U3) Ac Lc)|]. intros st2 T2. cbv beta in T2.
    eexists. split; [reflexivity|]. cbn [sf_clauses]. split; auto.
    assert (Hin : forall e, In e (cnf_clauses (clause_to_cnf d)) <-> e = d).
    { intros e. unfold clause_to_cnf. rewrite in_add_clause. simpl. intuition. }
    fold (fr (sf_clauses x) j).
    split; cbn [sf_clauses sf_fi_t sf_fi_t_notp sf_initial]; try apply Hg.
    + apply Forall_set_nth; [apply Hg|]. destruct (fr_latch (sf_clauses x) j (g_latch _ Hg)) as (A & V).
      split; [apply api_cnf_add; auto|apply cnf_add_vars; auto].
    + rewrite !set_nth_length. apply Hg.
    + rewrite !set_nth_length. apply Hg.
    + intros i st. rewrite nth_error_set_nth by (rewrite (g_len1 _ Hg); auto).
      destruct (Nat.eqb_spec i j) as [->|N].
      * intros [= <-]. eapply tracks_iff; [|exact T1]. intros e. cbv beta.
        rewrite parts_set by (auto; apply Hg). rewrite Hin. tauto.
      * intros Hi. eapply tracks_iff; [|apply (g_fi _ Hg i st Hi)]. intros e.
        rewrite parts_set by (auto; apply Hg). tauto.
    + intros i st. rewrite nth_error_set_nth by (rewrite (g_len2 _ Hg); auto).
      destruct (Nat.eqb_spec i j) as [->|N].
      * intros [= <-]. eapply tracks_iff; [|exact T2]. intros e. cbv beta. unfold notp_parts.
        rewrite parts_set by (auto; apply Hg). rewrite Hin. tauto.
      * intros Hi. eapply tracks_iff; [|apply (g_fin _ Hg i st Hi)]. intros e. unfold notp_parts.
        rewrite parts_set by (auto; apply Hg). tauto.
  - intros x Hg. unfold sf_bad_in_0. cbn [the_cache c_initial c_not_p0].
    set (f := cnf_append _ _).
    assert (Hf1 : api_cnf f) by (unfold f; auto 6 with api).
    assert (Hf2 : cnf_legal f) by (unfold f; auto 6 with api).
    assert (Hft : forall a, cnf_true a f <-> initial_values c a /\ cnf_true a (ic3_not_p0 s)).
    { intros a. unfold f. rewrite !cnf_append_true, (init_raw c flag s He).
      pose proof (cnf_new_true a). tauto. }
    eapply okay_impl; [apply (sf_custom_ok x f Hf1 Hf2)|]. intros (r & x') (Eg & Ex & Hr). cbn [fst snd] in *.
    split; auto. split; auto. destruct r as [|asg].
    + intros w Hw Hi Hb. apply (Hr w). apply Hft. split; auto. apply (notp0_complete c flag s He); auto.
    + destruct Hr as (a & Hr). apply Hft in Hr. destruct Hr as (Hi & Hb).
      apply (notp0_bad c flag s Hwf Hf He) in Hb. destruct Hb as (w & W1 & W2 & W3). exists w.
      split; auto. split; auto. eapply initial_same; [|apply Hi]. apply same_latches_sym; auto.
  - intros x Hg. unfold sf_bad_in_1. cbn [the_cache c_initial c_transition c_not_p1].
    set (f := cnf_append _ _).
    assert (Hf1 : api_cnf f) by (unfold f; auto 7 with api).
    assert (Hf2 : cnf_legal f) by (unfold f; auto 7 with api).
    assert (Hft : forall a, cnf_true a f <-> initial_values c a /\ cnf_true a (transition s) /\
       cnf_true a (tagged_cnf M (ic3_not_p0 s))).
    { intros a. unfold f. rewrite !cnf_append_true, (init_raw c flag s He).
      pose proof (cnf_new_true a). tauto. }
    eapply okay_impl; [apply (sf_custom_ok x f Hf1 Hf2)|]. intros (r & x') (Eg & Ex & Hr). cbn [fst snd] in *.
    split; auto. split; auto.
    destruct extra_bad as (X1 & X2). destruct r as [|asg].
    + intros w w' Hst Hi Hb. destruct (X2 w w' Hst Hb) as (w2 & Hs2 & HX).
      apply (Hr (pair c w w2)). apply Hft. split; [|split; auto].
      * eapply initial_same; [|exact Hi]. intros v Hv. symmetry. apply pair_lo. apply latch_bounds in Hv. lia.
      * apply (trans_pair c flag s Hwf He). split; auto. apply Hst.
    + destruct Hr as (a & Hr). apply Hft in Hr. destruct Hr as (Hi & Ht & Hb).
      exists (ev c a), (shift M a).
      split; [eapply trans_steps; eauto|]. split.
      * eapply initial_same; [|exact Hi]. apply same_latches_sym, ev_latches.
      * apply X1 in Hb. exact Hb.
  - intros x i Hg Hi. unfold sf_solve_fi_t_notp.
    destruct (indexn_error (sf_fi_t_notp x) i) as (st & E1 & E2); [rewrite (g_len2 _ Hg); auto|].
    rewrite E2. cbn [bind].
    eapply okay_bind; [eapply (tracks_answers st (notp_parts (sf_clauses x) i) (sf_clauses x) i None None
      (fun a => cnf_true a (tagged_cnf M (ic3_not_p0 s))) (fun w w' => bad_state c flag w')); auto with api|].
    + apply (g_fin _ Hg i st E1).
    + apply (g_latch _ Hg).
    + apply extra_bad.
    + intros d Hd. left. right. right. auto.
    + intros a. rewrite <- parts_true_iff, temp_clauses_true. unfold notp_parts, cnf_true, clauses_true.
      split; intros (H1 & H2); (split; [intros d Hd|]).
      * apply H1. auto.
      * intros d Hd. apply H1. auto.
      * destruct Hd; auto.
      * auto.
    + intros (r & st') (H1 & H2). cbn [fst snd] in *. eexists. split; [reflexivity|]. cbn [fst snd sf_clauses].
      split; auto. split; cbn [sf_clauses sf_fi_t sf_fi_t_notp sf_initial]; try apply Hg.
      * rewrite set_nth_length. apply Hg.
      * intros j sj. rewrite nth_error_set_nth by (rewrite (g_len2 _ Hg); auto).
        destruct (Nat.eqb_spec j i) as [->|]; [intros [= <-]; auto|apply (g_fin _ Hg)].
  - intros x i q Hg Hi A V. apply sf_reach_ok; auto.
  - intros x i d Hg Hi (A & V).
    eapply okay_impl; [apply (sf_reach_ok x i (clause_not d)); auto using clause_not_vars with api|].
    intros (r & x') (H1 & H2 & H3). cbn [fst snd] in *. split; auto. split; auto.
    eapply answers_impl; [|exact H3]. intros w w'. cbv beta. rewrite clause_not_true. tauto.
  - intros x i q Hg Hi A V.
    eapply okay_impl; [apply (sf_pair_ok x i q (cube_not q)); auto; split; auto using cube_not_vars with api|].
    intros (r & x') (H1 & H2 & H3). cbn [fst snd] in *. split; auto. split; auto. rewrite H3.
    split; intros (w & w' & X1 & X2); exists w, w'; split; auto; rewrite cube_not_true in *; tauto.
  - intros x d i Hg Hi (A & V) Hcons. unfold sf_clause_inductive.
    assert (V' : cube_vars (is_latch c) (clause_not d)) by (apply clause_not_vars; auto).
    assert (A' : api_cube (clause_not d)) by auto with api.
    pose proof (cube_initial_correct b c flag s (clause_not d) Hsys Hcons) as Hci.
    destruct (is_cube_initial s (clause_not d)) eqn:Ei.
    + eapply okay_bind; [apply (sf_debug_ok x (clause_not d) true); auto; tauto|].
      intros x' (H1 & H2). eexists. split; [reflexivity|]. cbn [fst snd]. split; auto. split; auto.
      split; [discriminate|]. intros (X1 & _). destruct (proj1 Hci eq_refl) as (w & W1 & W2).
      apply clause_not_true in W2. elim W2. auto.
    + eapply okay_bind; [apply (sf_debug_ok x (clause_not d) false); auto; tauto|].
      intros x' (H1 & H2). 
      eapply okay_bind; [apply (sf_pair_ok x' i (clause_not d) d); auto; [rewrite H2; auto|split; auto]|].
      intros (r & x2) (G1 & G2 & G3). cbn [fst snd] in *. eexists. split; [reflexivity|]. cbn [fst snd].
      rewrite H2 in *. split; auto. split; auto. split.
      * intros Hr. apply negb_true_iff in Hr. subst r. split.
        -- intros w Hw. destruct (clause_true_dec w d); auto. 
           assert (Y : false = true); [|discriminate]. apply Hci. exists w. split; auto. apply clause_not_true; auto.
        -- intros w w' Hst Hw Hd. destruct (clause_true_dec w' d) as [|Hnd]; auto.
           assert (Y : false = true); [|discriminate]. apply G3. exists w, w'.
           split; auto. split; auto. split; auto. apply clause_not_true; auto.
      * intros (X1 & X2). apply negb_true_iff, not_true_iff_false. intros Y. apply G3 in Y.
        destruct Y as (w & w' & Y1 & Y2 & Y3 & Y4). apply clause_not_true in Y4. apply Y4. eauto.
  - intros x i Hg Hi. unfold sf_get_fk. rewrite (indexn_nth _ _ cnf_new) by auto. cbn [bind the_cache c_initial c_p0].
    destruct (i =? 0); reflexivity.
  - intros x Hg Hl H0. unfold sf_loop_check. rewrite (indexn_nth _ _ cnf_new) by auto. cbn [bind].
    fold (fr (sf_clauses x) 0). rewrite H0. destruct b; reflexivity.
Qed.

Lemma sf_new_ok : okay (sf_new SS the_cache) (fun x => sf_good x /\ sf_clauses x = []).
Proof.
  unfold sf_new. cbn [the_cache c_initial].
  eapply okay_bind; [apply (tracks_add _ _ _ (tracks_new HintNone) (api_cube_to_cnf _))|].
  - apply cube_to_cnf_legal. apply (init_legal c flag s Hn He).
  - intros st T1. cbv beta in T1. eexists. split; [reflexivity|]. cbn [sf_clauses]. split; auto.
    split; cbn [sf_clauses sf_fi_t sf_fi_t_notp sf_initial]; auto.
    + eapply tracks_iff; [|exact T1]. intros d. cbv beta. tauto.
    + intros [|i] st'; discriminate.
    + intros [|i] st'; discriminate.
Qed.

End SF.
End Instances.

(* ------------------------------------------------------------------- consequences *)

Section Results.
Variables (c : circuit) (flag : bool) (s : FSTS).
Hypothesis Hf : numbering_fits c flag.
Hypothesis Hwf : circuit_wf c.
Hypothesis He : encodes c flag s.
Notation M := (c_max c).

Hypothesis Hp0 : forall w, wires_ok c w -> initial_values c w -> ~ is_bad c flag w.

Lemma proof_safe inv : proof_ok c flag s inv -> safe c flag.
Proof.
  intros (f & -> & _ & Hi & Hs) w (Hw & H0 & Hst).
  assert (G : forall t, cnf_true (w t) f /\ ~ is_bad c flag (w t)); [|intros t; apply G].
  induction t as [|t (IH1 & IH2)]; [split; auto|].
  destruct (Hs (w t) (w (S t))) as (X1 & X2); [split; auto|auto|auto|]. split; auto.
  intros Hb. apply X2. exists (w (S t)). split; auto. split; auto. intros v _. reflexivity.
Qed.

Lemma p0_not_bad w : cnf_true w (ic3_p0 s) -> ~ is_bad c flag w.
Proof.
  unfold ic3_p0. rewrite cnf_append_true, cube_to_cnf_true. unfold get_safety_property.
  rewrite clause_not_true. unfold get_unsafety_property. rewrite (unsafe_true c flag s He). tauto.
Qed.

Lemma proof_inductive inv : proof_ok c flag s inv -> inductive_safe c flag (fun w => cnf_true w inv).
Proof.
  intros (f & -> & (Af & Vf) & Hi & Hs). split; [|split].
  - intros w Hw H0. apply cnf_append_true. split; auto. apply (p0_complete c flag s He); auto.
  - intros w w' Hw Hw' Hst Hinv. apply cnf_append_true in Hinv. destruct Hinv as (H1 & H2).
    apply p0_not_bad in H2.
    destruct (Hs w w') as (X1 & X2); [split; auto|auto|auto|]. apply cnf_append_true. split; auto.
    apply (p0_complete c flag s He); auto. intros Hb'. apply X2. exists w'. split; auto. split; auto.
    intros v _. reflexivity.
  - intros w Hw Hinv. apply cnf_append_true in Hinv. apply p0_not_bad, Hinv.
Qed.

Lemma proof_checks inv : proof_ok c flag s inv -> forall b T1 T2 T3 o1 o2,
  solver_correct_below 2147483647 T1 -> solver_correct_below 2147483647 T2 -> solver_correct_below 2147483647 T3 ->
  order_ok o1 -> order_ok o2 ->
  check_invariant b T1 T2 T3 o1 o2 s inv = Ok tt.
Proof.
  intros (f & -> & (Af & Vf) & Hi & Hs) b T1 T2 T3 o1 o2 H1 H2 H3 Ho1 Ho2.
  pose proof (latch_vars_le c _ Vf) as Vf'.
  assert (V : cnf_vars (fun v => 1 <= v <= M)%N (cnf_append f (ic3_p0 s))).
  { apply cnf_append_vars; auto. apply (p0_vars c flag s Hwf Hf He). }
  assert (P0 : forall a, cnf_true a (state_to_safety_translation s) -> ~ bad_state c flag a -> cnf_true a (ic3_p0 s)).
  { intros a HS Hb. unfold ic3_p0. apply cnf_append_true. split; auto. apply cube_to_cnf_true.
    unfold get_safety_property. apply clause_not_true. intros Hu. apply Hb.
    apply (notp0_bad c flag s Hwf Hf He). unfold ic3_not_p0. apply cnf_append_true. split; auto.
    apply clause_to_cnf_true. auto. }
  pose proof (proj1 Hf) as Hsz.
  apply (check_invariant_below c flag s Hwf Hf He 2147483647); auto.
  - apply api_cnf_append; auto. apply (p0_api c flag s He).
  - apply (vars_legal c flag Hf); auto.
  - right. apply (vars_bumpable c flag Hf); auto.
  - lia.
  - eapply cnf_vars_impl; [|exact V]. intros v Hx. cbv beta in Hx. lia.
  - eapply cnf_vars_impl; [|exact V]. intros v Hx. cbv beta in Hx. lia.
  - split; [|split].
    + intros a H0 HS. apply cnf_append_true. split; auto. apply P0; auto.
      intros (w & W1 & W2 & W3). apply (Hp0 w); auto. eapply initial_same; [|exact H0]. auto using same_latches_sym.
    + intros a HT Hinv HS HS'. apply cnf_append_true in Hinv. destruct Hinv as (I1 & I2).
      destruct (Hs (ev c a) (shift M a)) as (X1 & X2).
      * eapply trans_steps; eauto.
      * eapply latch_cnf_same; [exact Vf| |exact I1]. apply same_latches_sym, ev_latches.
      * apply (p0_safe c flag s Hwf Hf He); auto.
      * apply cnf_append_true. split; auto.
    + intros a Hinv HS Hu. apply cnf_append_true in Hinv. destruct Hinv as (I1 & I2).
      unfold ic3_p0 in I2. apply cnf_append_true in I2. destruct I2 as (_ & I2).
      apply cube_to_cnf_true in I2. unfold get_safety_property in I2. apply clause_not_true in I2. auto.
Qed.
End Results.

(** What a prover promises, whatever the build: the shape shared by C35 - C43. *)
Definition prover_ok (b : build) (c : circuit) (flag : bool) (s : FSTS) (fuel : nat) (m : res ProofResult) : Prop :=
  (forall inv, m = Ok (Proof inv) -> safe c flag /\ inductive_safe c flag (fun w => cnf_true w inv) /\
    forall b T1 T2 T3 o1 o2,
    solver_correct_below 2147483647 T1 -> solver_correct_below 2147483647 T2 ->
    solver_correct_below 2147483647 T3 -> order_ok o1 -> order_ok o2 ->
    check_invariant b T1 T2 T3 o1 o2 s inv = Ok tt) /\
  (forall d, m = Ok (ProofCTX d) -> unsafe c flag /\ safe_before c flag (N.to_nat d) /\
    ((d <= 1)%N /\ shortest c flag (N.to_nat d) \/ (1 <= d)%N /\ safe_before c flag (S (N.to_nat d)))) /\
  (enough_fuel c fuel -> m <> OutOfFuel) /\
  (depth_fits c flag -> m <> Panic).

Lemma depth_not_overlong c flag : circuit_wf c -> depth_fits c flag -> ~ overlong c flag.
Proof.
  intros Hwf Hd (_ & (w & t & W1 & W2) & k & K1 & K2). unfold u32_mod in K1.
  destruct Hd as [(ls & Hc & Hl)|[Hd|(w' & t' & D1 & D2 & D3)]]; [|elim (Hd w W1 t W2)|].
  - destruct (short_counterexample c flag ls w t Hwf Hc W1 W2) as (w' & t' & D1 & D2 & D3).
    apply (K2 w' D1 t'); auto.
    assert (X : (N.of_nat (2 ^ length ls) <= 4294967296)%N); [|lia].
    rewrite Nat2N.inj_pow. change 4294967296%N with (N.of_nat 2 ^ 32)%N.
    apply N.pow_le_mono_r; [discriminate|]. exact Hl.
  - apply (K2 w' D1 t'); auto. lia.
Qed.

Lemma few_latches_fit c flag : (lenN (c_latches c) <= 32)%N -> depth_fits c flag.
Proof.
  intros H. left. exists (numbers (c_inputs c + 1) (lenN (c_latches c))). split; [apply latches_cover|].
  unfold lenN at 1. rewrite numbers_length, N2Nat.id. auto.
Qed.

Lemma post_prover b c flag s fuel m : numbering_fits c flag -> circuit_wf c -> encodes c flag s ->
  post m (overlong c flag) (fuel <= states c * (states c + 3))
    (fun r => result_ok c flag s r /\
       (forall inv, r = Proof inv -> forall w, wires_ok c w -> initial_values c w -> ~ is_bad c flag w)) ->
  prover_ok b c flag s fuel m.
Proof.
  intros Hf Hwf He H. split; [|split; [|split]].
  - intros inv ->. destruct H as (Hr & Hp0). specialize (Hp0 inv eq_refl). cbn in Hr.
    split; [apply (proof_safe c flag s Hp0 inv Hr)|]. split; [apply (proof_inductive c flag s He Hp0 inv Hr)|].
    intros. apply (proof_checks c flag s Hf Hwf He Hp0 inv Hr); auto.
  - intros d ->. destruct H as (Hr & _). exact Hr.
  - intros Hfu ->. cbn in H. unfold enough_fuel in Hfu. unfold states in H. lia.
  - intros Hd ->. elim (depth_not_overlong c flag Hwf Hd H).
Qed.

Lemma ic3_stateless_ok b c flag s R T fuel : system_of b c flag s -> numbering_fits c flag ->
  random_ok R -> solver_correct_below 2147483647 T -> solver_total_below 2147483647 T ->
  prover_ok b c flag s fuel (stateless_plain b R T fuel s).
Proof.
  intros Hs Hf HR HT HTd. destruct (system_encodes _ _ _ _ Hs (or_intror Hf)) as (Hwf & Hn & He).
  apply post_prover; auto. unfold stateless_plain. rewrite (cache_ok c flag s b Hf Hwf He). cbn [bind].
  eapply post_bind; [apply (prove_ok c flag s Hwf Hn He b R _ _ HR (sl_ops_ok c flag s b Hf Hwf He T HT HTd))|].
  - constructor.
  - apply frames_ok_nil.
  - reflexivity.
  - intros (r & st) (H1 & _ & _ & _ & _ & H2). exact (conj H1 H2).
Qed.

Lemma ic3_stateful_ok b c flag s R SS fuel : system_of b c flag s -> numbering_fits c flag ->
  random_ok R -> stateful_correct SS ->
  prover_ok b c flag s fuel (stateful_plain b R SS fuel s).
Proof.
  intros Hs Hf HR HS. destruct (system_encodes _ _ _ _ Hs (or_intror Hf)) as (Hwf & Hn & He).
  apply post_prover; auto. unfold stateful_plain. rewrite (cache_ok c flag s b Hf Hwf He). cbn [bind].
  eapply bind_okay; [apply (sf_new_ok c flag s Hn He SS HS)|]. intros x (Hx & Ex).
  eapply post_bind; [apply (prove_ok c flag s Hwf Hn He b R _ _ HR (sf_ops_ok c flag s b Hs Hf Hwf Hn He SS HS))|].
  - exact Hx.
  - cbn [st_ops]. cbn in Ex. cbn. rewrite Ex. apply frames_ok_nil.
  - intros _. exact Ex.
  - intros (r & st) (H1 & _ & _ & _ & _ & H2). exact (conj H1 H2).
Qed.

Lemma prover_total b c flag s fuel m : prover_ok b c flag s fuel m -> enough_fuel c fuel -> depth_fits c flag ->
  exists r, m = Ok r /\ (verdict_proof r <-> safe c flag).
Proof.
  intros (P1 & P2 & P3 & P4) Hfu Hd. destruct m as [r| |]; [|elim (P4 Hd eq_refl)|elim (P3 Hfu eq_refl)].
  exists r. split; auto. destruct r as [inv|d].
  - split; [intros _; apply (P1 inv eq_refl)|intros _; exists inv; auto].
  - split; [intros (inv & E); discriminate|]. intros Hs. destruct (P2 d eq_refl) as ((w & t & W1 & W2) & _).
    elim (Hs w W1 t W2).
Qed.

Lemma stateless_proof b c flag s R T fuel inv : system_of b c flag s -> numbering_fits c flag ->
  random_ok R -> solver_correct_below 2147483647 T -> solver_total_below 2147483647 T ->
  stateless_plain b R T fuel s = Ok (Proof inv) ->
  safe c flag /\ inductive_safe c flag (fun w => cnf_true w inv) /\
  forall b' T1 T2 T3 o1 o2,
    solver_correct_below 2147483647 T1 -> solver_correct_below 2147483647 T2 ->
    solver_correct_below 2147483647 T3 -> order_ok o1 -> order_ok o2 ->
    check_invariant b' T1 T2 T3 o1 o2 s inv = Ok tt.
Proof.
  intros H1 H2 H3 HT HTd E.
  apply (proj1 (ic3_stateless_ok b c flag s R T fuel H1 H2 H3 HT HTd)). exact E.
Qed.

Lemma stateless_ctx b c flag s R T fuel d : system_of b c flag s -> numbering_fits c flag ->
  random_ok R -> solver_correct_below 2147483647 T -> solver_total_below 2147483647 T ->
  stateless_plain b R T fuel s = Ok (ProofCTX d) ->
  unsafe c flag /\ safe_before c flag (N.to_nat d).
Proof.
  intros H1 H2 H3 HT HTd E.
  apply (proj1 (proj2 (ic3_stateless_ok b c flag s R T fuel H1 H2 H3 HT HTd))) in E. tauto.
Qed.

(** How the depth of a counterexample relates to the length of a shortest one. *)
Lemma depth_of_shortest c flag d n : unsafe c flag /\ safe_before c flag (N.to_nat d) /\
    ((d <= 1)%N /\ shortest c flag (N.to_nat d) \/ (1 <= d)%N /\ safe_before c flag (S (N.to_nat d))) ->
  shortest c flag n -> (n <= 1 -> d = N.of_nat n) /\ (1 < n -> (1 <= d < N.of_nat n)%N).
Proof.
  intros (_ & Hd & H) (Hn & w & Hr & Hw).
  assert (Hle : N.to_nat d <= n).
  { destruct (Nat.le_gt_cases (N.to_nat d) n) as [|X]; auto. elim (Hd w Hr n X Hw). }
  destruct H as [(H1 & _ & w' & Hr' & Hw')|(H1 & H)].
  - assert (n <= N.to_nat d); [|split; lia].
    destruct (Nat.le_gt_cases n (N.to_nat d)) as [|X]; auto. elim (Hn w' Hr' _ X Hw').
  - assert (N.to_nat d < n); [|split; lia].
    destruct (Nat.lt_ge_cases (N.to_nat d) n) as [|X]; auto. elim (H w Hr n); auto. lia.
Qed.

Lemma stateless_depth b c flag s R T fuel d n : system_of b c flag s -> numbering_fits c flag ->
  random_ok R -> solver_correct_below 2147483647 T -> solver_total_below 2147483647 T ->
  shortest c flag n -> stateless_plain b R T fuel s = Ok (ProofCTX d) ->
  (n <= 1 -> d = N.of_nat n) /\ (1 < n -> (1 <= d < N.of_nat n)%N).
Proof.
  intros H1 H2 H3 HT HTd Hs E.
  apply (proj1 (proj2 (ic3_stateless_ok b c flag s R T fuel H1 H2 H3 HT HTd))) in E.
  eapply depth_of_shortest; eauto.
Qed.

Lemma stateless_fuel b c flag s R T fuel : system_of b c flag s -> numbering_fits c flag ->
  random_ok R -> solver_correct_below 2147483647 T -> solver_total_below 2147483647 T -> enough_fuel c fuel ->
  stateless_plain b R T fuel s <> OutOfFuel.
Proof.
  intros H1 H2 H3 HT HTd.
  apply (proj1 (proj2 (proj2 (ic3_stateless_ok b c flag s R T fuel H1 H2 H3 HT HTd)))).
Qed.

Lemma stateless_total b c flag s R T fuel : system_of b c flag s -> numbering_fits c flag ->
  random_ok R -> solver_correct_below 2147483647 T -> solver_total_below 2147483647 T -> enough_fuel c fuel -> depth_fits c flag ->
  exists r, stateless_plain b R T fuel s = Ok r /\ (verdict_proof r <-> safe c flag).
Proof.
  intros H1 H2 H3 HT HTd Hfu Hd. apply prover_total with (b := b) (s := s) (fuel := fuel); auto.
  apply ic3_stateless_ok; auto.
Qed.

Lemma stateful_proof b c flag s R SS fuel inv : system_of b c flag s -> numbering_fits c flag ->
  random_ok R -> stateful_correct SS ->
  stateful_plain b R SS fuel s = Ok (Proof inv) ->
  safe c flag /\ inductive_safe c flag (fun w => cnf_true w inv) /\
  forall b' T1 T2 T3 o1 o2,
    solver_correct_below 2147483647 T1 -> solver_correct_below 2147483647 T2 ->
    solver_correct_below 2147483647 T3 -> order_ok o1 -> order_ok o2 ->
    check_invariant b' T1 T2 T3 o1 o2 s inv = Ok tt.
Proof.
  intros H1 H2 H3 HS E.
  apply (proj1 (ic3_stateful_ok b c flag s R SS fuel H1 H2 H3 HS)). exact E.
Qed.

Lemma stateful_ctx b c flag s R SS fuel d : system_of b c flag s -> numbering_fits c flag ->
  random_ok R -> stateful_correct SS ->
  stateful_plain b R SS fuel s = Ok (ProofCTX d) ->
  unsafe c flag /\ safe_before c flag (N.to_nat d).
Proof.
  intros H1 H2 H3 HS E.
  apply (proj1 (proj2 (ic3_stateful_ok b c flag s R SS fuel H1 H2 H3 HS))) in E. tauto.
Qed.

Lemma stateful_depth b c flag s R SS fuel d n : system_of b c flag s -> numbering_fits c flag ->
  random_ok R -> stateful_correct SS -> shortest c flag n ->
  stateful_plain b R SS fuel s = Ok (ProofCTX d) ->
  (n <= 1 -> d = N.of_nat n) /\ (1 < n -> (1 <= d < N.of_nat n)%N).
Proof.
  intros H1 H2 H3 HS Hn E.
  apply (proj1 (proj2 (ic3_stateful_ok b c flag s R SS fuel H1 H2 H3 HS))) in E.
  eapply depth_of_shortest; eauto.
Qed.

Lemma stateful_fuel b c flag s R SS fuel : system_of b c flag s -> numbering_fits c flag ->
  random_ok R -> stateful_correct SS -> enough_fuel c fuel ->
  stateful_plain b R SS fuel s <> OutOfFuel.
Proof.
  intros H1 H2 H3 HS.
  apply (proj1 (proj2 (proj2 (ic3_stateful_ok b c flag s R SS fuel H1 H2 H3 HS)))).
Qed.

Lemma stateful_total b c flag s R SS fuel : system_of b c flag s -> numbering_fits c flag ->
  random_ok R -> stateful_correct SS -> enough_fuel c fuel -> depth_fits c flag ->
  exists r, stateful_plain b R SS fuel s = Ok r /\ (verdict_proof r <-> safe c flag).
Proof.
  intros H1 H2 H3 HS Hfu Hd. apply prover_total with (b := b) (s := s) (fuel := fuel); auto.
  apply ic3_stateful_ok; auto.
Qed.

Lemma no_random_ok : random_ok Brute.no_random.
Proof. intros n A l. apply Permutation_refl. Qed.
