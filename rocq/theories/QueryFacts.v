(** The formulas of the IC3 / PDR queries in terms of steps of the circuit. *)
From Coq Require Import Permutation.
From Verif Require Import Base Formulas FormulaLogic Aig Fsts Solvers Ic3 Spec SpecAig SpecFsts Tac
  FormulasFacts LogicFacts AigFacts SimFacts AigThms FstsFacts FstsSem TagFacts FstsThms BmcThms BruteFacts
  StateFacts Ic3Core.
Open Scope N_scope.

Lemma temp_clauses_true a cube clause : clauses_true a (temp_clauses cube clause) <->
  match cube with Some q => cube_true a q | None => True end /\
  match clause with Some d => clause_true a d | None => True end.
Proof.
  unfold temp_clauses, clauses_true. setoid_rewrite in_app_iff. split.
  - intros H. split.
    + destruct cube as [q|]; auto. intros l Hl.
      destruct (H (mkClause [l])) as (l' & [<-|[]] & Ht); auto. left. apply in_map_iff. eauto.
    + destruct clause as [d|]; auto. apply H. simpl; auto.
  - intros (H1 & H2) d [Hd|Hd].
    + destruct cube as [q|]; [|destruct Hd]. apply in_map_iff in Hd. destruct Hd as (l & <- & Hl).
      exists l. simpl. auto.
    + destruct clause as [e|]; [|destruct Hd]. destruct Hd as [<-|[]]. auto.
Qed.

Lemma clauses_true_app a cs ds : clauses_true a (cs ++ ds) <-> clauses_true a cs /\ clauses_true a ds.
Proof.
  unfold clauses_true. setoid_rewrite in_app_iff. split; [auto|]. intros (H1 & H2) d [H|H]; auto.
Qed.

Lemma clauses_true_set a cs ds : (forall d, In d cs <-> In d ds) -> clauses_true a cs <-> clauses_true a ds.
Proof. intros H. unfold clauses_true. split; intros H' d Hd; apply H', H; auto. Qed.

Section Raw.
Variables (c : circuit) (flag : bool) (s : FSTS).
Hypothesis Hwf : circuit_wf c.
Hypothesis Hf : numbering_fits c flag.
Hypothesis He : encodes c flag s.
Notation M := (c_max c).
Let Hn : numbered c flag := numbering_numbered c flag Hf.

Lemma two_frames : 2 * M <= 2147483647. Proof. apply Hf. Qed.

Lemma latch_bounds v : is_latch c v -> 1 <= v <= M.
Proof. intros H. pose proof (latch_le_max _ _ H). apply is_latch_iff in H. lia. Qed.

Lemma ev_latches a : same_latches c (ev c a) a.
Proof. intros v Hv. apply ev_src. auto. Qed.

(* ----------------------------------------------------------------------- formulas *)

Definition basef (i : nat) : CNF :=
  if Nat.eqb i 0 then cube_to_cnf (get_initial_relation s) else ic3_p0 s.

Lemma p0_api : api_cnf (ic3_p0 s).
Proof.
  unfold ic3_p0, get_state_to_safety_translation. pose proof (e_s_api _ _ _ He).
  apply api_cnf_append; auto. apply api_cube_to_cnf.
Qed.
Lemma p0_vars : cnf_vars (fun v => 1 <= v <= M) (ic3_p0 s).
Proof.
  unfold ic3_p0. apply cnf_append_vars; [apply (e_s_vars _ _ _ He)|].
  apply cube_to_cnf_vars. unfold get_safety_property. apply clause_not_vars. apply (unsafe_vars c flag s Hwf Hn He).
Qed.
Lemma notp0_api : api_cnf (ic3_not_p0 s).
Proof.
  unfold ic3_not_p0, get_state_to_safety_translation. pose proof (e_s_api _ _ _ He).
  pose proof (unsafe_api c flag s He). unfold get_unsafety_property. auto with api.
Qed.
Lemma notp0_vars : cnf_vars (fun v => 1 <= v <= M) (ic3_not_p0 s).
Proof.
  unfold ic3_not_p0. apply cnf_append_vars; [apply (e_s_vars _ _ _ He)|].
  apply clause_to_cnf_vars. apply (unsafe_vars c flag s Hwf Hn He).
Qed.

Lemma vars_bumpable f : cnf_vars (fun v => 1 <= v <= M) f -> cnf_vars (bumpable M) f.
Proof. apply cnf_vars_impl. intros v Hv. unfold bumpable. pose proof two_frames. lia. Qed.
Lemma vars_legal f : cnf_vars (fun v => 1 <= v <= M) f -> cnf_legal f.
Proof.
  intros H. apply cnf_vars_legal. eapply cnf_vars_impl; [|apply H]. intros v Hv. cbv beta in Hv. unfold bumpable.
  pose proof two_frames. lia.
Qed.
Lemma latch_vars_le f : cnf_vars (is_latch c) f -> cnf_vars (fun v => 1 <= v <= M) f.
Proof. apply cnf_vars_impl. apply latch_bounds. Qed.

Lemma latch_cnf_legal f : latch_cnf c f -> cnf_legal f.
Proof. intros (_ & V). apply vars_legal, latch_vars_le, V. Qed.
Lemma latch_clause_legal d : clause_vars (is_latch c) d -> clause_legal d.
Proof.
  intros V. apply Forall_forall. intros l Hl. apply lit_legal_var. specialize (V l Hl).
  apply latch_bounds in V. pose proof two_frames. lia.
Qed.
Lemma latch_cube_legal q : cube_vars (is_latch c) q -> cube_legal q.
Proof.
  intros V. apply Forall_forall. intros l Hl. apply lit_legal_var. specialize (V l Hl).
  apply latch_bounds in V. pose proof two_frames. lia.
Qed.

Lemma basef_api i : api_cnf (basef i).
Proof. unfold basef. destruct (Nat.eqb i 0); [apply api_cube_to_cnf|apply p0_api]. Qed.
Lemma basef_vars i : cnf_vars (fun v => 1 <= v <= M) (basef i).
Proof.
  unfold basef. destruct (Nat.eqb i 0); [|apply p0_vars]. apply latch_vars_le, cube_to_cnf_vars.
  apply (init_vars c flag s He).
Qed.

Lemma tag_cnf b f : api_cnf f -> cnf_vars (fun v => 1 <= v <= M) f ->
  add_tags_to_relation b s f 1 = Ok (tagged_cnf M f).
Proof.
  intros A V. pose proof (add_tags_relation_ok b s f 1 A) as H.
  replace (max_literal_number s * 1) with M in H by (rewrite (e_max _ _ _ He); lia).
  apply H; [pose proof two_frames; lia|]. right. apply vars_bumpable; auto.
Qed.
Lemma tag_cube b q : api_cube q -> cube_vars (is_latch c) q ->
  add_tags_to_cube b s q 1 = Ok (bumped_cube M q).
Proof.
  intros A V. pose proof (add_tags_cube_ok b s q 1 A) as H.
  replace (max_literal_number s * 1) with M in H by (rewrite (e_max _ _ _ He); lia).
  apply H; [pose proof two_frames; lia|]. right. intros l Hl. specialize (V l Hl).
  apply latch_bounds in V. unfold bumpable. pose proof two_frames. lia.
Qed.
Lemma bumped_cube_fits q : cube_vars (is_latch c) q -> cube_legal (bumped_cube M q).
Proof.
  intros V. apply bumped_cube_legal. intros l Hl. specialize (V l Hl).
  apply latch_bounds in V. unfold bumpable. pose proof two_frames. lia.
Qed.

(* ----------------------------------------------------------------- sound: from a model *)

Lemma trans_steps a : cnf_true a (transition s) -> steps c (ev c a) (shift M a).
Proof.
  intros H. split; [apply ev_wires_ok; auto|]. intros v nx r L. unfold shift.
  apply (trans_sound c flag s Hwf Hn He a H v nx r L).
Qed.

Lemma p0_safe a : cnf_true a (ic3_p0 s) -> ~ is_bad c flag (ev c a).
Proof.
  unfold ic3_p0, get_state_to_safety_translation, get_safety_property, get_unsafety_property.
  rewrite cnf_append_true, cube_to_cnf_true. intros (HS & Hc).
  unfold get_unsafety_property in Hc. rewrite clause_not_true in Hc.
  rewrite <- (unsafe_bad c flag s Hwf Hn He a HS). auto.
Qed.

Lemma notp0_bad a : cnf_true a (ic3_not_p0 s) -> bad_state c flag a.
Proof.
  unfold ic3_not_p0, get_state_to_safety_translation, get_unsafety_property.
  rewrite cnf_append_true, clause_to_cnf_true. intros (HS & Hc).
  exists (ev c a). split; [apply ev_wires_ok; auto|]. split; [apply ev_latches|].
  apply (unsafe_bad c flag s Hwf Hn He a HS). auto.
Qed.

Lemma init_raw a : cnf_true a (cube_to_cnf (get_initial_relation s)) <-> initial_values c a.
Proof. rewrite cube_to_cnf_true. apply (init_true c flag s He). Qed.

Lemma frame_sound cls i a : cnf_vars (is_latch c) (fr cls i) ->
  cnf_true a (fr cls i) -> cnf_true a (basef i) -> in_frame c flag cls i (ev c a).
Proof.
  intros V H1 H2. split.
  - eapply latch_cnf_same; [eauto| |apply H1]. apply same_latches_sym, ev_latches.
  - unfold basef in H2. destruct i as [|i]; cbn in *.
    + apply init_raw in H2. eapply initial_same; [|eauto]. apply same_latches_sym, ev_latches.
    + apply p0_safe; auto.
Qed.

(* -------------------------------------------------------------- complete: to a model *)

Lemma pair_le w w' f : cnf_vars (fun v => 1 <= v <= M) f ->
  cnf_true (pair c w w') f <-> cnf_true w f.
Proof.
  intros V. apply (cnf_true_ext _ _ _ _ V). intros v Hv. apply pair_lo. lia.
Qed.

Lemma p0_complete w : wires_ok c w -> ~ is_bad c flag w -> cnf_true w (ic3_p0 s).
Proof.
  intros Hw Hb. unfold ic3_p0, get_state_to_safety_translation, get_safety_property, get_unsafety_property.
  apply cnf_append_true. split; [apply (safety_complete c flag s He); auto|].
  apply cube_to_cnf_true, clause_not_true. unfold get_unsafety_property. rewrite (unsafe_true c flag s He). auto.
Qed.
Lemma notp0_complete w : wires_ok c w -> is_bad c flag w -> cnf_true w (ic3_not_p0 s).
Proof.
  intros Hw Hb. unfold ic3_not_p0, get_state_to_safety_translation, get_unsafety_property.
  apply cnf_append_true. split; [apply (safety_complete c flag s He); auto|].
  apply clause_to_cnf_true. rewrite (unsafe_true c flag s He). auto.
Qed.

Lemma frame_complete cls i w w' : cnf_vars (is_latch c) (fr cls i) -> wires_ok c w ->
  in_frame c flag cls i w ->
  cnf_true (pair c w w') (fr cls i) /\ cnf_true (pair c w w') (basef i).
Proof.
  intros V Hw (H1 & H2). split.
  - apply pair_le; auto using latch_vars_le.
  - apply pair_le; [apply basef_vars|]. unfold basef. destruct i as [|i]; cbn in *.
    + apply init_raw; auto.
    + apply p0_complete; auto.
Qed.

Lemma trans_pair w w' : steps c w w' -> cnf_true (pair c w w') (transition s).
Proof. intros (H1 & H2). apply (trans_complete c flag s Hwf He); auto. Qed.

Lemma shift_pair w w' v : 1 <= v -> shift M (pair c w w') v = w' v.
Proof. intros Hv. unfold shift. apply pair_hi. lia. Qed.

Lemma shift_cube w w' q : cube_vars (is_latch c) q ->
  cube_true (shift M (pair c w w')) q <-> cube_true w' q.
Proof.
  intros V. apply cube_true_ext. intros l Hl. apply shift_pair. specialize (V l Hl).
  apply latch_bounds in V. lia.
Qed.
Lemma shift_clause w w' q : clause_vars (is_latch c) q ->
  clause_true (shift M (pair c w w')) q <-> clause_true w' q.
Proof.
  intros V. apply clause_true_ext. intros l Hl. apply shift_pair. specialize (V l Hl).
  apply latch_bounds in V. lia.
Qed.
Lemma shift_cnf w w' f : cnf_vars (fun v => 1 <= v <= M) f ->
  cnf_true (shift M (pair c w w')) f <-> cnf_true w' f.
Proof.
  intros V. apply (cnf_true_ext _ _ _ _ V). intros v Hv. apply shift_pair. lia.
Qed.
Lemma lo_clause w w' q : clause_vars (is_latch c) q -> clause_true (pair c w w') q <-> clause_true w q.
Proof.
  intros V. apply clause_true_ext. intros l Hl. apply pair_lo. specialize (V l Hl).
  apply latch_bounds in V. lia.
Qed.
Lemma lo_cube w w' q : cube_vars (is_latch c) q -> cube_true (pair c w w') q <-> cube_true w q.
Proof.
  intros V. apply cube_true_ext. intros l Hl. apply pair_lo. specialize (V l Hl).
  apply latch_bounds in V. lia.
Qed.
Lemma ev_clause a q : clause_vars (is_latch c) q -> clause_true (ev c a) q <-> clause_true a q.
Proof. intros V. apply clause_true_ext. intros l Hl. apply ev_latches. apply V; auto. Qed.
Lemma ev_cube a q : cube_vars (is_latch c) q -> cube_true (ev c a) q <-> cube_true a q.
Proof. intros V. apply cube_true_ext. intros l Hl. apply ev_latches. apply V; auto. Qed.

(* --------------------------------------------------------------------- defined latches *)

Lemma latch_in_max (cs : list Clause) v : (forall d, In d (cnf_clauses (transition s)) -> In d cs) ->
  is_latch c v -> 1 <= v <= max_var cs.
Proof.
  intros H Hv. pose proof (e_t_latch _ _ _ He v Hv) as Ho. apply in_variable_numbers in Ho.
  destruct Ho as (d & l & Hd & Hl & E). pose proof (max_var_in cs d l (H d Hd) Hl).
  apply latch_bounds in Hv. lia.
Qed.

(** From a satisfying assignment that defines enough to an answer. *)
Lemma sat_answers (cs : list Clause) asg (Q : valuation -> valuation -> Prop) :
  (forall d, In d (cnf_clauses (transition s)) -> In d cs) ->
  satisfies_clauses asg cs -> defined_upto asg (max_var cs) ->
  (forall a, clauses_true a cs -> Q (ev c a) (shift M a)) ->
  answers c (Sat asg) Q.
Proof.
  intros HT Hs Hd HQ. set (a := complete asg).
  assert (Ha : clauses_true a cs) by (apply Hs, complete_agrees).
  exists (ev c a), (shift M a). split; [apply trans_steps; intros d Hd'; apply Ha, HT, Hd'|]. split; auto.
  intros v Hv. rewrite (ev_latches a v Hv).
  pose proof (Hd v (latch_in_max cs v HT Hv)) as Hx. destruct (get_value asg v) as [x|] eqn:E; [|congruence].
  unfold a. rewrite (complete_agrees asg v x E). reflexivity.
Qed.

Lemma unsat_answers (cs : list Clause) (Q : valuation -> valuation -> Prop) :
  ~ satisfiable cs ->
  (forall w w', steps c w w' -> Q w w' -> exists a, clauses_true a cs) ->
  answers c UnSat Q.
Proof. intros Hu H w w' Hst HQ. apply Hu. destruct (H w w' Hst HQ) as (a & Ha). exists a; auto. Qed.

End Raw.
