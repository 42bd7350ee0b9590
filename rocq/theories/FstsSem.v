(** The transition system of a circuit: what [from_aig] returns, and its meaning. *)
From Verif Require Import Base Formulas FormulaLogic Aig Fsts Solvers Spec SpecAig SpecFsts Tac
  FormulasFacts LogicFacts AigFacts SimFacts FstsFacts.
Open Scope N_scope.

Definition numbered (c : circuit) (flag : bool) : Prop :=
  c_max c < 2147483647 /\
  (forall v, is_latch c v -> v + c_max c <= 2147483647) /\
  Forall (fun l => lit_var l <> 0) (bad_literals c flag).

(** The parts of a system that do not depend on the next-state numbers, and all parts. *)
Record static (c : circuit) (flag : bool) (s : FSTS) : Prop := mkStatic {
  e_max : max_literal_number s = c_max c;
  e_states : state_literals s = numbers (c_inputs c + 1) (lenN (c_latches c));
  e_inputs : input_literals s = numbers 1 (c_inputs c);
  e_init : exists lits, initial_states s = cube_new lits /\
    forall l, In l lits <-> exists v nx r, latch c v nx r /\
      (r = 0 /\ l = 2 * v + 1 \/ r = 1 /\ l = 2 * v);
  e_init_lits : forall l, In l (initial_literals s) <-> In l (cube_lits (initial_states s));
  e_s_api : api_cnf (state_to_safety_translation s);
  e_s_legal : cnf_legal (state_to_safety_translation s);
  e_s_vars : cnf_vars (fun x => 1 <= x <= c_max c) (state_to_safety_translation s);
  e_s_occurs : forall x, In x (variable_numbers (state_to_safety_translation s)) <->
    exists v r0 r1, gate c v r0 r1 /\ fan_in c (bad_literals c flag) v /\ (x = v \/ reads x r0 r1);
  e_s_true : forall w, cnf_true w (state_to_safety_translation s) <->
    (forall v r0 r1, gate c v r0 r1 -> fan_in c (bad_literals c flag) v -> gate_holds w v r0 r1);
  e_bad : unsafety_property s = clause_new (bad_literals c flag);
  e_cone_s : forall v, In v (cone_of_safety_only_latches s) <->
    In v (variable_numbers (state_to_safety_translation s)) /\ is_latch c v }.

Record encodes (c : circuit) (flag : bool) (s : FSTS) : Prop := mkEncodes {
  e_static :> static c flag s;
  e_t_api : api_cnf (transition s);
  e_t_legal : cnf_legal (transition s);
  e_t_vars : cnf_vars (fun x => 1 <= x <= c_max c \/ is_latch c (x - c_max c)) (transition s);
  e_t_occurs : forall x, In x (variable_numbers (transition s)) <->
    (exists v nx r, latch c v nx r /\ (x = v + c_max c \/ x <> 0 /\ x = lit_var nx)) \/
    exists v r0 r1, gate c v r0 r1 /\ fan_in c (latch_nexts c) v /\ (x = v \/ reads x r0 r1);
  e_t_true : forall w, cnf_true w (transition s) <->
    (forall v nx r, latch c v nx r -> w (v + c_max c) = lit_value (zero w) nx) /\
    (forall v r0 r1, gate c v r0 r1 -> fan_in c (latch_nexts c) v -> gate_holds w v r0 r1);
  e_cone_t : forall v, In v (cone_of_transition_only_latches s) <->
    In v (variable_numbers (transition s)) /\ is_latch c v }.
#[global] Hint Resolve e_static : core.

Lemma e_t_latch c flag s : encodes c flag s ->
  forall v, is_latch c v -> In (v + c_max c) (variable_numbers (transition s)).
Proof. intros He v (nx & r & L). apply (e_t_occurs _ _ _ He). left. exists v, nx, r. auto. Qed.

Lemma bad_range c flag : circuit_wf c -> Forall (lit_in_range c) (bad_literals c flag).
Proof.
  intros (_ & Ho & Hb & _). unfold bad_literals. apply Forall_app. split; auto.
  destruct flag; auto.
Qed.

Lemma in_states c v : In v (numbers (c_inputs c + 1) (lenN (c_latches c))) <-> is_latch c v.
Proof. rewrite in_numbers, is_latch_iff. lia. Qed.

Lemma in_inputs c v : In v (numbers 1 (c_inputs c)) <-> is_input c v.
Proof. rewrite in_numbers. unfold is_input. lia. Qed.

Lemma existsb_in v l : existsb (N.eqb v) l = true <-> In v l.
Proof.
  rewrite existsb_exists. split.
  - intros (x & Hx & E). apply N.eqb_eq in E. subst; auto.
  - intros H. exists v. rewrite N.eqb_refl. auto.
Qed.

Lemma input_numbers_ok b a c : represents a c -> circuit_wf c -> circuit_fits c ->
  c_max c < 2147483647 ->
  create_input_and_state_literal_numbers b a =
  Ok (numbers 1 (c_inputs c), numbers (c_inputs c + 1) (lenN (c_latches c))).
Proof.
  intros Hr Hwf Hf Hm. unfold create_input_and_state_literal_numbers.
  rewrite (get_input_information_ok a c Hr). cbn [bind].
  assert (P : forall v, 1 <= v <= c_max c -> positive_number b (2 * v) = Ok v).
  { intros v Hv. unfold positive_number.
    rewrite (literal_of_aig_ok b (2 * v)) by (rewrite lit_var_even; lia). cbn [bind].
    assert (Hn : is_negated (2 * v) = false) by (rewrite is_negated_odd, odd_mod; lia).
    rewrite Hn. cbn [negb assert_ bind]. rewrite get_number_div. f_equal. lia. }
  rewrite (mapM_total (positive_number b) (fun l => l / 2)).
  2: { intros l Hl. apply in_map_iff in Hl. destruct Hl as (v & <- & Hv). apply in_numbers in Hv.
       rewrite P. { f_equal; lia. } unfold c_max. lia. }
  cbn [bind]. rewrite (get_latch_information_ok a c) by auto. cbn [bind].
  rewrite (mapM_total (fun i => positive_number b (fst (fst i))) (fun i => fst (fst i) / 2)).
  2: { intros ((l, nx), r) Hl. apply in_latch_infos in Hl. destruct Hl as (v & n0 & r0 & L & Eq).
       inv Eq. cbn [fst]. rewrite P. { f_equal; lia. } pose proof (latch_range _ _ _ _ L).
       unfold c_max. lia. }
  cbn [bind]. f_equal. f_equal.
  - rewrite map_map. rewrite (map_ext _ (fun v => v)); [apply map_id|]. intros; lia.
  - unfold latch_infos. rewrite map_map. cbn [fst].
    unfold numbers. rewrite <- (map_map fst (fun i => 2 * latch_var c i / 2)).
    assert (K : forall (l : list (N * N)) n, map fst (combine (seq n (length l)) l) = seq n (length l)).
    { induction l as [|x l IH]; intros n; simpl; auto. f_equal. auto. }
    rewrite K. unfold lenN. rewrite Nnat.Nat2N.id. apply map_ext. intros i.
    unfold latch_var. lia.
Qed.

Lemma bad_info_eq a c (flag : bool) : represents a c ->
  get_bad_information a ++ (if flag then get_output_information a else []) = bad_literals c flag.
Proof.
  intros Hr. unfold represents in Hr.
  destruct Hr as (_ & _ & _ & _ & _ & _ & _ & _ & _ & _ & _ & _ & _ & _ & O1 & O2 & _).
  unfold bad_literals, get_bad_information, get_output_information. rewrite O1, O2. reflexivity.
Qed.

Lemma unsafety_ok b a c flag : represents a c -> circuit_wf c -> c_max c < 2147483647 ->
  (b = Release \/ Forall (fun l => lit_var l <> 0) (bad_literals c flag)) ->
  create_unsafety_property b a flag = Ok (clause_new (bad_literals c flag)).
Proof.
  intros Hr Hwf Hm Hb. unfold create_unsafety_property.
  assert (Eb : get_bad_information a ++ (if flag then get_output_information a else [])
               = bad_literals c flag).
  { apply bad_info_eq; auto. }
  rewrite Eb. destruct (bad_literals c flag) as [|l0 ls] eqn:E; auto.
  rewrite (mapM_total (literal_of_aig b) (fun l => l)).
  - cbn [bind]. rewrite map_id. reflexivity.
  - intros l Hl. apply literal_of_aig_ok.
    + destruct Hb as [|Hb]; auto. right. rewrite Forall_forall in Hb. apply Hb. auto.
    + pose proof (bad_range c flag Hwf) as Rg. rewrite E, Forall_forall in Rg.
      specialize (Rg _ Hl). red in Rg. lia.
Qed.

(** The static parts are right whenever [from_aig] returns. *)
Lemma from_aig_static b order a c flag s : represents a c -> circuit_wf c -> circuit_fits c ->
  order_ok order -> c_max c < 2147483647 -> c_constraints c = [] ->
  from_aig b order a flag = Ok s ->
  static c flag s /\
  create_transition_cnf b order a (c_max c) = Ok (transition s) /\
  (forall v, In v (cone_of_transition_only_latches s) <->
    In v (variable_numbers (transition s)) /\ is_latch c v).
Proof.
  intros Hr Hwf Hf Ho Hm Hc E. unfold from_aig in E.
  assert (Emax : get_highest_variable_number a = c_max c)
    by (unfold represents in Hr; unfold get_highest_variable_number; tauto).
  rewrite Emax in E. destruct (c_max c <? u31_max) eqn:E1; [|unfold u31_max in *; lia]. cbn [assert_ bind] in E.
  assert (Ec : get_constraints_information a = [])
    by (unfold represents in Hr; unfold get_constraints_information; decompose [and] Hr; congruence).
  unfold create_state_to_safety_translation in E.
  rewrite Ec in E. cbn [assert_ bind app] in E. unfold u32_of_usize in E.
  destruct (c_max c <? u32_mod) eqn:E2; [|unfold u32_mod in *; lia]. cbn [assert_ bind] in E.
  rewrite (input_numbers_ok b a c) in E by auto. cbn [bind] in E.
  destruct (create_initial_ok b a c Hr Hwf Hf Hm) as (lits & Ei & Hi). rewrite Ei in E. cbn [bind] in E.
  destruct (create_transition_cnf b order a (c_max c)) as [f| |] eqn:Et; cbn [bind] in E; try discriminate.
  rewrite (bad_info_eq a c flag Hr) in E.
  destruct (wires_cnf_ok b a c Hr Hwf Hf Hm order (bad_literals c flag) Ho (bad_range c flag Hwf))
    as (lss & Es & S1 & S2 & S3). rewrite Es in E. cbn [bind] in E.
  apply bind_ok in E. destruct E as (u & Eu & E).
  assert (Eu' : u = clause_new (bad_literals c flag)).
  { destruct b; [|rewrite (unsafety_ok Release a c flag) in Eu by auto; congruence].
    assert (Hb : Forall (fun l => lit_var l <> 0) (bad_literals c flag)).
    { unfold create_unsafety_property in Eu. rewrite (bad_info_eq a c flag Hr) in Eu.
      destruct (bad_literals c flag) as [|l0 ls]; [constructor|].
      apply bind_ok in Eu. destruct Eu as (us & Eu & _). apply mapM_ok in Eu.
      revert Eu. generalize (l0 :: ls). intros L Eu.
      induction Eu as [|xx yy xs ys Hxy _ IH]; constructor; auto.
      apply literal_of_aig_debug in Hxy. lia. }
    rewrite (unsafety_ok Debug a c flag) in Eu by auto. congruence. }
  subst u. injection E as <-.
  assert (Sl : Forall (Forall lit_legal) lss).
  { apply Forall_forall. intros ls Hls. apply Forall_forall. intros l Hl.
    specialize (S1 _ _ Hls Hl). cbv beta in S1. apply lit_legal_var. lia. }
  cbn [transition cone_of_transition_only_latches].
  split; [|split; [auto|intros v; rewrite filter_In, existsb_in, in_states; tauto]].
  split; cbn [max_literal_number state_literals input_literals initial_states initial_literals
    transition state_to_safety_translation unsafety_property cone_of_safety_only_latches
    cone_of_transition_only_latches]; auto.
  - exists lits. auto.
  - intros l. rewrite in_fold_insert by apply N.eqb_eq. unfold cube_iter. simpl. tauto.
  - apply adds_api. auto with api.
  - apply adds_legal; auto with api.
  - intros d Hd l Hl. apply in_adds in Hd. destruct Hd as [[]|(ls & Hls & ->)].
    rewrite in_clause_new in Hl. eapply S1; eauto.
  - intros x. rewrite <- S2, in_variable_numbers. split.
    + intros (d & l & Hd & Hl & E). apply in_adds in Hd. destruct Hd as [[]|(ls & Hls & ->)].
      rewrite in_clause_new in Hl. exists ls, l. auto.
    + intros (ls & l & H1 & H2 & H3). exists (clause_new ls), l. rewrite in_adds, in_clause_new. eauto 6.
  - intros w. rewrite adds_true, S3. split; [tauto|]. split; auto using cnf_new_true.
  - intros v. rewrite filter_In, existsb_in, in_states. tauto.
Qed.

(** With next-state numbers that fit, a returned system is right in all parts. *)
Lemma from_aig_right b order a c flag s : represents a c -> circuit_wf c -> circuit_fits c ->
  order_ok order -> c_max c < 2147483647 -> c_constraints c = [] ->
  (forall v, is_latch c v -> v + c_max c <= 2147483647) ->
  from_aig b order a flag = Ok s -> encodes c flag s.
Proof.
  intros Hr Hwf Hf Ho Hm Hc Hlatch E.
  destruct (from_aig_static b order a c flag s Hr Hwf Hf Ho Hm Hc E) as (Hs & Et & Ht).
  destruct (create_transition_ok b a c Hr Hwf Hf Hm Hlatch order Ho)
    as (f & Et' & T1 & T2 & T3 & T4 & T5). rewrite Et in Et'. injection Et' as <-.
  split; auto.
Qed.

Lemma from_aig_encodes b order a c flag : represents a c -> circuit_wf c -> circuit_fits c ->
  order_ok order -> c_constraints c = [] -> c_max c < 2147483647 ->
  (forall v, is_latch c v -> v + c_max c <= 2147483647) ->
  (b = Release \/ Forall (fun l => lit_var l <> 0) (bad_literals c flag)) ->
  exists s, from_aig b order a flag = Ok s /\ encodes c flag s.
Proof.
  intros Hr Hwf Hf Ho Hc Hm Hlatch Hb.
  assert (X : exists s, from_aig b order a flag = Ok s).
  { unfold from_aig.
    assert (Emax : get_highest_variable_number a = c_max c)
      by (unfold represents in Hr; unfold get_highest_variable_number; tauto).
    rewrite Emax. destruct (c_max c <? u31_max) eqn:E1; [|unfold u31_max in *; lia]. cbn [assert_ bind].
    assert (Ec : get_constraints_information a = [])
      by (unfold represents in Hr; unfold get_constraints_information; decompose [and] Hr; congruence).
    rewrite Ec. cbn [assert_ bind]. unfold u32_of_usize.
    destruct (c_max c <? u32_mod) eqn:E2; [|unfold u32_mod in *; lia]. cbn [assert_ bind].
    rewrite (input_numbers_ok b a c) by auto. cbn [bind].
    destruct (create_initial_ok b a c Hr Hwf Hf Hm) as (lits & Ei & _). rewrite Ei. cbn [bind].
    destruct (create_transition_ok b a c Hr Hwf Hf Hm Hlatch order Ho) as (f & Et & _). rewrite Et. cbn [bind].
    unfold create_state_to_safety_translation. rewrite Ec. cbn [app]. rewrite (bad_info_eq a c flag Hr).
    destruct (wires_cnf_ok b a c Hr Hwf Hf Hm order (bad_literals c flag) Ho (bad_range c flag Hwf))
      as (lss & Es & _). rewrite Es. cbn [bind].
    rewrite (unsafety_ok b a c flag) by auto. cbn [bind]. eauto. }
  destruct X as (s & E). exists s. split; auto. eapply from_aig_right; eauto.
Qed.

Lemma from_aig_ok b order a c flag : represents a c -> circuit_wf c -> circuit_fits c ->
  order_ok order -> c_constraints c = [] -> numbered c flag ->
  exists s, from_aig b order a flag = Ok s /\ encodes c flag s.
Proof. intros Hr Hwf Hf Ho Hc (Hm & Hlatch & Hb). apply from_aig_encodes; auto. Qed.

Lemma numbering_numbered c flag : numbering_fits c flag -> numbered c flag.
Proof.
  intros (H1 & H2). split; [lia|]. split; auto. intros v Hv. apply latch_le_max in Hv. lia.
Qed.

(** What a successful call says about the circuit; a debug build detects bad numbering. *)
Lemma system_basic b c flag s : system_of b c flag s ->
  circuit_wf c /\ c_max c < 2147483647 /\ c_constraints c = [].
Proof.
  intros (order & a & Hr & Hwf & Hf & Ho & E). split; auto.
  unfold from_aig in E.
  assert (Emax : get_highest_variable_number a = c_max c)
    by (unfold represents in Hr; unfold get_highest_variable_number; tauto).
  assert (Ec : get_constraints_information a = c_constraints c)
    by (unfold represents in Hr; unfold get_constraints_information; tauto).
  rewrite Emax, Ec in E.
  apply bind_ok in E. destruct E as (x & E1 & E). apply assert_ok_u in E1.
  apply bind_ok in E. destruct E as (y & E2 & E). apply assert_ok_u in E2.
  unfold u31_max in E1. split; [lia|]. destruct (c_constraints c); auto. discriminate.
Qed.

Lemma system_numbered_debug c flag s : system_of Debug c flag s -> numbered c flag.
Proof.
  intros H. pose proof (system_basic _ _ _ _ H) as (_ & Hm & _).
  destruct H as (order & a & Hr & Hwf & Hf & Ho & E). split; auto.
  unfold from_aig in E.
  assert (Emax : get_highest_variable_number a = c_max c)
    by (unfold represents in Hr; unfold get_highest_variable_number; tauto).
  rewrite Emax in E.
  apply bind_ok in E. destruct E as (? & E1 & E).
  apply bind_ok in E. destruct E as (? & E2 & E).
  apply bind_ok in E. destruct E as (m & E3 & E).
  unfold u32_of_usize in E3. apply bind_ok in E3. destruct E3 as (? & _ & E3). inv E3.
  rewrite (input_numbers_ok Debug a c) in E by auto. cbn [bind] in E.
  apply bind_ok in E. destruct E as (init & E4 & E).
  apply bind_ok in E. destruct E as (f & E5 & E).
  apply bind_ok in E. destruct E as (saf & E6 & E).
  apply bind_ok in E. destruct E as (uns & E7 & E).
  split.
  - intros v (nx & r & L). unfold create_transition_cnf in E5.
    rewrite (get_latch_information_ok a c) in E5 by auto. cbn [bind] in E5.
    apply bind_ok in E5. destruct E5 as (st & E8 & _).
    destruct (foldM_ok_in _ _ _ _ (2 * v, nx, r) E8) as (st0 & st1 & E9).
    { apply in_latch_infos. eauto 6. }
    unfold transition_step in E9. destruct st0 as (f0 & w0).
    apply bind_ok in E9. destruct E9 as (? & _ & E9).
    pose proof (latch_range _ _ _ _ L).
    rewrite (literal_of_aig_ok Debug (2 * v)) in E9.
    2: { rewrite lit_var_even. right. lia. }
    2: { rewrite lit_var_even. assert (v <= c_max c) by (unfold c_max; lia). lia. }
    cbn [bind] in E9. rewrite get_number_div in E9. fold (lit_var (2 * v)) in E9.
    rewrite lit_var_even in E9.
    apply bind_ok in E9. destruct E9 as (n & E10 & E9).
    apply bind_ok in E9. destruct E9 as (l & E11 & _).
    apply literal_new_inv in E11. destruct E11 as (E11 & _). specialize (E11 eq_refl).
    unfold u32_add in E10. destruct (v + c_max c <? u32_mod); inv E10. lia.
  - unfold create_unsafety_property in E7.
    assert (Eb : get_bad_information a ++ (if flag then get_output_information a else [])
               = bad_literals c flag).
    { apply bad_info_eq; auto. }
    rewrite Eb in E7. destruct (bad_literals c flag) as [|l0 ls]; [constructor|].
    apply bind_ok in E7. destruct E7 as (us & E7 & _). apply mapM_ok in E7.
    revert E7. generalize (l0 :: ls). intros L E7.
    induction E7 as [|xx yy xs ys Hxy _ IH]; constructor; auto.
    apply literal_of_aig_debug in Hxy. lia.
Qed.


Lemma system_encodes b c flag s : system_of b c flag s -> well_numbered b c flag ->
  circuit_wf c /\ numbered c flag /\ encodes c flag s.
Proof.
  intros H Hn. pose proof (system_basic _ _ _ _ H) as (Hwf & Hm & Hc).
  assert (N : numbered c flag).
  { destruct Hn as [->|Hn]; [eapply system_numbered_debug; eauto|apply numbering_numbered; auto]. }
  split; auto. split; auto.
  destruct H as (order & a & Hr & _ & Hf & Ho & E).
  destruct (from_aig_ok b order a c flag Hr Hwf Hf Ho Hc N) as (s' & E' & He).
  rewrite E in E'. inv E'. auto.
Qed.

Lemma system_static b c flag s : system_of b c flag s ->
  circuit_wf c /\ c_max c < 2147483647 /\ static c flag s.
Proof.
  intros H. pose proof (system_basic _ _ _ _ H) as (Hwf & Hm & Hc). split; auto. split; auto.
  destruct H as (order & a & Hr & _ & Hf & Ho & E). eapply from_aig_static; eauto.
Qed.

Lemma system_next b c flag s : system_of b c flag s -> next_fits b c ->
  circuit_wf c /\ c_max c < 2147483647 /\ encodes c flag s.
Proof.
  intros H Hn. pose proof (system_basic _ _ _ _ H) as (Hwf & Hm & Hc). split; auto. split; auto.
  assert (Hl : forall v, is_latch c v -> v + c_max c <= 2147483647).
  { destruct Hn as [->|Hn]; auto. apply (system_numbered_debug _ _ _ H). }
  destruct H as (order & a & Hr & _ & Hf & Ho & E). eapply from_aig_right; eauto.
Qed.

Lemma system_bad b c flag s : system_of b c flag s -> bad_fits b c flag ->
  Forall (fun l => lit_var l <> 0) (bad_literals c flag).
Proof. intros H [->|Hb]; auto. apply (system_numbered_debug _ _ _ H). Qed.

Lemma well_numbered_parts b c flag : well_numbered b c flag -> next_fits b c /\ bad_fits b c flag.
Proof.
  intros [->|(H1 & H2)]; [split; left; auto|]. split; right; auto.
  intros v Hv. apply latch_le_max in Hv. lia.
Qed.

(* ------------------------------------------------------------------------ meaning *)

Section Static.
Variable (c : circuit) (flag : bool) (s : FSTS).
Hypothesis (Hwf : circuit_wf c) (Hs : static c flag s) (He : encodes c flag s).
Notation M := (c_max c).

Lemma init_cube_in l : In l (cube_lits (initial_states s)) <-> exists v nx r, latch c v nx r /\
      (r = 0 /\ l = 2 * v + 1 \/ r = 1 /\ l = 2 * v).
Proof. destruct (e_init _ _ _ Hs) as (lits & -> & H). rewrite in_cube_new. apply H. Qed.

Lemma init_api : api_cube (initial_states s).
Proof. destruct (e_init _ _ _ Hs) as (lits & -> & _). auto with api. Qed.

Lemma init_vars : cube_vars (is_latch c) (initial_states s).
Proof.
  intros l Hl. apply init_cube_in in Hl. destruct Hl as (v & nx & r & L & H).
  replace (lit_var l) with v. { exists nx, r; auto. } unfold lit_var. lia.
Qed.

Lemma lit_value_odd w v : lit_value w (2 * v + 1) = negb (w v).
Proof.
  unfold lit_value, lit_neg. rewrite odd_mod. replace (lit_var (2 * v + 1)) with v by (unfold lit_var; lia).
  replace ((2 * v + 1) mod 2 =? 1) with true by lia. rewrite xorb_true_r. reflexivity.
Qed.

Lemma init_true w : cube_true w (initial_states s) <-> initial_values c w.
Proof.
  unfold cube_true, initial_values. split.
  - intros H v nx r L. split; intros Er.
    + specialize (H (2 * v + 1)). rewrite init_cube_in, lit_true_value, lit_value_odd in H.
      destruct (w v); auto. discriminate H. exists v, nx, r. auto.
    + specialize (H (2 * v)). rewrite init_cube_in, lit_true_value, lit_value_even in H.
      apply H. exists v, nx, r. auto.
  - intros H l Hl. apply init_cube_in in Hl. destruct Hl as (v & nx & r & L & Hx).
    destruct (H _ _ _ L) as (H0 & H1).
    destruct Hx as [(Er & ->)|(Er & ->)]; rewrite lit_true_value.
    + rewrite lit_value_odd, H0; auto.
    + rewrite lit_value_even; auto.
Qed.

Lemma zero_wires w l : w 0 = false -> lit_value (zero w) l = lit_value w l.
Proof.
  intros H. apply lit_value_ext. unfold zero. destruct (lit_var l =? 0) eqn:E; auto.
  apply N.eqb_eq in E. rewrite E; auto.
Qed.

Lemma lit_true_ext w w' l : w (lit_var l) = w' (lit_var l) -> lit_true w l <-> lit_true w' l.
Proof. unfold lit_true. intros ->; tauto. Qed.

Lemma clause_true_ext w w' d : (forall l, In l (clause_lits d) -> w (lit_var l) = w' (lit_var l)) ->
  clause_true w d <-> clause_true w' d.
Proof.
  intros H. unfold clause_true. split; intros (l & Hl & Ht); exists l; split; auto.
  - apply (lit_true_ext w w'); auto.
  - apply (lit_true_ext w w'); auto.
Qed.

Lemma cube_true_ext w w' q : (forall l, In l (cube_lits q) -> w (lit_var l) = w' (lit_var l)) ->
  cube_true w q <-> cube_true w' q.
Proof.
  intros H. unfold cube_true. split; intros H1 l Hl; apply (lit_true_ext w w'); auto.
Qed.

Lemma cnf_true_ext (P : N -> Prop) w w' f : cnf_vars P f -> (forall v, P v -> w v = w' v) ->
  cnf_true w f <-> cnf_true w' f.
Proof.
  intros Hv H. unfold cnf_true, clauses_true.
  split; intros H1 d Hd; apply (clause_true_ext w w'); auto; intros l Hl; apply H; eapply Hv; eauto.
Qed.

Lemma safety_complete w : wires_ok c w -> cnf_true w (state_to_safety_translation s).
Proof. intros Hw. apply (e_s_true _ _ _ Hs). intros. apply wires_hold with (c := c); auto. Qed.

Lemma unsafe_true w : clause_true w (unsafety_property s) <-> is_bad c flag w.
Proof. rewrite (e_bad _ _ _ Hs), clause_new_true. reflexivity. Qed.

Lemma unsafe_api : api_clause (unsafety_property s).
Proof. rewrite (e_bad _ _ _ Hs). auto with api. Qed.

Hypothesis (Hm : c_max c < 2147483647).

Lemma gate_wires0 w lits : Forall (lit_in_range c) lits ->
  (forall v r0 r1, gate c v r0 r1 -> fan_in c lits v -> gate_holds w v r0 r1) ->
  forall l, In l lits -> lit_value (zero w) l = lit_value (ev c w) l.
Proof. intros. eapply fan_in_value; eauto. Qed.

Lemma safety_sound0 w : cnf_true w (state_to_safety_translation s) ->
  forall l, In l (bad_literals c flag) -> lit_var l <> 0 -> lit_value w l = lit_value (ev c w) l.
Proof.
  intros H l Hl H0. pose proof (proj1 (e_s_true _ _ _ Hs w) H) as H2.
  rewrite <- (gate_wires0 w (bad_literals c flag)); auto using bad_range.
  symmetry. apply lit_value_zero. auto.
Qed.

Lemma trans_sound0 w : cnf_true w (transition s) ->
  forall v nx r, latch c v nx r -> w (v + M) = lit_value (ev c w) nx.
Proof.
  intros H v nx r L. apply (e_t_true _ _ _ He) in H. destruct H as (H1 & H2).
  rewrite (H1 _ _ _ L). apply (gate_wires0 w (latch_nexts c)); auto.
  - apply latch_nexts_range; auto.
  - apply in_latch_nexts. eauto.
Qed.

End Static.

Section Meaning.
Variable (c : circuit) (flag : bool) (s : FSTS).
Hypothesis (Hwf : circuit_wf c) (Hn : numbered c flag) (He : encodes c flag s).
Notation M := (c_max c).

Lemma gate_wires w lits : Forall (lit_in_range c) lits ->
  (forall v r0 r1, gate c v r0 r1 -> fan_in c lits v -> gate_holds w v r0 r1) ->
  forall l, In l lits -> lit_value (zero w) l = lit_value (ev c w) l.
Proof. intros. apply (gate_wires0 c) with (lits := lits); auto. apply Hn. Qed.

Lemma trans_sound w : cnf_true w (transition s) ->
  forall v nx r, latch c v nx r -> w (v + M) = lit_value (ev c w) nx.
Proof. apply (trans_sound0 c flag s); auto. apply Hn. Qed.

Lemma safety_sound w : cnf_true w (state_to_safety_translation s) ->
  forall l, In l (bad_literals c flag) -> lit_value w l = lit_value (ev c w) l.
Proof.
  intros H l Hl. destruct Hn as (Hm & _ & Hb). rewrite Forall_forall in Hb.
  apply (safety_sound0 c flag s); auto.
Qed.

Lemma init_legal : cube_legal (initial_states s).
Proof.
  apply Forall_forall. intros l Hl. apply (init_vars c flag s He) in Hl. apply lit_legal_var.
  pose proof (latch_le_max _ _ Hl). apply is_latch_iff in Hl. destruct Hn as (Hm & _). lia.
Qed.

(** Two time frames as one valuation. *)
Definition pair (w w' : valuation) : valuation := fun x => if x <=? M then w x else w' (x - M).

Lemma pair_lo w w' x : x <= M -> pair w w' x = w x.
Proof. unfold pair. intros. destruct (x <=? M) eqn:E; auto. lia. Qed.
Lemma pair_hi w w' x : x <> 0 -> pair w w' (x + M) = w' x.
Proof. unfold pair. intros. destruct (x + M <=? M) eqn:E; [lia|]. f_equal. lia. Qed.

Lemma trans_complete w w' : wires_ok c w -> step_values c w w' -> cnf_true (pair w w') (transition s).
Proof.
  intros Hw Hs. apply (e_t_true _ _ _ He). split.
  - intros v nx r L. pose proof (latch_range _ _ _ _ L) as Rg.
    rewrite pair_hi by lia. rewrite (Hs _ _ _ L).
    transitivity (lit_value (zero w) nx).
    + symmetry. apply zero_wires. apply Hw.
    + apply lit_value_ext. unfold zero. rewrite pair_lo; auto.
      destruct Hwf as (Hl & _). eapply Hl; eauto.
  - intros v r0 r1 G _. pose proof (wires_hold c w Hw _ _ _ G) as Hg. unfold gate_holds in *.
    pose proof (gate_operands _ _ _ _ Hwf G). pose proof (gate_range _ _ _ _ G).
    rewrite pair_lo by lia. rewrite Hg.
    f_equal; apply lit_value_ext; unfold zero; rewrite pair_lo; auto; lia.
Qed.

Lemma unsafe_bad w : cnf_true w (state_to_safety_translation s) ->
  (clause_true w (unsafety_property s) <-> is_bad c flag (ev c w)).
Proof.
  intros H. rewrite (unsafe_true c flag s He). unfold is_bad.
  split; intros (l & Hl & Ht); exists l; split; auto.
  - rewrite <- safety_sound; auto.
  - rewrite safety_sound; auto.
Qed.

Lemma unsafe_vars : clause_vars (fun x => 1 <= x <= M) (unsafety_property s).
Proof.
  intros l Hl. rewrite (e_bad _ _ _ He), in_clause_new in Hl.
  pose proof (bad_range c flag Hwf) as Rg. destruct Hn as (_ & _ & Hb).
  rewrite Forall_forall in Hb, Rg. specialize (Hb _ Hl). specialize (Rg _ Hl). red in Rg. lia.
Qed.

Lemma unsafe_legal : clause_legal (unsafety_property s).
Proof.
  apply Forall_forall. intros l Hl. apply unsafe_vars in Hl. apply lit_legal_var.
  destruct Hn as (Hm & _). lia.
Qed.

Lemma is_bad_ext w w' : (forall v, 1 <= v <= M -> w v = w' v) -> is_bad c flag w <-> is_bad c flag w'.
Proof.
  intros H. rewrite <- !(unsafe_true c flag s He). apply clause_true_ext. intros l Hl. apply H.
  apply unsafe_vars; auto.
Qed.

End Meaning.
