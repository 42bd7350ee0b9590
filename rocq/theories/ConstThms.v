(** A constant as bad literal, in a release build: [from_aig] accepts the circuit, the constant
    becomes variable 0, and the stateful adapters treat variable 0 as any other variable. *)
From Verif Require Import Base Formulas FormulaLogic Aig AigParse Fsts Bmc Solvers Ic3 Pdr Brute Spec
  SpecText SpecAig SpecAiger SpecFile SpecFsts SpecAlg SpecSolver SpecEnd Tac FormulasFacts LogicFacts
  SolverFacts StatefulFacts AigFacts SimFacts FstsFacts TagFacts AigThms FstsSem FstsThms EndThms.
Open Scope N_scope.

(* ------------------------------------------------------- the adapters: the first formula *)

Definition first_table (f : CNF) : list Z := map (fun i => 1 + Z.of_nat i)%Z (seq 0 (N.to_nat (cnf_max f + 1))).
Definition first_clauses (order : clause_order) (f : CNF) : list (list Z) :=
  map (fun c => map (tr (first_table f)) (clause_lits c)) (order (cnf_clauses f)).

Lemma first_in order f c l : order_ok order -> api_cnf f -> In c (order (cnf_clauses f)) ->
  In l (clause_lits c) -> (N.to_nat (lit_var l) < length (first_table f))%nat.
Proof.
  intros Ho H Hc Hl. apply (Permutation_in _ (Ho _)) in Hc. pose proof (in_cnf_max f c l H Hc Hl).
  unfold first_table. rewrite map_length, seq_length. lia.
Qed.

Lemma mini_first order f h : order_ok order -> api_cnf f ->
  mini_add_cnf order (mini_new_state h) f =
    Ok (mkMiniState (first_clauses order f) 0 (Z.of_N (cnf_max f) + 2) (first_table f)).
Proof.
  intros Ho Hv. unfold mini_add_cnf, mini_extend, mini_new_state, missing.
  cbn [mini_table mini_next mini_clauses mini_calls]. change (lenN (@nil Z)) with 0.
  rewrite push_new_spec, N.sub_0_r. cbn [app]. fold (first_table f).
  replace (1 + Z.of_nat (N.to_nat (cnf_max f + 1)))%Z with (Z.of_N (cnf_max f) + 2)%Z by lia.
  pose proof (fun c l => first_in order f c l Ho Hv) as Hin.
  unfold first_clauses. revert Hin. generalize (order (cnf_clauses f)). intros ds.
  assert (G : forall ds raw, (forall c l, In c ds -> In l (clause_lits c) ->
      (N.to_nat (lit_var l) < length (first_table f))%nat) ->
    foldM (fun st c => cl <- translate (mini_table st) (clause_iter c) ;; Ok (mini_add_raw st cl)) ds
      (mkMiniState raw 0 (Z.of_N (cnf_max f) + 2) (first_table f)) =
    Ok (mkMiniState (raw ++ map (fun c => map (tr (first_table f)) (clause_lits c)) ds) 0
          (Z.of_N (cnf_max f) + 2) (first_table f))).
  { clear. induction ds as [|d ds IH]; intros raw H; cbn [foldM map].
    - rewrite app_nil_r. reflexivity.
    - cbn [mini_table]. unfold clause_iter at 1. rewrite translate_ok by (intros l Hl; apply (H d l); auto; left; auto).
      cbn [bind]. unfold mini_add_raw at 2. cbn [mini_clauses mini_calls mini_next mini_table].
      rewrite IH by (intros c l Hc; apply H; right; auto). rewrite <- app_assoc. reflexivity. }
  intros Hin. apply (G ds []); auto.
Qed.

Lemma first_table_ok f : cnf_max f <= 2147483647 -> table_ok (first_table f) (Z.of_N (cnf_max f) + 2).
Proof.
  intros H. pose proof (push_new_ok (N.to_nat (cnf_max f + 1)) 1 [] (kn_table _ _ _ _ knows_init)) as P.
  rewrite push_new_spec in P. cbn [fst snd app length] in P. unfold first_table.
  replace (Z.of_N (cnf_max f) + 2)%Z with (1 + Z.of_nat (N.to_nat (cnf_max f + 1)))%Z by lia.
  apply P. lia.
Qed.

Lemma cad_first order f h : order_ok order -> api_cnf f -> cnf_max f <= 2147483645 ->
  cad_add_cnf Release order (cad_new_state h) f =
    Ok (mkCadState (first_clauses order f) 0 (first_table f) (Z.of_N (cnf_max f) + 2)).
Proof.
  intros Ho Hv Hm. unfold cad_add_cnf, cad_extend, cad_new_state, missing.
  cbn [cad_table cad_new cad_clauses cad_calls]. change (lenN (@nil Z)) with 0.
  rewrite cad_push_ok by lia. rewrite push_new_spec, N.sub_0_r. cbn [app bind]. fold (first_table f).
  replace (1 + Z.of_nat (N.to_nat (cnf_max f + 1)))%Z with (Z.of_N (cnf_max f) + 2)%Z by lia.
  assert (Ht : table_ok (first_table f) (Z.of_N (cnf_max f) + 2)) by (apply first_table_ok; lia).
  pose proof (fun c l => first_in order f c l Ho Hv) as Hin.
  unfold first_clauses. revert Hin. generalize (order (cnf_clauses f)). intros ds.
  assert (G : forall ds raw, (forall c l, In c ds -> In l (clause_lits c) ->
      (N.to_nat (lit_var l) < length (first_table f))%nat) ->
    foldM (fun st c => cl <- cad_translate Release (cad_table st) (clause_iter c) ;; Ok (cad_add_raw st cl)) ds
      (mkCadState raw 0 (first_table f) (Z.of_N (cnf_max f) + 2)) =
    Ok (mkCadState (raw ++ map (fun c => map (tr (first_table f)) (clause_lits c)) ds) 0
          (first_table f) (Z.of_N (cnf_max f) + 2))).
  { clear ds. induction ds as [|d ds IH]; intros raw H; cbn [foldM map].
    - rewrite app_nil_r. reflexivity.
    - cbn [cad_table]. unfold clause_iter at 1.
      rewrite (cad_translate_ok _ _ (Z.of_N (cnf_max f) + 2)) by
        (auto; try lia; intros l Hl; apply (H d l); auto; left; auto).
      cbn [bind]. unfold cad_add_raw at 2. cbn [cad_clauses cad_calls cad_new cad_table].
      rewrite IH by (intros c l Hc; apply H; right; auto). rewrite <- app_assoc. reflexivity. }
  intros Hin. apply (G ds []); auto.
Qed.

Lemma first_entry f v : v <= cnf_max f -> entry (first_table f) v = (1 + Z.of_N v)%Z.
Proof.
  intros H. unfold entry, first_table.
  rewrite (nth_indep _ _ (1 + Z.of_nat 0)%Z) by (rewrite map_length, seq_length; lia).
  rewrite (map_nth (fun i => 1 + Z.of_nat i)%Z), seq_nth by lia. lia.
Qed.

Lemma first_length f : length (first_table f) = S (N.to_nat (cnf_max f)).
Proof. unfold first_table. rewrite map_length, seq_length. lia. Qed.

Lemma first_true order f a : order_ok order -> api_cnf f -> cnf_max f <= 2147483647 ->
  ints_true a (first_clauses order f) <-> cnf_true (fun v => a (1 + Z.of_N v)%Z) f.
Proof.
  intros Ho Hf Hm. pose proof (first_table_ok f Hm) as Ht.
  assert (K : forall c, In c (cnf_clauses f) ->
    (exists z, In z (map (tr (first_table f)) (clause_lits c)) /\ int_true a z) <->
    clause_true (fun v => a (1 + Z.of_N v)%Z) c).
  { intros c Hc. rewrite (tr_clause _ _ a c Ht).
    - apply clause_true_ext. intros l Hl. rewrite first_entry; auto. eapply in_cnf_max; eauto.
    - intros l Hl. eapply first_in; eauto. eapply Permutation_in; [apply Permutation_sym, Ho|auto]. }
  unfold ints_true, first_clauses, cnf_true. split.
  - intros H c Hc. apply K; auto. apply H. apply in_map_iff. exists c. split; auto.
    eapply Permutation_in; [apply Permutation_sym, Ho|auto].
  - intros H d Hd. apply in_map_iff in Hd as (c & <- & Hc). apply (Permutation_in _ (Ho _)) in Hc.
    apply K; auto.
Qed.

Lemma first_legal order f c z : order_ok order -> api_cnf f -> cnf_max f <= 2147483645 ->
  In c (first_clauses order f) -> In z c -> z <> 0%Z /\ (-2147483648 < z <= 2147483647)%Z.
Proof.
  intros Ho Hf Hm Hc Hz. apply in_map_iff in Hc as (d & <- & Hd).
  apply in_map_iff in Hz as (l & <- & Hl).
  destruct (tr_bound (first_table f) (Z.of_N (cnf_max f) + 2) l); [apply first_table_ok; lia| |].
  - eapply first_in; eauto.
  - split; auto. lia.
Qed.

Lemma max_below f B : api_cnf f -> cnf_vars (fun v => v <= B) f -> cnf_max f <= B.
Proof.
  intros Hf H. rewrite cnf_max_max_var by auto.
  destruct (max_var_witness (cnf_clauses f)) as [->|(c & l & Hc & Hl & ->)]; [lia|].
  apply (H c Hc l Hl).
Qed.

Lemma mapM_fuel {A B} (g : A -> res B) l : (forall x, g x <> OutOfFuel) -> mapM g l <> OutOfFuel.
Proof.
  intros H. induction l as [|x l IH]; simpl; [discriminate|]. pose proof (H x).
  destruct (g x); cbn [bind]; try congruence. destruct (mapM g l); cbn [bind]; congruence.
Qed.

Lemma bump_cnf_fuel b f n : bump_cnf b f n <> OutOfFuel.
Proof.
  unfold bump_cnf. destruct (n =? 0); [discriminate|]. generalize cnf_new.
  induction (cnf_clauses f) as [|d ds IH]; intros g; simpl; [discriminate|].
  assert (H : bump_clause b d n <> OutOfFuel).
  { unfold bump_clause. pose proof (mapM_fuel (bump_literal b n) (clause_iter d)) as H.
    destruct (mapM _ _); cbn [bind]; try discriminate. intros _. apply H; [|reflexivity]. clear. intros l.
    unfold bump_literal, u32_add, literal_new, debug_assert, assert_.
    repeat (match goal with |- context [if ?x then _ else _] => destruct x
      | |- context [match b with _ => _ end] => destruct b end; cbn [bind]; try discriminate). }
  destruct (bump_clause b d n); cbn [bind]; auto; discriminate.
Qed.

(* ------------------------------------------------------------------------- the systems *)

Section Constant.
Variable (c : circuit) (flag : bool) (s : FSTS).
Hypothesis (Hsys : system_of Release c flag s) (Hm : 2 * c_max c <= 2147483645).
Hypothesis Hconst : exists l, In l (bad_literals c flag) /\ lit_var l = 0.
Notation M := (c_max c).

Lemma constant_encodes : circuit_wf c /\ encodes c flag s.
Proof.
  pose proof (system_basic _ _ _ _ Hsys) as (Hwf & Hlt & Hc). split; auto.
  destruct Hsys as (order & a & Hr & _ & Hf & Ho & E).
  destruct (from_aig_encodes Release order a c flag Hr Hwf Hf Ho Hc Hlt) as (s' & E' & He); auto.
  - intros v Hv. apply latch_le_max in Hv. lia.
  - rewrite E in E'. inv E'. auto.
Qed.

(** Both IC3 provers tag the unsafety property when they are created. *)
Lemma constant_cache : M <> 0 -> ic3_cache Release s = Panic.
Proof.
  intros HM. destruct constant_encodes as (Hwf & He). unfold ic3_cache, add_tags_to_relation.
  rewrite (e_max _ _ _ He). rewrite u32_mul_ok by lia. cbn [bind].
  destruct (bump_cnf Release (ic3_not_p0 s) (M * 1)) as [f| |] eqn:E; [|reflexivity|].
  - exfalso. unfold bump_cnf in E. destruct (M * 1 =? 0) eqn:E0; [lia|].
    destruct Hconst as (l & Hl & H0).
    destruct (foldM_ok_in _ _ _ _ (unsafety_property s) E) as (st & st' & E').
    + unfold ic3_not_p0. apply in_append. right. left. reflexivity.
    + apply bind_ok in E'. destruct E' as (d & E' & _). unfold bump_clause in E'.
      apply bind_ok in E'. destruct E' as (ls & E' & _). apply mapM_ok in E'.
      assert (Hin : In l (clause_iter (unsafety_property s))).
      { rewrite (e_bad _ _ _ He). unfold clause_iter. apply in_clause_new. auto. }
      revert E' Hin. generalize (clause_iter (unsafety_property s)). intros xs F Hin.
      induction F as [|x y xs ys Hx F IH]; [destruct Hin|]. destruct Hin as [->|Hin]; auto.
      unfold bump_literal in Hx. rewrite get_number_div in Hx. unfold lit_var in H0. rewrite H0 in Hx.
      discriminate.
  - exfalso. revert E. apply bump_cnf_fuel.
Qed.

(** An initial clock with the constant "true" in variable 0. *)
Lemma constant_first_sat : exists w, cnf_true w (p_initial_and_not_p (pdr_cache s)).
Proof.
  destruct constant_encodes as (Hwf & He). destruct Hconst as (l & Hl & H0).
  set (src := fun v => existsb (N.eqb (2 * v)) (cube_lits (initial_states s))).
  set (w := fun v => if v =? 0 then negb (lit_neg l) else ev c src v).
  assert (Hi : initial_values c (ev c src)).
  { intros v nx r L. assert (Hv : is_latch c v) by (exists nx, r; auto).
    rewrite ev_src by auto. unfold src. split; intros ->.
    - destruct (existsb _ _) eqn:E; auto. apply existsb_in, (init_cube_in c flag s He) in E.
      destruct E as (v' & nx' & r' & L' & [(_ & E)|(-> & E)]); [lia|].
      assert (v' = v) by lia. subst v'. destruct (latch_fun _ _ _ _ _ _ L L'). discriminate.
    - apply existsb_in, (init_cube_in c flag s He). exists v, nx, 1. auto. }
  assert (Hz : forall v, v <> 0 -> w v = ev c src v).
  { intros v Hv. unfold w. destruct (v =? 0) eqn:E; auto. lia. }
  exists w. cbn [pdr_cache p_initial_and_not_p].
  rewrite cnf_add_clause_true, !cnf_append_true. split; [split; [split|]|].
  - apply cnf_new_true.
  - apply cube_to_cnf_true. unfold get_initial_relation.
    apply (cube_true_ext w (ev c src)); [|apply (init_true c flag s He); auto].
    intros x Hx. apply Hz. apply (init_vars c flag s He) in Hx. apply is_latch_iff in Hx. lia.
  - apply (e_s_true _ _ _ He). intros v r0 r1 G _. unfold gate_holds.
    assert (Hv : v <> 0) by (apply gate_range in G; lia).
    rewrite Hz by auto. rewrite (ev_gate c src v r0 r1 Hwf G).
    f_equal; apply lit_value_ext; unfold zero; destruct (lit_var _ =? 0) eqn:E;
      try (apply N.eqb_eq in E; rewrite E; reflexivity); symmetry; apply Hz; lia.
  - unfold get_unsafety_property. rewrite (e_bad _ _ _ He). exists l. rewrite in_clause_new. split; auto.
    apply lit_true_value. unfold lit_value. rewrite H0. unfold w. simpl. destruct (lit_neg l); reflexivity.
Qed.

Lemma constant_api : api_cnf (p_initial (pdr_cache s)) /\ api_cnf (p_initial_and_t (pdr_cache s)) /\
  api_cnf (p_initial_and_not_p (pdr_cache s)) /\
  cnf_max (p_initial (pdr_cache s)) <= 2147483645 /\ cnf_max (p_initial_and_t (pdr_cache s)) <= 2147483645 /\
  cnf_max (p_initial_and_not_p (pdr_cache s)) <= 2147483645.
Proof.
  destruct constant_encodes as (Hwf & He). cbn [pdr_cache p_initial p_initial_and_t p_initial_and_not_p].
  unfold get_initial_relation, get_state_to_safety_translation, get_transition_relation, get_unsafety_property.
  pose proof (e_s_api _ _ _ He). pose proof (e_t_api _ _ _ He). pose proof (unsafe_api c flag s He).
  assert (A1 : api_cnf (cube_to_cnf (initial_states s))) by auto with api.
  assert (A2 : api_cnf (cnf_append (cnf_append cnf_new (cube_to_cnf (initial_states s))) (transition s)))
    by auto with api.
  assert (A3 : api_cnf (cnf_add_clause (cnf_append (cnf_append cnf_new (cube_to_cnf (initial_states s)))
     (state_to_safety_translation s)) (unsafety_property s))) by auto with api.
  assert (V1 : cnf_vars (fun v => v <= 2147483645) (cube_to_cnf (initial_states s))).
  { apply cube_to_cnf_vars. intros l Hl. apply (init_vars c flag s He) in Hl. apply latch_le_max in Hl. lia. }
  assert (V0 : cnf_vars (fun v => v <= 2147483645) cnf_new) by (intros d []).
  do 3 (split; [assumption|]). split; [apply max_below; auto|]. split; apply max_below; auto.
  - repeat apply cnf_append_vars; auto. eapply cnf_vars_impl; [|apply (e_t_vars _ _ _ He)].
    intros v [Hv|Hv]; [lia|]. apply latch_le_max in Hv. lia.
  - apply cnf_add_vars; [repeat apply cnf_append_vars; auto|].
    + eapply cnf_vars_impl; [|apply (e_s_vars _ _ _ He)]. intros v Hv. cbv beta in Hv. lia.
    + rewrite (e_bad _ _ _ He). intros l Hl. apply (proj1 (in_clause_new _ _)) in Hl.
      pose proof (bad_range c flag Hwf) as Rg. rewrite Forall_forall in Rg. specialize (Rg l Hl).
      unfold lit_in_range in Rg. lia.
Qed.

(** What both stateful adapters do on the formulas of the first frame. *)
Definition reports (SS : StatefulSolver) : Prop :=
  (exists st, solver_with SS (p_initial (pdr_cache s)) = Ok st) /\
  (exists st, solver_with SS (p_initial_and_t (pdr_cache s)) = Ok st) /\
  exists st st' asg, solver_with SS (p_initial_and_not_p (pdr_cache s)) = Ok st /\
    ss_solve SS st None None = Ok (Sat asg, st') /\
    forall v, is_latch c v -> get_value asg v <> None.

Lemma constant_ctx R SS fuel : random_ok R -> reports SS ->
  pdr Release R SS (S fuel) s = Ok (ProofCTX 0).
Proof.
  intros HR ((st1 & E1) & (st2 & E2) & st & st' & asg & E3 & E4 & E5).
  destruct constant_encodes as (Hwf & He).
  destruct (extract_state_from_assignment Release s asg) as [q| |] eqn:Eq;
    [|rewrite extract_ok in Eq; [discriminate| |]..].
  - unfold pdr, pdr_run, pdr_prove, new_frame, pdr_new, z_new_frame, solver_lengths, nat_sub, swap.
    set (ecube := extract_state_from_assignment) in *. set (icone := intersect_cube_with_cone_of_safety) in *.
    cbn -[solver_with pdr_cache cube_new cube_len].
    rewrite E3. cbn -[solver_with pdr_cache cube_new cube_len]. rewrite E1.
    cbn -[solver_with pdr_cache cube_new cube_len]. rewrite E2.
    cbn -[solver_with pdr_cache cube_new cube_len]. unfold z_get_bad_cube. cbn -[cube_new cube_len]. rewrite E4.
    cbn -[cube_new cube_len]. fold ecube icone. rewrite Eq. cbn -[cube_new cube_len].
    unfold rec_block_cube. cbn. unfold queue_push. cbn. unfold queue_pop.
    match goal with |- context [R 0%nat ?A ?l] => pose proof (HR 0%nat A l) as Hp end.
    apply Permutation_sym, Permutation_length_1_inv in Hp. rewrite Hp. cbn. reflexivity.
  - intros v Hv. rewrite (e_states _ _ _ He), in_states in Hv. pose proof (latch_le_max _ _ Hv).
    apply is_latch_iff in Hv. lia.
  - intros v Hv. rewrite (e_states _ _ _ He), in_states in Hv. auto.
  - intros v Hv. rewrite (e_states _ _ _ He), in_states in Hv. pose proof (latch_le_max _ _ Hv).
    apply is_latch_iff in Hv. lia.
  - intros v Hv. rewrite (e_states _ _ _ He), in_states in Hv. auto.
Qed.

Hypothesis Hreset : forall v nx r, latch c v nx r -> r = 0 \/ r = 1.

(** Every latch has its reset value in every model of the first query. *)
Lemma constant_latch v : is_latch c v -> exists x, forall w,
  cnf_true w (p_initial_and_not_p (pdr_cache s)) -> w v = x.
Proof.
  intros (nx & r & L). destruct constant_encodes as (Hwf & He). exists (r =? 1). intros w H.
  cbn [pdr_cache p_initial_and_not_p] in H. rewrite cnf_add_clause_true, !cnf_append_true in H.
  destruct H as (((_ & H) & _) & _). rewrite cube_to_cnf_true in H.
  apply (init_true c flag s He) in H. destruct (H _ _ _ L) as (H0 & H1).
  destruct (Hreset _ _ _ L) as [->| ->]; auto.
Qed.

Lemma constant_latch_max v : is_latch c v -> v <= cnf_max (p_initial_and_not_p (pdr_cache s)).
Proof.
  intros Hv. destruct (N.le_gt_cases v (cnf_max (p_initial_and_not_p (pdr_cache s)))) as [|Hgt]; auto.
  exfalso. destruct constant_api as (_ & _ & A & _). destruct (constant_latch v Hv) as (x & Hx).
  destruct constant_first_sat as (w & Hw). pose proof (Hx w Hw) as E1.
  assert (Hw' : cnf_true (fun y => if y =? v then negb x else w y) (p_initial_and_not_p (pdr_cache s))).
  { intros d Hd. apply (clause_true_ext w); [|apply Hw; auto]. intros l Hl.
    pose proof (in_cnf_max _ _ _ A Hd Hl). destruct (lit_var l =? v) eqn:E; auto. lia. }
  apply Hx in Hw'. rewrite N.eqb_refl in Hw'. destruct x; discriminate.
Qed.

Lemma minisat_reports E order : minisat_ok E -> order_ok order ->
  reports (minisat_stateful Release E order).
Proof.
  intros HE Ho. destruct constant_api as (A1 & A2 & A3 & M1 & M2 & M3).
  unfold reports, solver_with. cbn [ss_add_cnf ss_new ss_solve minisat_stateful].
  rewrite !mini_first by auto. split; [eauto|]. split; [eauto|].
  pose proof constant_latch_max as Hin.
  destruct constant_first_sat as (w & Hw). set (f := p_initial_and_not_p (pdr_cache s)) in *.
  pose proof (fun d z => first_legal order f d z Ho A3 M3) as Q3.
  assert (M3' : cnf_max f <= 2147483647) by lia.
  assert (Q2 : ints_true (fun z => w (Z.to_N (z - 1))) (first_clauses order f)).
  { apply first_true; auto. intros d Hd. apply (clause_true_ext w); [|apply Hw; auto].
    intros l Hl. f_equal. lia. }
  unfold mini_solve, mini_solve_cube, mini_solve_raw. cbn [bind].
  specialize (HE 0%nat (first_clauses order f) [] (fun d z Hd Hz => proj1 (Q3 d z Hd Hz)) (fun H => H)).
  destruct (E 0%nat (first_clauses order f) []) as [model|] eqn:EE.
  - destruct (decode Release (first_table f) _ (fun t => Some (model t))
      (mini_model_to_dimacs model (first_table f)) (first_table_ok f M3')) as (asg & Ea & Hd & _).
    { intros z. unfold mini_model_to_dimacs. rewrite in_map_iff. split.
      - intros ([j t] & <- & Hj). exists j, t, (model t). auto.
      - intros (j & t & x & Hj & Ex & ->). inv Ex. exists (j, t). auto. }
    do 3 eexists. split; [reflexivity|]. cbn [mini_calls mini_clauses mini_table mini_next].
    rewrite EE, Ea. split; [reflexivity|]. intros v Hv. pose proof (Hin v Hv). apply is_latch_iff in Hv.
    rewrite Hd; [discriminate|lia|rewrite first_length; lia].
  - exfalso. apply HE. eexists. split; [exact Q2|]. intros z [].
Qed.

Lemma cadical_reports E order : cadical_ok E -> order_ok order ->
  reports (cadical_stateful Release E order).
Proof.
  intros HE Ho. destruct constant_api as (A1 & A2 & A3 & M1 & M2 & M3).
  unfold reports, solver_with. cbn [ss_add_cnf ss_new ss_solve cadical_stateful].
  rewrite !cad_first by auto. split; [eauto|]. split; [eauto|].
  pose proof constant_latch_max as Hin. pose proof constant_latch as Hla.
  destruct constant_first_sat as (w & Hw). set (f := p_initial_and_not_p (pdr_cache s)) in *.
  pose proof (fun d z => first_legal order f d z Ho A3 M3) as Q3.
  assert (M3' : cnf_max f <= 2147483647) by lia.
  assert (Q2 : ints_true (fun z => w (Z.to_N (z - 1))) (first_clauses order f)).
  { apply first_true; auto. intros d Hd. apply (clause_true_ext w); [|apply Hw; auto].
    intros l Hl. f_equal. lia. }
  assert (Q4 : ints_i32 ([] :: first_clauses order f)).
  { intros d z [<-|Hd] Hz; [destruct Hz|eauto]. }
  unfold cad_solve, cad_solve_cube, cad_solve_raw. cbn [bind].
  specialize (HE 0%nat (first_clauses order f) [] Q4).
  destruct (E 0%nat (first_clauses order f) []) as [value| |] eqn:EE; [| |destruct HE].
  - destruct (decode Release (first_table f) _ value
      (cad_model_to_dimacs value (first_table f)) (first_table_ok f M3')) as (asg & Ea & Hd & _).
    { intros z. unfold cad_model_to_dimacs. rewrite in_flat_map. split.
      - intros ([j t] & Hj & Hz). destruct (value t) as [x|] eqn:Ev; [|destruct Hz].
        destruct Hz as [<-|[]]. exists j, t, x. auto.
      - intros (j & t & x & Hj & Ex & ->). exists (j, t). split; auto. rewrite Ex. left; auto. }
    do 3 eexists. split; [reflexivity|]. cbn [cad_calls cad_clauses cad_table cad_new].
    rewrite EE, Ea. split; [reflexivity|]. intros v Hv. pose proof (Hin v Hv) as Hle.
    destruct (Hla v Hv) as (x & Hx). apply is_latch_iff in Hv.
    rewrite Hd; [|lia|rewrite first_length; lia]. rewrite first_entry by auto. intros Hnone.
    specialize (HE (fun z => match value z with Some y => y | None => negb x end)).
    destruct HE as [H1 _]; [intros z y _ Ev; rewrite Ev; reflexivity|].
    apply first_true in H1; auto. apply Hx in H1. cbv beta in H1. rewrite Hnone in H1. destruct x; discriminate.
  - exfalso. apply HE. eexists. split; [exact Q2|]. intros z [].
Qed.

End Constant.

Lemma constant_bad_ic3 c flag s : system_of Release c flag s -> 2 * c_max c <= 2147483645 ->
  (exists l, In l (bad_literals c flag) /\ lit_var l = 0) -> c_max c <> 0 ->
  (forall R fuel T, ic3_stateless Release R T fuel s = Panic) /\
  (forall R fuel SS, ic3_stateful Release R SS fuel s = Panic).
Proof.
  intros H Hm Hc HM. pose proof (constant_cache c flag s H Hm Hc HM) as E.
  split; intros R fuel X; [unfold ic3_stateless, ic3_stateless_run|unfold ic3_stateful, ic3_stateful_run]; rewrite E; reflexivity.
Qed.

Lemma constant_bad_pdr c flag s : system_of Release c flag s -> 2 * c_max c <= 2147483645 ->
  (exists l, In l (bad_literals c flag) /\ lit_var l = 0) ->
  (forall v nx r, latch c v nx r -> r = 0 \/ r = 1) ->
  (forall R fuel o E, random_ok R -> order_ok o -> minisat_ok E ->
     pdr Release R (minisat_stateful Release E o) (S fuel) s = Ok (ProofCTX 0)) /\
  (forall R fuel o E, random_ok R -> order_ok o -> cadical_ok E ->
     pdr Release R (cadical_stateful Release E o) (S fuel) s = Ok (ProofCTX 0)).
Proof.
  intros H Hm Hc Hr. split; intros R fuel o E HR Ho HE; eapply constant_ctx;
    eauto using minisat_reports, cadical_reports.
Qed.

(* ------------------------------------------------------------------------ the witness *)

(** A latch that toggles from 0; the bad literal is the constant false. *)
Definition never_bad_circuit : circuit := mkCircuit 0 [(3, 0)] [] [0] [] [].

Lemma never_bad_safe : safe never_bad_circuit false.
Proof.
  intros w (Hr & _) n (l & [<-|[]] & Hl). destruct (Hr n) as (H0 & _).
  unfold lit_value in Hl. change (lit_neg 0) with false in Hl. change (lit_var 0) with 0 in Hl.
  rewrite H0 in Hl. discriminate.
Qed.

Lemma never_bad_resets v nx r : latch never_bad_circuit v nx r -> r = 0 \/ r = 1.
Proof. intros (j & Hj & _). destruct j as [|[|j]]; simpl in Hj; inv Hj. auto. Qed.

Lemma constant_bad_refuted :
  exists v c syms comment a s, Forall (fun x => x < 256) v /\ file v c syms comment /\
    2 * c_max c <= 2147483645 /\ safe c false /\
    from_vector_of_bytes v = Ok a /\ from_aig Debug (fun l => l) a false = Panic /\
    from_aig Release (fun l => l) a false = Ok s /\
    (forall R fuel o E, random_ok R -> order_ok o -> minisat_ok E ->
       pdr Release R (minisat_stateful Release E o) (S fuel) s = Ok (ProofCTX 0)) /\
    (forall R fuel o E, random_ok R -> order_ok o -> cadical_ok E ->
       pdr Release R (cadical_stateful Release E o) (S fuel) s = Ok (ProofCTX 0)) /\
    (forall R fuel T, ic3_stateless Release R T fuel s = Panic) /\
    (forall R fuel SS, ic3_stateful Release R SS fuel s = Panic).
Proof.
  exists (encode ex_style never_bad_circuit), never_bad_circuit.
  assert (B : Forall (fun x => x < 256) (encode ex_style never_bad_circuit)).
  { apply Forall_forall. intros x Hx. apply N.ltb_lt.
    apply (proj1 (forallb_forall (fun x => x <? 256) (encode ex_style never_bad_circuit))); auto. }
  assert (W : circuit_wfb never_bad_circuit = true) by reflexivity.
  assert (FF : file_fits never_bad_circuit) by (vm_compute; repeat split).
  destruct (encoded_file never_bad_circuit W FF B) as (syms & comment & F).
  exists syms, comment.
  destruct (from_vector_of_bytes (encode ex_style never_bad_circuit)) as [a| |] eqn:Ea;
    [|vm_compute in Ea; discriminate..].
  destruct (fsts_of Release never_bad_circuit false) as [s| |] eqn:Es; [|vm_compute in Es; discriminate..].
  pose proof (fsts_of_system _ _ _ _ W FF Es) as Hs.
  assert (Hm : 2 * c_max never_bad_circuit <= 2147483645) by (vm_compute; discriminate).
  assert (Hc : exists l, In l (bad_literals never_bad_circuit false) /\ lit_var l = 0)
    by (exists 0; split; [left|]; reflexivity).
  exists a, s. split; [exact B|]. split; [exact F|]. split; [exact Hm|].
  split; [exact never_bad_safe|]. split; [reflexivity|]. split.
  { clear - Ea. vm_compute in Ea. injection Ea as <-. vm_compute. reflexivity. }
  split.
  { unfold fsts_of in Es. rewrite Ea in Es. exact Es. }
  destruct (constant_bad_pdr _ _ _ Hs Hm Hc never_bad_resets) as (P1 & P2).
  destruct (constant_bad_ic3 _ _ _ Hs Hm Hc) as (I1 & I2); [vm_compute; discriminate|].
  auto.
Qed.
