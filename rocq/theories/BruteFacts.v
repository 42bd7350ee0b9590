(** The brute-force solver meets the solver contracts, so the contracts are satisfiable. *)
From Verif Require Import Base Formulas FormulaLogic Solvers Brute Spec Tac FormulasFacts LogicFacts.
Open Scope N_scope.

Lemma all_subsets_range n t v : In t (all_subsets n) -> In v t -> 1 <= v <= N.of_nat n.
Proof.
  revert t; induction n as [|n IH]; simpl; intros t.
  - intros [<-|[]] [].
  - rewrite in_flat_map. intros (s & Hs & [<-|[<-|[]]]) Hv.
    + specialize (IH _ Hs Hv). lia.
    + destruct Hv as [<-|Hv]; [lia|]. specialize (IH _ Hs Hv). lia.
Qed.

Lemma all_subsets_complete n (a : valuation) :
  exists t, In t (all_subsets n) /\ forall v, 1 <= v <= N.of_nat n -> existsb (N.eqb v) t = a v.
Proof.
  induction n as [|n (t & Ht & IH)].
  - exists []; simpl; split; auto. intros; lia.
  - assert (Hn : existsb (N.eqb (N.of_nat (S n))) t = false).
    { destruct (existsb (N.eqb (N.of_nat (S n))) t) eqn:E; auto. apply existsb_exists in E as (x & Hx & Ex).
      pose proof (all_subsets_range _ _ _ Ht Hx). lia. }
    destruct (a (N.of_nat (S n))) eqn:Ea.
    + exists (N.of_nat (S n) :: t). split.
      * cbn [all_subsets]. apply in_flat_map. exists t; simpl; auto.
      * intros v Hv. cbn [existsb]. destruct (v =? N.of_nat (S n)) eqn:E.
        -- apply N.eqb_eq in E; subst; auto.
        -- simpl. apply IH. lia.
    + exists t. split.
      * cbn [all_subsets]. apply in_flat_map. exists t; simpl; auto.
      * intros v Hv. destruct (v =? N.of_nat (S n)) eqn:E.
        -- apply N.eqb_eq in E; subst. congruence.
        -- apply IH. lia.
Qed.

Definition in_range (m : N) (cs : list Clause) : Prop :=
  forall c l, In c cs -> In l (clause_lits c) -> 1 <= lit_var l <= m.

Lemma clause_in_true m t (a : valuation) c :
  (forall v, 1 <= v <= m -> existsb (N.eqb v) t = a v) ->
  (forall l, In l (clause_lits c) -> 1 <= lit_var l <= m) ->
  (clause_in t c = true <-> clause_true a c).
Proof.
  intros Ht Hr. unfold clause_in, clause_true. rewrite existsb_exists.
  split; intros (l & Hl & H); exists l; split; auto; revert H; unfold lit_in, lit_true;
    fold (lit_var l); rewrite Ht by auto; auto.
Qed.

Lemma brute_solve_correct m cs : in_range m cs ->
  match brute_solve m cs with
  | Sat asg => satisfies_clauses asg cs /\ defined_upto asg m
  | UnSat => ~ satisfiable cs
  end.
Proof.
  intros Hr. unfold brute_solve.
  destruct (find _ (all_subsets (N.to_nat m))) as [t|] eqn:E.
  - apply find_some in E as [Ht E]. rewrite forallb_forall in E.
    set (asg := mkAssignment t _).
    assert (Hv : forall v, 1 <= v <= m -> get_value asg v = Some (existsb (N.eqb v) t)).
    { intros v Hv. unfold get_value, asg, set_mem; simpl.
      destruct (existsb (N.eqb v) t) eqn:Ev; auto.
      assert (Hi : existsb (N.eqb v) (filter (fun v0 => negb (existsb (N.eqb v0) t)) (vars_upto (N.to_nat m))) = true).
      { apply existsb_exists. exists v. split; [|apply N.eqb_refl]. apply filter_In.
        rewrite Ev. split; auto. unfold vars_upto. apply in_map_iff. exists (N.to_nat v).
        split; [lia|]. apply in_seq. lia. }
      rewrite Hi. reflexivity. }
    split.
    + intros a Ha c Hc. apply (clause_in_true m t); auto.
      * intros v Hv'. symmetry. apply Ha. apply Hv; auto.
      * intros l Hl; eapply Hr; eauto.
    + intros v Hv'. rewrite Hv by auto. discriminate.
  - intros [a Ha]. destruct (all_subsets_complete (N.to_nat m) a) as (t & Ht & Hv).
    pose proof (find_none _ _ E t Ht) as Hn. cbv beta in Hn.
    assert (Hy : forallb (clause_in t) cs = true).
    { apply forallb_forall. intros c Hc. apply (clause_in_true m t a); auto.
      - intros v Hv'; apply Hv; lia.
      - intros l Hl; eapply Hr; eauto. }
    congruence.
Qed.

Lemma legal_in_range f : api_cnf f -> cnf_legal f -> in_range (cnf_max f) (cnf_clauses f).
Proof.
  intros Ha Hl c l Hc Hin. rewrite cnf_max_max_var by auto. split.
  - apply (cnf_legal_in f c Hl) in Hc. unfold clause_legal in Hc. rewrite Forall_forall in Hc.
    apply Hc in Hin. apply lit_legal_var in Hin. lia.
  - eapply max_var_in; eauto.
Qed.

Lemma brute_correct : solver_correct brute.
Proof.
  intros n f Ha Hl. unfold brute.
  pose proof (brute_solve_correct (cnf_max f) (cnf_clauses f) (legal_in_range f Ha Hl)) as H.
  destruct (brute_solve _ _) as [|asg]; [right|left]; auto. exists asg; intuition.
Qed.

Lemma brute_total : solver_total brute.
Proof.
  intros n f asg Ha Hl E. unfold brute in E. inv E.
  pose proof (brute_solve_correct (cnf_max f) (cnf_clauses f) (legal_in_range f Ha Hl)) as H.
  rewrite H0 in H. apply H.
Qed.

Lemma in_temp_clauses cube clause c : In c (temp_clauses cube clause) <->
  (exists q, cube = Some q /\ In c (cnf_clauses (cube_to_cnf q))) \/ clause = Some c.
Proof.
  unfold temp_clauses. rewrite in_app_iff.
  assert (E1 : In c (match cube with Some q => map (fun l => mkClause [l]) (cube_lits q) | None => [] end)
     <-> exists q, cube = Some q /\ In c (cnf_clauses (cube_to_cnf q))).
  { destruct cube as [q|].
    - rewrite in_map_iff. split.
      + intros (l & <- & Hl). exists q; split; auto. apply in_cube_to_cnf; eauto.
      + intros (q' & H & Hc). inv H. apply in_cube_to_cnf in Hc as (l & Hl & ->); eauto.
    - split; [intros []|]. intros (q & H & _); discriminate. }
  rewrite E1. destruct clause as [d|]; simpl; intuition congruence.
Qed.

Lemma clauses_true_same a cs ds : (forall c, In c cs <-> In c ds) -> clauses_true a cs <-> clauses_true a ds.
Proof. intros H. unfold clauses_true. split; intros Hc c Hi; apply Hc, H; auto. Qed.

Lemma brute_reaches st cs : reaches brute_stateful st cs ->
  api_cnf st /\ cnf_legal st /\ forall c, In c (cnf_clauses st) <-> In c cs.
Proof.
  induction 1 as [h|st cs f st' H (IH1 & IH2 & IH3) Ha Hl E|st cs cube clause r st' H IH Hq Hc E].
  - simpl. repeat split; auto with api; intros [].
  - simpl in E. inv E. repeat split; auto with api.
    + rewrite in_append, in_app_iff, IH3. auto.
    + rewrite in_append, in_app_iff, IH3. auto.
  - simpl in E. inv E. auto.
Qed.

Lemma brute_stateful_correct : stateful_correct brute_stateful.
Proof.
  intros st cs H. apply brute_reaches in H as (Ha & Hl & Hs). split.
  - intros f _ _. simpl. eauto.
  - intros cube clause Hq Hc all. cbn [ss_solve brute_stateful].
    set (f1 := match cube with Some q => cnf_append st (cube_to_cnf q) | None => st end).
    set (f2 := match clause with Some c => cnf_add_clause f1 c | None => f1 end).
    assert (Hf1 : api_cnf f1 /\ cnf_legal f1).
    { unfold f1. destruct cube as [q|]; auto. destruct (Hq q eq_refl). auto with api. }
    assert (Hf2 : api_cnf f2 /\ cnf_legal f2).
    { unfold f2. destruct clause as [c|]; auto. destruct (Hc c eq_refl), Hf1. auto with api. }
    assert (Hall : forall c, In c (cnf_clauses f2) <-> In c all).
    { intros c. unfold all. rewrite in_app_iff, in_temp_clauses, <- Hs. unfold f2, f1.
      destruct clause as [d|].
      - rewrite in_add_clause. destruct cube as [q|]; [rewrite in_append|]; split; intros X; intuition (subst; eauto);
        try congruence; repeat match goal with H : exists _, _ |- _ => destruct H as (? & ? & ?) end;
        try congruence; eauto.
      - destruct cube as [q|]; [rewrite in_append|]; split; intros X; intuition (subst; eauto);
        try congruence; repeat match goal with H : exists _, _ |- _ => destruct H as (? & ? & ?) end;
        try congruence; eauto. }
    destruct Hf2 as [Hf2 Hf2'].
    pose proof (brute_solve_correct (cnf_max f2) (cnf_clauses f2) (legal_in_range f2 Hf2 Hf2')) as H.
    destruct (brute_solve _ _) as [|asg].
    + right. eexists; split; eauto. intros [a X]. apply H. exists a.
      apply (clauses_true_same a _ _ Hall); auto.
    + left. eexists _, _; split; eauto. destruct H as [H1 H2]. split.
      * intros a X. apply (clauses_true_same a _ _ Hall); auto.
      * rewrite <- (max_var_same _ _ Hall), <- cnf_max_max_var; auto.
Qed.
