(** The stateful CaDiCaL adapter outside its budget of 32-bit literals: a debug build panics, so
    that every answer it gives is right. *)
From Verif Require Import Base Formulas FormulaLogic Solvers Spec SpecText SpecSolver Tac
  FormulasFacts LogicFacts SolverFacts StatefulFacts.
Open Scope Z_scope.

Lemma cad_push_length b n : forall next table table' next',
  cad_push b n next table = Ok (table', next') -> length table' = (length table + n)%nat.
Proof.
  induction n as [|n IH]; intros next table table' next' H; cbn [cad_push] in H.
  - inv H. lia.
  - apply bind_ok in H as ([l nx] & _ & H). apply IH in H. rewrite app_length in H.
    cbn [length] in H. lia.
Qed.

Lemma cad_extend_length b st f st1 : cad_extend b st f = Ok st1 ->
  length (cad_table st1) = Nat.max (length (cad_table st)) (N.to_nat (cnf_max f) + 1)%nat.
Proof.
  intros H. unfold cad_extend in H. apply bind_ok in H as ([t nx] & E & H). inv H.
  cbn [cad_table]. rewrite (cad_push_length _ _ _ _ _ _ E). unfold missing, lenN. lia.
Qed.

Lemma cad_extend_panics st f cs m k : cad_good st cs m k -> (m + k <= cad_budget)%N ->
  (N.max m (cnf_max f) + k > cad_budget)%N -> cad_extend Debug st f = Panic.
Proof.
  intros Hg Hb Hf. pose proof (cad_good_new _ _ _ _ Hg Hb) as Hn. destruct Hg as (_ & H1 & H2).
  unfold cad_extend. rewrite cad_push_panics; auto; [lia|].
  unfold missing, lenN, cad_budget in *. lia.
Qed.

(** The variables and temporary clauses that the state has room for. *)
Definition cad_within (st : CadState) (cs : list Clause) : Prop :=
  exists m k, cad_good st cs m k /\ (m + k <= cad_budget)%N /\
    (k = 0%N \/ (1 <= length (cad_table st))%nat).

(** ... with the exact number of variables. *)
Lemma cad_within_tight st cs : cad_within st cs ->
  exists m k, cad_good st cs m k /\ (m + k <= cad_budget)%N /\
    (Z.of_nat (length (cad_table st)) = Z.of_N m + 1 \/
     length (cad_table st) = 0%nat /\ m = 0%N /\ k = 0%N).
Proof.
  intros (m & k & (H1 & H2 & H3) & Hb & Hk).
  destruct (length (cad_table st)) as [|n] eqn:El.
  - exists 0%N, 0%N. destruct Hk as [->|Hk]; [|lia]. split; [|split; [unfold cad_budget; lia|auto]].
    split; auto. rewrite El in *. split; auto. lia.
  - exists (N.of_nat n), k. split; [|split; [lia|lia]]. split; auto. rewrite El in *. lia.
Qed.

Lemma cad_new_within h : cad_within (cad_new_state h) [].
Proof.
  exists 0%N, 0%N. split; [|split; [unfold cad_budget; lia|auto]].
  split; [split; [apply knows_init|]; intros c l []|]. simpl. lia.
Qed.

Lemma cad_add_within E order st f cs : order_ok order -> cad_within st cs -> api_cnf f ->
  cnf_legal f ->
  ss_add_cnf (cadical_stateful Debug E order) st f = Panic \/
  exists st', ss_add_cnf (cadical_stateful Debug E order) st f = Ok st' /\
    cad_within st' (cs ++ cnf_clauses f).
Proof.
  intros Ho H Ha Hl. cbn [cadical_stateful ss_add_cnf]. destruct H as (m & k & Hg & Hb & Hk).
  destruct (N.le_gt_cases (N.max m (max_var (cnf_clauses f)) + k) cad_budget) as [Hm|Hm].
  - right. destruct (cad_add_good Debug order st f cs m k Ho Hg Ha Hl Hm) as (st' & Es & Hg').
    exists st'. split; auto. exists (N.max m (max_var (cnf_clauses f))), k. split; auto. split; auto.
    right. unfold cad_add_cnf in Es. apply bind_ok in Es as (st1 & E1 & Es).
    apply cad_extend_length in E1.
    assert (G : forall ds s1 s2, foldM (fun st c => cl <- cad_translate Debug (cad_table st) (clause_iter c) ;;
       Ok (cad_add_raw st cl)) ds s1 = Ok s2 -> cad_table s2 = cad_table s1).
    { induction ds as [|d ds IH]; intros s1 s2 X; cbn [foldM] in X; [inv X; auto|].
      apply bind_ok in X as (s3 & X1 & X2). apply bind_ok in X1 as (cl & _ & X1). inv X1.
      rewrite (IH _ _ X2). reflexivity. }
    rewrite (G _ _ _ Es), E1. lia.
  - left. unfold cad_add_cnf. rewrite <- cnf_max_max_var in Hm by auto.
    rewrite (cad_extend_panics st f cs m k Hg Hb) by lia. reflexivity.
Qed.

Lemma cad_solve_table b E st cube c r st' : cad_solve b E st cube (Some c) = Ok (r, st') ->
  (1 <= length (cad_table st'))%nat.
Proof.
  intros H. unfold cad_solve in H. apply bind_ok in H as (st1 & E1 & H).
  apply bind_ok in H as (st2 & E2 & H). apply cad_extend_length in E2.
  unfold cad_handle_clause in H. apply bind_ok in H as (cl & _ & H).
  apply bind_ok in H as ([v nx] & _ & H). apply bind_ok in H as (nv & _ & H).
  apply bind_ok in H as (tc & _ & H). apply bind_ok in H as ([r1 st3] & E3 & H). inv H.
  unfold cad_solve_raw in E3. cbn [cad_add_raw cad_table]. destruct (E _ _ _).
  - apply bind_ok in E3 as (asg & _ & E3). inv E3. cbn [cad_add_raw cad_table]. lia.
  - inv E3. cbn [cad_add_raw cad_table]. lia.
  - discriminate.
Qed.

Lemma cad_solve_within E st cube clause cs : cadical_ok E -> cad_within st cs ->
  (forall q, cube = Some q -> api_cube q /\ cube_legal q) ->
  (forall c, clause = Some c -> api_clause c /\ clause_legal c) ->
  cad_solve Debug E st cube clause = Panic \/
  exists r st', cad_solve Debug E st cube clause = Ok (r, st') /\ cad_within st' cs /\
    right_answer (cadical_values E) r (cs ++ temp_clauses cube clause).
Proof.
  intros HE H Hq Hc. apply cad_within_tight in H as (m & k & Hg & Hb & Ht).
  pose proof (cad_solve_good Debug E st cube clause cs m k HE Hg Hq Hc) as G. cbv zeta in G.
  set (m' := N.max m (max_var (temp_clauses cube clause))) in *.
  set (k' := match clause with Some _ => (k + 1)%N | None => k end) in *.
  destruct (N.le_gt_cases (m' + k') cad_budget) as [Hm|Hm].
  - right. destruct (G Hm) as (r & st' & Es & Hg' & Hr). exists r, st'. split; auto. split; auto.
    exists m', k'. split; auto. split; auto.
    unfold k'. destruct clause as [c|]; [right; eapply cad_solve_table; eauto|].
    destruct Ht as [Ht|(_ & _ & ->)]; auto. right.
    destruct Hg' as (_ & Hn & _). unfold cad_solve in Es.
    apply bind_ok in Es as (st1 & E1 & Es). cbn [bind] in Es.
    assert (L : (1 <= length (cad_table st1))%nat).
    { destruct cube as [q|]; [apply cad_extend_length in E1; lia|inv E1; lia]. }
    unfold cad_solve_cube in Es. apply bind_ok in Es as (v & _ & Es). unfold cad_solve_raw in Es.
    destruct (E _ _ _).
    + apply bind_ok in Es as (asg & _ & Es). inv Es. auto.
    + inv Es. auto.
    + discriminate.
  - left. clear G. unfold cad_solve.
    pose proof (temp_max cube clause (fun c Ec => proj1 (Hc c Ec))) as Em.
    set (mq := match cube with Some q => cnf_max (cube_to_cnf q) | None => 0%N end) in *.
    set (mc := match clause with Some c => cnf_max (clause_to_cnf c) | None => 0%N end) in *.
    assert (H1 : match cube with Some q => cad_extend Debug st (cube_to_cnf q) | None => Ok st end = Panic \/
      exists st1, match cube with Some q => cad_extend Debug st (cube_to_cnf q) | None => Ok st end = Ok st1 /\
        cad_good st1 cs (N.max m mq) k /\ (N.max m mq + k <= cad_budget)%N /\
        length (cad_table st1) = match cube with Some _ =>
          Nat.max (length (cad_table st)) (N.to_nat mq + 1) | None => length (cad_table st) end).
    { unfold mq. destruct cube as [q|].
      - destruct (Hq q eq_refl) as [Hq1 Hq2].
        destruct (N.le_gt_cases (N.max m (cnf_max (cube_to_cnf q)) + k) cad_budget) as [Hx|Hx].
        + right. destruct (cad_extend_good Debug st (cube_to_cnf q) cs m k Hg) as (st1 & E1 & G1 & _);
            auto with api. exists st1. split; auto. split; auto. split; auto.
          apply (cad_extend_length _ _ _ _ E1).
        + left. apply (cad_extend_panics st _ cs m k); auto. lia.
      - right. exists st. replace (N.max m 0) with m by lia. auto. }
    destruct H1 as [->|(st1 & -> & Hg1 & Hb1 & L1)]; [reflexivity|]. cbn [bind].
    destruct clause as [c|]; [|exfalso; unfold m', k', mc in *; lia].
    destruct (Hc c eq_refl) as [Hc1 Hc2].
    destruct (N.le_gt_cases (N.max (N.max m mq) (cnf_max (clause_to_cnf c)) + k) cad_budget) as [Hx|Hx].
    + destruct (cad_extend_good Debug st1 (clause_to_cnf c) cs (N.max m mq) k Hg1)
        as (st2 & E2 & G2 & Hlen & _); auto with api.
      rewrite E2. cbn [bind]. apply cad_extend_length in E2.
      pose proof (cad_good_new _ _ _ _ G2 Hx) as Hn. destruct G2 as ((Hkn & _) & Hnew & _).
      unfold cad_handle_clause, clause_iter.
      rewrite (cad_translate_ok Debug _ (cad_new st2)); [|apply (kn_table _ _ _ _ Hkn)|lia|].
      2:{ intros l Hl. pose proof (in_clause_cnf_max _ _ Hc1 Hl). lia. }
      cbn [bind]. unfold cad_new_lit, i32_add, i32_wrap.
      replace (cad_new st2 + 1 <=? 2147483647) with false.
      2:{ symmetry. apply Z.leb_gt. unfold m', k', mc, cad_budget in *. rewrite Em in Hm.
          destruct cube; lia. }
      rewrite andb_false_r. reflexivity.
    + rewrite (cad_extend_panics st1 _ cs (N.max m mq) k Hg1 Hb1) by lia. reflexivity.
Qed.

Lemma cad_reaches_within E order st cs : order_ok order -> cadical_ok E ->
  reaches (cadical_stateful Debug E order) st cs -> cad_within st cs.
Proof.
  intros Ho HE. induction 1 as [h|st cs f st' H IH Ha Hl Es|st cs cube clause r st' H IH Hq Hc Es].
  - apply cad_new_within.
  - destruct (cad_add_within E order st f cs Ho IH Ha Hl) as [X|(st2 & X & Y)]; rewrite Es in X; inv X.
    auto.
  - destruct (cad_solve_within E st cube clause cs HE IH Hq Hc) as [X|(r2 & st2 & X & Y & _)];
      cbn [cadical_stateful ss_solve] in Es; rewrite Es in X; inv X. auto.
Qed.

Lemma cadical_stateful_debug_sound E order : order_ok order -> cadical_ok E ->
  stateful_sound (cadical_stateful Debug E order).
Proof.
  intros Ho HE st cs H. apply cad_reaches_within in H; auto. split.
  - intros f Ha Hl. destruct (cad_add_within E order st f cs Ho H Ha Hl) as [->|(st' & -> & _)]; discriminate.
  - intros cube clause Hq Hc all. cbn [cadical_stateful ss_solve].
    destruct (cad_solve_within E st cube clause cs HE H Hq Hc) as [->|(r & st' & -> & _ & G)]; auto.
    destruct r; cbn [right_answer] in G; auto. destruct G; auto.
Qed.
