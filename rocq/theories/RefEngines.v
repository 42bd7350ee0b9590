(** The reference engines meet the engine contracts. *)
From Verif Require Import Base Formulas FormulaLogic Solvers Brute Spec SpecText SpecSolver Tac
  FormulasFacts TextFacts LogicFacts BruteFacts SolverFacts.
Open Scope Z_scope.

Lemma in_fold_add c ds f : In c (cnf_clauses (fold_left cnf_add_clause ds f)) <->
  In c (cnf_clauses f) \/ In c ds.
Proof.
  revert f; induction ds as [|d ds IH]; intros f; cbn [fold_left].
  - simpl. intuition.
  - rewrite IH, in_add_clause. simpl. intuition.
Qed.

Lemma ref_cnf_api cs asm : api_cnf (ref_cnf cs asm).
Proof.
  unfold ref_cnf. set (ds := _ ++ _).
  assert (H : forall d, In d ds -> api_clause d).
  { intros d Hd. unfold ds in Hd. apply in_app_iff in Hd as [Hd|Hd];
      apply in_map_iff in Hd as (x & <- & _); auto with api. }
  clearbody ds. assert (G : forall f, api_cnf f -> api_cnf (fold_left cnf_add_clause ds f)).
  { induction ds as [|d ds IH]; cbn [fold_left]; intros f Hf; auto. apply IH; [intros; apply H; right; auto|].
    apply api_cnf_add; auto. apply H; left; auto. }
  apply G, api_cnf_new.
Qed.

Lemma ref_lit_var z : lit_var (ref_lit z) = Z.to_N (Z.abs z).
Proof. unfold ref_lit, lit_var. destruct (z <? 0) eqn:E; lia. Qed.

Lemma ref_lit_true (a : Z -> bool) z :
  (lit_true (fun v => a (Z.of_N v)) (ref_lit z) <-> int_true a z).
Proof.
  unfold lit_true, int_true. rewrite ref_lit_var. unfold lit_neg. rewrite odd_mod.
  unfold ref_lit. destruct (z <? 0) eqn:E.
  - replace ((2 * Z.to_N (- z) + 1) mod 2 =? 1)%N with true by lia.
    replace (Z.of_N (Z.to_N (Z.abs z))) with (- z) by lia. destruct (a (- z)); simpl; split; congruence.
  - replace (2 * Z.to_N z mod 2 =? 1)%N with false by lia.
    replace (Z.of_N (Z.to_N (Z.abs z))) with z by lia. destruct (a z); simpl; split; congruence.
Qed.

Lemma ref_cnf_true (a : Z -> bool) cs asm :
  (cnf_true (fun v => a (Z.of_N v)) (ref_cnf cs asm) <-> ints_true a cs /\ all_int_true a asm).
Proof.
  unfold cnf_true, clauses_true, ref_cnf. setoid_rewrite in_fold_add. setoid_rewrite in_app_iff. split.
  - intros H. split.
    + intros c Hc. destruct (H (clause_new (map ref_lit c))) as (l & Hl & Ht).
      { right; left. apply in_map_iff; eauto. }
      rewrite in_clause_new in Hl. apply in_map_iff in Hl as (z & <- & Hz). exists z; split; auto.
      apply ref_lit_true; auto.
    + intros z Hz. destruct (H (clause_new [ref_lit z])) as (l & Hl & Ht).
      { right; right. apply in_map_iff; eauto. }
      destruct Hl as [<-|[]]. apply ref_lit_true; auto.
  - intros [H1 H2] c [Hc|[Hc|Hc]]; [destruct Hc| |].
    + apply in_map_iff in Hc as (d & <- & Hd). destruct (H1 d Hd) as (z & Hz & Hi).
      apply clause_new_true. exists (ref_lit z). split; [apply in_map; auto|]. apply ref_lit_true; auto.
    + apply in_map_iff in Hc as (z & <- & Hz). apply unit_true, ref_lit_true; auto.
Qed.

Lemma ref_range cs asm : ints_legal cs -> ~ In 0 asm ->
  in_range (cnf_max (ref_cnf cs asm)) (cnf_clauses (ref_cnf cs asm)).
Proof.
  intros Hc Ha c l Hin Hl. rewrite cnf_max_max_var by apply ref_cnf_api. split; [|eapply max_var_in; eauto].
  unfold ref_cnf in Hin. apply in_fold_add in Hin as [[]|Hin].
  apply in_app_iff in Hin as [Hin|Hin]; apply in_map_iff in Hin as (d & <- & Hd);
    rewrite in_clause_new in Hl.
  - apply in_map_iff in Hl as (z & <- & Hz). rewrite ref_lit_var. pose proof (Hc d z Hd Hz). lia.
  - destruct Hl as [<-|[]]. rewrite ref_lit_var. assert (d <> 0) by (intros ->; auto). lia.
Qed.

Lemma ref_solve_correct cs asm : ints_legal cs -> ~ In 0 asm ->
  match ref_solve cs asm with
  | Sat asg => satisfies_clauses asg (cnf_clauses (ref_cnf cs asm)) /\
               defined_upto asg (cnf_max (ref_cnf cs asm))
  | UnSat => ~ ints_satisfiable cs asm
  end.
Proof.
  intros Hc Ha. pose proof (brute_solve_correct _ _ (ref_range cs asm Hc Ha)) as H.
  unfold ref_solve. destruct (brute_solve _ _); auto.
  intros (a & H1 & H2). apply H. exists (fun v => a (Z.of_N v)). apply ref_cnf_true; auto.
Qed.

Lemma ref_max cs asm c z : In c (asm :: cs) -> In z c -> (Z.to_N (Z.abs z) <= cnf_max (ref_cnf cs asm))%N.
Proof.
  intros Hc Hz. rewrite cnf_max_max_var by apply ref_cnf_api. rewrite <- ref_lit_var.
  destruct Hc as [<-|Hc].
  - apply (max_var_in _ (clause_new [ref_lit z])); [|left; auto].
    apply in_fold_add. right. apply in_app_iff. right. apply in_map_iff; eauto.
  - apply (max_var_in _ (clause_new (map ref_lit c))).
    + apply in_fold_add. right. apply in_app_iff. left. apply in_map_iff; eauto.
    + apply in_clause_new, in_map; auto.
Qed.

(** Any valuation of integers that agrees with the assignment makes the input true. *)
Lemma ref_sat cs asm asg (a : Z -> bool) : ints_legal cs -> ~ In 0 asm ->
  satisfies_clauses asg (cnf_clauses (ref_cnf cs asm)) ->
  (forall v x, 1 <= v -> get_value asg (Z.to_N v) = Some x -> a v = x) ->
  ints_true a cs /\ all_int_true a asm.
Proof.
  intros Hc Ha Hs Hg. apply ref_cnf_true.
  set (w := fun v : N => if (v =? 0)%N then match get_value asg 0%N with Some x => x | None => false end else a (Z.of_N v)).
  assert (Hw : cnf_true w (ref_cnf cs asm)).
  { apply Hs. intros v x Hv. unfold w. destruct (v =? 0)%N eqn:E.
    - apply N.eqb_eq in E. subst. rewrite Hv. auto.
    - apply Hg; [lia|]. rewrite N2Z.id. auto. }
  intros c Hin. destruct (Hw c Hin) as (l & Hl & Ht). exists l. split; auto.
  revert Ht. unfold lit_true, w.
  destruct (ref_range cs asm Hc Ha c l Hin Hl) as [H1 _].
  destruct (lit_var l =? 0)%N eqn:E; [lia|auto].
Qed.

Lemma i32_legal cs asm : ints_i32 (asm :: cs) -> ints_legal cs /\ ~ In 0 asm.
Proof.
  intros H. split.
  - intros c z Hc Hz. apply (H c z); simpl; auto.
  - intros Hz. destruct (H asm 0 (or_introl eq_refl) Hz). auto.
Qed.

Lemma ref_cadical_ok : cadical_ok ref_cadical.
Proof.
  intros n cs asm Hi. destruct (i32_legal _ _ Hi) as [Hc Ha]. unfold ref_cadical. pose proof (ref_solve_correct cs asm Hc Ha) as H.
  destruct (ref_solve cs asm) as [|asg]; auto. intros a Hg. eapply ref_sat; eauto. apply H.
Qed.

Lemma ref_cadical_values : cadical_values ref_cadical.
Proof.
  intros n cs asm value Hi. destruct (i32_legal _ _ Hi) as [Hc Ha]. unfold ref_cadical. pose proof (ref_solve_correct cs asm Hc Ha) as H.
  destruct (ref_solve cs asm) as [|asg]; [discriminate|]. intros E; inv E.
  intros c z v Hcin Hz Hv. apply H. pose proof (ref_max cs asm c z Hcin Hz). lia.
Qed.

Lemma ref_minisat_ok : minisat_ok ref_minisat.
Proof.
  intros n cs asm Hc Ha. unfold ref_minisat. pose proof (ref_solve_correct cs asm Hc Ha) as H.
  destruct (ref_solve cs asm) as [|asg]; auto. eapply ref_sat; eauto; [apply H|].
  intros v x _ E. rewrite E. auto.
Qed.

Lemma ref_model_ok cs asg : ints_i32 cs ->
  satisfies_clauses asg (cnf_clauses (ref_cnf cs [])) -> defined_upto asg (cnf_max (ref_cnf cs [])) ->
  list_model (ref_model cs asg) cs /\
  forall c z v, In c cs -> In z c -> 1 <= v <= Z.abs z ->
    In v (ref_model cs asg) \/ In (- v) (ref_model cs asg).
Proof.
  intros Hc Hs Hd.
  assert (Hl : ints_legal cs) by (intros c z Hin Hz; apply (Hc c z); auto).
  set (m := cnf_max (ref_cnf cs [])) in *.
  assert (Hm : Z.of_N m <= 2147483647).
  { unfold m. rewrite cnf_max_max_var by apply ref_cnf_api.
    enough (max_var (cnf_clauses (ref_cnf cs [])) <= 2147483647)%N by lia.
    apply max_var_le. intros c l Hin Hl'. unfold ref_cnf in Hin.
    apply in_fold_add in Hin as [[]|Hin]. rewrite app_nil_r in Hin.
    apply in_map_iff in Hin as (d & <- & Hd'). rewrite in_clause_new in Hl'.
    apply in_map_iff in Hl' as (z & <- & Hz). rewrite ref_lit_var. pose proof (Hc d z Hd' Hz). lia. }
  set (val := fun v : Z => match get_value asg (Z.to_N v) with Some true => true | _ => false end).
  assert (Hin : forall z, In z (ref_model cs asg) <-> 1 <= Z.abs z <= Z.of_N m /\ int_true val z).
  { intros z. unfold ref_model. fold m. rewrite in_map_iff. split.
    - intros (i & E & Hi). apply in_seq in Hi. unfold int_true, val.
      destruct (get_value asg (N.of_nat i)) as [[]|] eqn:Eg; subst z.
      + split; [lia|]. destruct (Z.of_nat i <? 0) eqn:Ei; [lia|].
        replace (Z.to_N (Z.of_nat i)) with (N.of_nat i) by lia. rewrite Eg. auto.
      + split; [lia|]. destruct (- Z.of_nat i <? 0) eqn:Ei; [|lia].
        replace (Z.to_N (- - Z.of_nat i)) with (N.of_nat i) by lia. rewrite Eg. auto.
      + split; [lia|]. destruct (- Z.of_nat i <? 0) eqn:Ei; [|lia].
        replace (Z.to_N (- - Z.of_nat i)) with (N.of_nat i) by lia. rewrite Eg. auto.
    - intros [Hz Ht]. exists (Z.to_nat (Z.abs z)). split; [|apply in_seq; lia].
      unfold int_true, val in Ht. replace (N.of_nat (Z.to_nat (Z.abs z))) with (Z.to_N (Z.abs z)) by lia.
      destruct (z <? 0) eqn:Ez.
      + replace (Z.to_N (- z)) with (Z.to_N (Z.abs z)) in Ht by lia.
        destruct (get_value asg (Z.to_N (Z.abs z))) as [[]|]; simpl in Ht; try discriminate; lia.
      + replace (Z.to_N z) with (Z.to_N (Z.abs z)) in Ht by lia.
        destruct (get_value asg (Z.to_N (Z.abs z))) as [[]|]; simpl in Ht; try discriminate; lia. }
  assert (Hneg : forall z, z <> 0 -> int_true val z -> ~ int_true val (- z)).
  { intros z Hz. unfold int_true. destruct (z <? 0) eqn:E1, (- z <? 0) eqn:E2; try lia.
    - destruct (val (- z)); simpl; congruence.
    - rewrite Z.opp_involutive. destruct (val z); simpl; congruence. }
  assert (Hval : ints_true val cs).
  { apply (ref_sat cs [] asg val); auto. intros v x Hv E. unfold val. rewrite E. destruct x; auto. }
  split; [split|].
  - intros z Hz. apply Hin in Hz as [Hz Ht]. split; [lia|]. split; [lia|].
    rewrite Hin. intros [_ Hn]. assert (Hz0 : z <> 0) by lia. exact (Hneg z Hz0 Ht Hn).
  - intros c Hcin. destruct (Hval c Hcin) as (z & Hz & Ht). exists z. split; auto. apply Hin.
    split; auto. pose proof (Hc c z Hcin Hz). pose proof (ref_max cs [] c z (or_intror Hcin) Hz). fold m in H0. lia.
  - intros c z v Hcin Hz Hv. pose proof (ref_max cs [] c z (or_intror Hcin) Hz) as Hmx. fold m in Hmx.
    rewrite !Hin. destruct (int_true_dec val v) as [Ht|Ht]; [left; split; auto; lia|].
    right. split; [lia|]. unfold int_true in *. destruct (- v <? 0) eqn:E; [|lia].
    rewrite Z.opp_involutive. destruct (v <? 0) eqn:E2; [lia|]. destruct (val v); simpl; congruence.
Qed.

Lemma ref_splr_ok : splr_ok ref_splr.
Proof.
  intros n cs Hc. unfold ref_splr.
  assert (Hl : ints_legal cs) by (intros c z Hin Hz; apply (Hc c z); auto).
  pose proof (ref_solve_correct cs [] Hl (fun x => x)) as H.
  destruct (ref_solve cs []) as [|asg]; auto. apply ref_model_ok; auto; apply H.
Qed.

Lemma ref_varisat_ok : varisat_ok ref_varisat.
Proof.
  intros n cs Hc. unfold ref_varisat.
  assert (Hl : ints_legal cs) by (intros c z Hin Hz; apply (Hc c z); auto).
  pose proof (ref_solve_correct cs [] Hl (fun x => x)) as H.
  destruct (ref_solve cs []) as [|asg]; auto. apply ref_model_ok; auto; apply H.
Qed.
