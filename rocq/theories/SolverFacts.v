(** The adapters between CNFs and the third-party engines meet the solver contracts. *)
From Coq Require Import Sorted.
From Verif Require Import Base Formulas FormulaLogic Solvers Spec SpecText SpecSolver Tac
  FormulasFacts TextFacts LogicFacts BruteFacts.
Open Scope Z_scope.

Lemma int_true_dec a z : {int_true a z} + {~ int_true a z}.
Proof. apply bool_dec. Qed.

Lemma dimacs_literal_ok l : lit_legal l -> dimacs_literal l = Ok (dimacs_int l).
Proof.
  intros H. unfold dimacs_literal, i32_of_number, dimacs_int.
  rewrite get_number_div, is_negated_odd. unfold lit_legal in H.
  destruct (l / 2 <=? 2147483647)%N eqn:E; [|lia]. simpl. destruct (N.odd l); reflexivity.
Qed.

Lemma convert_cnf_ok order f : order_ok order -> cnf_legal f ->
  convert_cnf order f = Ok (map (fun c => map dimacs_int (clause_lits c)) (order (cnf_clauses f))).
Proof.
  intros Ho Hl. unfold convert_cnf. apply mapM_total. intros c Hc.
  apply mapM_total. intros l Hin. apply dimacs_literal_ok.
  apply (Permutation_in _ (Ho _)) in Hc. apply (cnf_legal_in f) in Hc; auto.
  unfold clause_legal in Hc. rewrite Forall_forall in Hc. auto.
Qed.

Definition of_N (a : valuation) : Z -> bool := fun z => a (Z.to_N z).

Lemma int_true_dimacs (a : Z -> bool) (v : valuation) l : lit_legal l ->
  a (Z.of_N (lit_var l)) = v (lit_var l) ->
  (int_true a (dimacs_int l) <-> lit_true v l).
Proof.
  intros Hl E. unfold int_true, lit_true, dimacs_int, lit_neg.
  apply lit_legal_var in Hl. unfold lit_var in *.
  destruct (N.odd l).
  - destruct (- Z.of_N (l / 2) <? 0) eqn:El; [|lia].
    rewrite Z.opp_involutive, E. destruct (v (l / 2)%N); simpl; split; congruence.
  - destruct (Z.of_N (l / 2) <? 0) eqn:El; [lia|].
    rewrite E. destruct (v (l / 2)%N); simpl; split; congruence.
Qed.

Definition to_ints (cs : list Clause) : list (list Z) := map (fun c => map dimacs_int (clause_lits c)) cs.

Lemma ints_true_clauses (a : Z -> bool) (v : valuation) cs : Forall clause_legal cs ->
  (forall x, (1 <= x)%N -> a (Z.of_N x) = v x) ->
  (ints_true a (to_ints cs) <-> clauses_true v cs).
Proof.
  intros Hl E. rewrite Forall_forall in Hl. unfold ints_true, clauses_true, to_ints.
  assert (G : forall c l, In c cs -> In l (clause_lits c) ->
    (int_true a (dimacs_int l) <-> lit_true v l)).
  { intros c l Hc Hi. apply int_true_dimacs.
    - apply Hl in Hc. unfold clause_legal in Hc. rewrite Forall_forall in Hc; auto.
    - apply E. apply Hl in Hc. unfold clause_legal in Hc. rewrite Forall_forall in Hc.
      apply Hc in Hi. apply lit_legal_var in Hi. lia. }
  split.
  - intros H c Hc. destruct (H (map dimacs_int (clause_lits c))) as (z & Hz & Ht).
    + apply in_map_iff; eauto.
    + apply in_map_iff in Hz as (l & <- & Hi). exists l; split; auto. apply (G c); auto.
  - intros H d Hd. apply in_map_iff in Hd as (c & <- & Hc).
    destruct (H c Hc) as (l & Hi & Ht). exists (dimacs_int l); split; [apply in_map; auto|].
    apply (G c); auto.
Qed.

Lemma to_ints_legal cs : Forall clause_legal cs -> ints_legal (to_ints cs).
Proof.
  rewrite Forall_forall. intros Hl d z Hd Hz. unfold to_ints in Hd.
  apply in_map_iff in Hd as (c & <- & Hc). apply in_map_iff in Hz as (l & <- & Hi).
  apply dimacs_int_nonzero. apply Hl in Hc. unfold clause_legal in Hc.
  rewrite Forall_forall in Hc; auto.
Qed.

Lemma dimacs_int_abs l : Z.abs (dimacs_int l) = Z.of_N (lit_var l).
Proof. unfold dimacs_int, lit_var. destruct (N.odd l); lia. Qed.

Lemma to_ints_i32 cs : Forall clause_legal cs -> ints_i32 (to_ints cs).
Proof.
  intros H c z Hc Hz. split; [eapply to_ints_legal; eauto|].
  unfold to_ints in Hc. apply in_map_iff in Hc as (d & <- & Hd). apply in_map_iff in Hz as (l & <- & Hi).
  rewrite Forall_forall in H. apply H in Hd. unfold clause_legal in Hd.
  rewrite Forall_forall in Hd. apply Hd in Hi. pose proof (dimacs_int_abs l) as E.
  apply lit_legal_var in Hi. lia.
Qed.

Lemma nil_i32 cs : ints_i32 cs -> ints_i32 ([] :: cs).
Proof. intros H c z [<-|Hc] Hz; [destruct Hz|eauto]. Qed.

Lemma order_legal order f : order_ok order -> cnf_legal f -> Forall clause_legal (order (cnf_clauses f)).
Proof. intros Ho Hl. eapply Permutation_Forall; [symmetry; apply Ho|]; auto. Qed.

Lemma order_true (order : clause_order) f v : order_ok order ->
  (clauses_true v (order (cnf_clauses f)) <-> cnf_true v f).
Proof.
  intros Ho. apply clauses_true_same. intros c. split; apply Permutation_in; [|symmetry]; apply Ho.
Qed.

Lemma ints_unsat f order : order_ok order -> cnf_legal f ->
  ~ ints_satisfiable (to_ints (order (cnf_clauses f))) [] -> ~ satisfiable (cnf_clauses f).
Proof.
  intros Ho Hl H [v Hv]. apply H. exists (of_N v). split.
  - apply (ints_true_clauses _ v); auto using order_legal.
    + intros x _. unfold of_N. f_equal. lia.
    + apply order_true; auto.
  - intros z [].
Qed.

(* ------------------------------------------------------------ list models (Splr, Varisat) *)

Lemma list_model_sat b model f order : order_ok order -> cnf_legal f ->
  list_model model (to_ints (order (cnf_clauses f))) ->
  exists asg, from_dimacs_assignment b model = Ok asg /\
    satisfies_clauses asg (cnf_clauses f) /\
    forall v, (1 <= v)%N -> In (Z.of_N v) model \/ In (- Z.of_N v) model -> get_value asg v <> None.
Proof.
  intros Ho Hl [Hm Hc].
  destruct (from_dimacs_get_value b model) as (asg & E & Hg).
  { apply Forall_forall. intros z Hz. apply Hm in Hz. unfold good_int. lia. }
  exists asg. split; auto. split.
  - intros v Hv. apply (order_true order); auto. intros c Hin.
    destruct (Hc (map dimacs_int (clause_lits c))) as (z & Hz & Hz').
    { apply in_map_iff; eauto. }
    apply in_map_iff in Hz as (l & <- & Hi). exists l; split; auto.
    assert (Hll : lit_legal l).
    { pose proof (order_legal order f Ho Hl) as X. rewrite Forall_forall in X.
      apply X in Hin. unfold clause_legal in Hin. rewrite Forall_forall in Hin; auto. }
    pose proof Hll as Hll'. apply lit_legal_var in Hll'.
    destruct (Hg (lit_var l)) as (G1 & G2 & G3); [lia|].
    unfold lit_true, lit_neg. unfold dimacs_int in Hz'. fold (lit_var l) in *.
    destruct (N.odd l).
    + assert (Ev : get_value asg (lit_var l) = Some false).
      { apply G2. split; auto. intros Hp. apply Hm in Hp. tauto. }
      rewrite (Hv _ _ Ev). reflexivity.
    + assert (Ev : get_value asg (lit_var l) = Some true) by (apply G1; auto).
      rewrite (Hv _ _ Ev). reflexivity.
  - intros v Hv Hin Hn. destruct (Hg v Hv) as (_ & _ & G3). apply G3 in Hn. tauto.
Qed.

Lemma splr_correct b E order : order_ok order -> splr_ok E ->
  solver_correct (splr_solve_cnf b E order).
Proof.
  intros Ho HE n f Ha Hl. unfold splr_solve_cnf. rewrite convert_cnf_ok by auto. cbn [bind].
  fold (to_ints (order (cnf_clauses f))).
  specialize (HE n _ (to_ints_i32 _ (order_legal order f Ho Hl))).
  destruct (E n _) as [model| | |]; cbn [bind].
  - destruct HE as [Hm _]. destruct (list_model_sat b model f order Ho Hl Hm) as (asg & Ea & Hs & _).
    left. exists asg. rewrite Ea. auto.
  - right. split; auto. eapply ints_unsat; eauto.
  - right. split; auto. eapply ints_unsat; eauto.
  - contradiction.
Qed.

Lemma max_var_witness cs : max_var cs = 0%N \/
  exists c l, In c cs /\ In l (clause_lits c) /\ max_var cs = lit_var l.
Proof.
  induction cs as [|c cs IH]; [left; reflexivity|]. rewrite max_var_cons.
  assert (Gc : clause_max c = 0%N \/ exists l, In l (clause_lits c) /\ clause_max c = lit_var l).
  { unfold clause_max. induction (clause_lits c) as [|k ks [IHk|(l & Hl & IHk)]]; simpl; auto.
    - right. exists k. split; auto. rewrite IHk. lia.
    - right. rewrite IHk. destruct (N.max_dec (lit_var k) (lit_var l)) as [E|E]; rewrite E; eauto. }
  destruct (N.max_dec (clause_max c) (max_var cs)) as [E|E]; rewrite E.
  - destruct Gc as [Gc|(l & Hl & Gc)]; auto. right. exists c, l. simpl; auto.
  - destruct IH as [IH|(d & l & Hd & Hl & IH)]; auto. right. exists d, l. simpl; auto.
Qed.

Lemma splr_total b E order : order_ok order -> splr_ok E ->
  solver_total (splr_solve_cnf b E order).
Proof.
  intros Ho HE n f asg Ha Hl. unfold splr_solve_cnf. rewrite convert_cnf_ok by auto. cbn [bind].
  fold (to_ints (order (cnf_clauses f))).
  specialize (HE n _ (to_ints_i32 _ (order_legal order f Ho Hl))).
  destruct (E n _) as [model| | |]; cbn [bind]; try discriminate.
  destruct HE as [Hm Hd]. destruct (list_model_sat b model f order Ho Hl Hm) as (asg' & Ea & _ & Hg).
  rewrite Ea. cbn [bind]. intros X; inv X. intros v Hv. apply Hg; [lia|].
  rewrite cnf_max_max_var in Hv by auto.
  destruct (max_var_witness (cnf_clauses f)) as [E0|(c & l & Hc & Hi & E0)]; [lia|].
  apply (Hd (map dimacs_int (clause_lits c)) (dimacs_int l)).
  - apply in_map_iff. exists c; split; auto. eapply Permutation_in; [symmetry; apply Ho|]; auto.
  - apply in_map; auto.
  - rewrite dimacs_int_abs. lia.
Qed.

Lemma varisat_correct b E order : order_ok order -> varisat_ok E ->
  solver_correct (varisat_solve_cnf b E order).
Proof.
  intros Ho HE n f Ha Hl. unfold varisat_solve_cnf. rewrite convert_cnf_ok by auto. cbn [bind].
  fold (to_ints (order (cnf_clauses f))).
  specialize (HE n _ (to_ints_i32 _ (order_legal order f Ho Hl))).
  destruct (E n _) as [model| |]; cbn [bind].
  - destruct (list_model_sat b model f order Ho Hl HE) as (asg & Ea & Hs & _).
    left. exists asg. rewrite Ea. auto.
  - right. split; auto. eapply ints_unsat; eauto.
  - contradiction.
Qed.

(* ---------------------------------------------------------------- CaDiCaL, stateless *)

Lemma max_variable_ints cs : max_variable (to_ints cs) = Z.of_N (max_var cs).
Proof.
  induction cs as [|c cs IH]; [reflexivity|].
  change (max_variable (to_ints (c :: cs))) with
    (Z.max (fold_right (fun l m => Z.max (Z.abs l) m) 0 (map dimacs_int (clause_lits c)))
       (max_variable (to_ints cs))).
  rewrite IH, max_var_cons.
  assert (G : fold_right (fun l m => Z.max (Z.abs l) m) 0 (map dimacs_int (clause_lits c)) =
              Z.of_N (clause_max c)).
  { unfold clause_max. induction (clause_lits c) as [|l ls IHl]; [reflexivity|].
    cbn [map fold_right]. rewrite IHl, dimacs_int_abs. lia. }
  rewrite G. lia.
Qed.

Lemma max_var_legal cs : Forall clause_legal cs -> (max_var cs <= 2147483647)%N.
Proof.
  intros H. apply max_var_le. intros c l Hc Hl. rewrite Forall_forall in H. apply H in Hc.
  unfold clause_legal in Hc. rewrite Forall_forall in Hc. apply Hc in Hl.
  apply lit_legal_var in Hl. lia.
Qed.

Lemma cadical_decode b value m : 0 <= m <= 2147483647 ->
  exists asg, from_dimacs_assignment b (cadical_model_to_dimacs value (m + 1)) = Ok asg /\
    (forall v, (1 <= v)%N -> Z.of_N v <= m ->
       get_value asg v = Some (match value (Z.of_N v) with Some x => x | None => true end)) /\
    (forall v, (1 <= v)%N -> m < Z.of_N v -> get_value asg v = None).
Proof.
  intros Hm. unfold cadical_model_to_dimacs. replace (m + 1 - 1) with m by lia.
  set (g := fun i : nat => _). set (zs := map g (seq 1 (Z.to_nat m))).
  assert (Hz : forall z, In z zs <-> exists i, 1 <= Z.of_nat i <= m /\ z = g i).
  { intros z. unfold zs. rewrite in_map_iff. split.
    - intros (i & <- & Hi). apply in_seq in Hi. exists i; split; auto. lia.
    - intros (i & Hi & ->). exists i; split; auto. apply in_seq. lia. }
  destruct (from_dimacs_get_value b zs) as (asg & E & Hg).
  { apply Forall_forall. intros z Hin. apply Hz in Hin as (i & Hi & ->). unfold good_int, g.
    destruct (value (Z.of_nat i)) as [[]|]; lia. }
  exists asg. split; auto. split.
  - intros v Hv Hvm. destruct (Hg v Hv) as (G1 & G2 & _).
    destruct (value (Z.of_N v)) as [[]|] eqn:Ev.
    + apply G1. apply Hz. exists (N.to_nat v). unfold g.
      replace (Z.of_nat (N.to_nat v)) with (Z.of_N v) by lia. rewrite Ev. split; [lia|auto].
    + apply G2. split.
      * intros Hin. apply Hz in Hin as (i & Hi & Ei). unfold g in Ei.
        destruct (value (Z.of_nat i)) as [[]|] eqn:E2; try lia;
          rewrite <- Ei in E2; congruence.
      * apply Hz. exists (N.to_nat v). unfold g.
        replace (Z.of_nat (N.to_nat v)) with (Z.of_N v) by lia. rewrite Ev. split; [lia|auto].
    + apply G1. apply Hz. exists (N.to_nat v). unfold g.
      replace (Z.of_nat (N.to_nat v)) with (Z.of_N v) by lia. rewrite Ev. split; [lia|auto].
  - intros v Hv Hvm. destruct (Hg v Hv) as (_ & _ & G3). apply G3.
    split; intros Hin; apply Hz in Hin as (i & Hi & Ei); unfold g in Ei;
      destruct (value (Z.of_nat i)) as [[]|]; lia.
Qed.

Lemma cadical_sat b E order n f : order_ok order -> cadical_ok E -> api_cnf f -> cnf_legal f ->
  (cnf_max f < 2147483647)%N ->
  (exists asg, cadical_solve_cnf b E order n f = Ok (Sat asg) /\
     satisfies_clauses asg (cnf_clauses f) /\ defined_upto asg (cnf_max f)) \/
  (cadical_solve_cnf b E order n f = Ok UnSat /\ ~ satisfiable (cnf_clauses f)).
Proof.
  intros Ho HE Ha Hl Hm. unfold cadical_solve_cnf. rewrite convert_cnf_ok by auto. cbn [bind].
  fold (to_ints (order (cnf_clauses f))).
  specialize (HE n _ [] (nil_i32 _ (to_ints_i32 _ (order_legal order f Ho Hl)))).
  destruct (E n _ []) as [value| |]; cbn [bind].
  - left. rewrite max_variable_ints.
    assert (Em : max_var (order (cnf_clauses f)) = cnf_max f).
    { rewrite cnf_max_max_var by auto. apply max_var_same.
      intros c; split; apply Permutation_in; [|symmetry]; apply Ho. }
    rewrite Em. unfold i32_add, i32_wrap.
    replace ((-2147483648 <=? Z.of_N (cnf_max f) + 1) && (Z.of_N (cnf_max f) + 1 <=? 2147483647))
      with true by lia. cbn [bind].
    destruct (cadical_decode b value (Z.of_N (cnf_max f))) as (asg & Ea & H1 & H2); [lia|].
    exists asg. rewrite Ea. split; auto. split.
    + intros v Hv. apply (order_true order); auto.
      set (a := fun z : Z => if z <=? Z.of_N (cnf_max f) then v (Z.to_N z)
                  else match value z with Some x => x | None => v (Z.to_N z) end).
      assert (Hta : ints_true a (to_ints (order (cnf_clauses f)))).
      { apply HE. intros x y Hx Hy. unfold a. destruct (x <=? Z.of_N (cnf_max f)) eqn:Ex.
        - apply Hv. rewrite H1 by lia. replace (Z.of_N (Z.to_N x)) with x by lia. rewrite Hy; auto.
        - rewrite Hy; auto. }
      intros c Hc. destruct (Hta (map dimacs_int (clause_lits c))) as (z & Hz & Ht).
      { apply in_map_iff; eauto. }
      apply in_map_iff in Hz as (l & <- & Hi). exists l; split; auto.
      assert (Hll : lit_legal l).
      { pose proof (order_legal order f Ho Hl) as X. rewrite Forall_forall in X.
        apply X in Hc. unfold clause_legal in Hc. rewrite Forall_forall in Hc; auto. }
      apply (int_true_dimacs a v l Hll); auto. unfold a.
      assert (lit_var l <= cnf_max f)%N.
      { rewrite <- Em. eapply max_var_in; eauto. }
      destruct (Z.of_N (lit_var l) <=? Z.of_N (cnf_max f)) eqn:Ex; [|lia]. f_equal; lia.
    + intros v Hv. rewrite H1 by lia. discriminate.
  - right. split; auto. eapply ints_unsat; eauto.
  - contradiction.
Qed.

Lemma cadical_correct b E order : order_ok order -> cadical_ok E ->
  solver_correct_below 2147483647 (cadical_solve_cnf b E order).
Proof.
  intros Ho HE n f Ha Hl Hm.
  destruct (cadical_sat b E order n f Ho HE Ha Hl Hm) as [(asg & H & H1 & _)|H]; eauto.
Qed.

Lemma cadical_total b E order : order_ok order -> cadical_ok E ->
  solver_total_below 2147483647 (cadical_solve_cnf b E order).
Proof.
  intros Ho HE n f asg Ha Hl Hm Es.
  destruct (cadical_sat b E order n f Ho HE Ha Hl Hm) as [(asg' & H & _ & H1)|[H _]];
    rewrite Es in H; inv H; auto.
Qed.

(** The variable 2^31 - 1: debug builds panic, release builds return an empty assignment. *)
Lemma cadical_top b E order n f : order_ok order -> cadical_ok E -> api_cnf f -> cnf_legal f ->
  (cnf_max f = 2147483647)%N -> satisfiable (cnf_clauses f) ->
  cadical_solve_cnf b E order n f =
    match b with Debug => Panic | Release => Ok (Sat (mkAssignment [] [])) end.
Proof.
  intros Ho HE Ha Hl Hm Hs. unfold cadical_solve_cnf. rewrite convert_cnf_ok by auto. cbn [bind].
  fold (to_ints (order (cnf_clauses f))).
  specialize (HE n _ [] (nil_i32 _ (to_ints_i32 _ (order_legal order f Ho Hl)))).
  destruct (E n _ []) as [value| |]; cbn [bind].
  - rewrite max_variable_ints.
    assert (Em : max_var (order (cnf_clauses f)) = cnf_max f).
    { rewrite cnf_max_max_var by auto. apply max_var_same.
      intros c; split; apply Permutation_in; [|symmetry]; apply Ho. }
    rewrite Em, Hm. destruct b; reflexivity.
  - exfalso. revert Hs. eapply ints_unsat; eauto.
  - contradiction.
Qed.

(** A debug build never gives a wrong answer. *)
Lemma cadical_debug_sound E order : order_ok order -> cadical_ok E ->
  solver_sound_below 2147483648 (cadical_solve_cnf Debug E order).
Proof.
  intros Ho HE n f Ha Hl Hm.
  destruct (N.lt_ge_cases (cnf_max f) 2147483647) as [Hlt|Hge].
  { destruct (cadical_sat Debug E order n f Ho HE Ha Hl Hlt) as [(asg & -> & H & _)|(-> & H)]; exact H. }
  assert (Em' : (cnf_max f = 2147483647)%N) by lia.
  unfold cadical_solve_cnf. rewrite convert_cnf_ok by auto. cbn [bind].
  fold (to_ints (order (cnf_clauses f))).
  specialize (HE n _ [] (nil_i32 _ (to_ints_i32 _ (order_legal order f Ho Hl)))).
  destruct (E n _ []) as [value| |]; cbn [bind].
  - rewrite max_variable_ints.
    assert (Em : max_var (order (cnf_clauses f)) = cnf_max f).
    { rewrite cnf_max_max_var by auto. apply max_var_same.
      intros c; split; apply Permutation_in; [|symmetry]; apply Ho. }
    rewrite Em, Em'. exact I.
  - eapply ints_unsat; eauto.
  - contradiction.
Qed.

(** Release arithmetic wraps around modulo 2^32. *)
Lemma i32_wrap_release z : exists r, i32_wrap Release z = Ok r /\ -2147483648 <= r <= 2147483647 /\
  exists k, r = z + k * 4294967296.
Proof.
  unfold i32_wrap. destruct ((-2147483648 <=? z) && (z <=? 2147483647)) eqn:E.
  - exists z. split; auto. split; [lia|]. exists 0. lia.
  - eexists. split; [reflexivity|].
    pose proof (Z.mod_pos_bound (z + 2147483648) 4294967296 eq_refl) as B. split; [lia|].
    exists (- ((z + 2147483648) / 4294967296)).
    pose proof (Z.div_mod (z + 2147483648) 4294967296) as D. lia.
Qed.

(** An assignment without values satisfies only formulas that are always true. *)
Lemma empty_assignment_fails cs : satisfies_clauses (mkAssignment [] []) cs ->
  forall v, clauses_true v cs.
Proof. intros H v. apply H. intros x y E. discriminate. Qed.

Lemma cadical_top_wrong E order : order_ok order -> cadical_ok E ->
  exists f, api_cnf f /\ cnf_legal f /\ satisfiable (cnf_clauses f) /\
    (forall n, cadical_solve_cnf Debug E order n f = Panic) /\
    (forall n, exists asg, cadical_solve_cnf Release E order n f = Ok (Sat asg) /\
       ~ satisfies_clauses asg (cnf_clauses f)).
Proof.
  intros Ho HE. set (f := cnf_add_clause cnf_new (clause_new [4294967294%N])).
  assert (Ha : api_cnf f) by (unfold f; auto with api).
  assert (Hl : cnf_legal f).
  { constructor; [|constructor]. constructor; [|constructor]. unfold lit_legal. lia. }
  assert (Hm : cnf_max f = 2147483647%N) by reflexivity.
  assert (Hs : satisfiable (cnf_clauses f)).
  { exists (fun _ => true). intros c [<-|[]]. exists 4294967294%N. split; [left; auto|reflexivity]. }
  exists f. split; auto. split; auto. split; auto. split.
  - intros n. rewrite (cadical_top Debug E order n f) by auto. reflexivity.
  - intros n. exists (mkAssignment [] []).
    split; [rewrite (cadical_top Release E order n f) by auto; reflexivity|].
    intros H. destruct (empty_assignment_fails _ H (fun _ => false) _ (or_introl eq_refl)) as (l & Hl' & Ht).
    destruct Hl' as [<-|[]]. discriminate Ht.
Qed.
