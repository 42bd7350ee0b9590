(** Lemmas about assignments, evaluation and the implication / satisfiability queries. *)
From Verif Require Import Base Formulas FormulaLogic Solvers Spec Tac FormulasFacts.
Open Scope N_scope.

(* ------------------------------------------------------------- assignments *)

Definition good_int (z : Z) : Prop := (z <> 0 /\ -2147483648 < z <= 2147483647)%Z.

Lemma from_dimacs_step_ok b t f z : good_int z ->
  from_dimacs_step b (t, f) z =
  Ok (if (z <? 0)%Z then (t, set_insert N.eqb f (Z.to_N (Z.abs z)))
      else (set_insert N.eqb t (Z.to_N (Z.abs z)), f)).
Proof.
  unfold good_int. intros H. unfold from_dimacs_step.
  destruct (z =? -2147483648)%Z eqn:E; [lia|]. simpl.
  rewrite debug_assert_true by lia. simpl.
  destruct (z <? 0)%Z; auto.
Qed.

Lemma from_dimacs_ok b v : Forall good_int v ->
  exists t f, from_dimacs_assignment b v = Ok (mkAssignment t f) /\
    (forall x, In x t <-> 1 <= x /\ In (Z.of_N x) v) /\
    (forall x, In x f <-> 1 <= x /\ In (- Z.of_N x)%Z v).
Proof.
  intros H. unfold from_dimacs_assignment.
  assert (G : forall v t0 f0, Forall good_int v ->
    exists t f, foldM (from_dimacs_step b) v (t0, f0) = Ok (t, f) /\
    (forall x, In x t <-> In x t0 \/ 1 <= x /\ In (Z.of_N x) v) /\
    (forall x, In x f <-> In x f0 \/ 1 <= x /\ In (- Z.of_N x)%Z v)).
  { clear. induction v as [|z v IH]; intros t0 f0 H.
    - exists t0, f0. simpl. repeat split; auto; intros [Hx|[_ []]]; auto.
    - inv H. cbn [foldM]. rewrite from_dimacs_step_ok by auto. cbn [bind].
      assert (Hs : forall l x, In x (set_insert N.eqb l (Z.to_N (Z.abs z))) <->
                In x l \/ x = Z.to_N (Z.abs z)) by (intros; apply in_set_insert, N.eqb_eq).
      destruct (z <? 0)%Z eqn:E.
      + destruct (IH t0 (set_insert N.eqb f0 (Z.to_N (Z.abs z))) H3) as (t & f & E1 & Ht & Hf).
        exists t, f. split; auto. unfold good_int in *. split; intros x.
        * rewrite Ht. simpl. split; [intuition|].
          intros [Hx|(Hx & [Hx'|Hx'])]; auto; lia.
        * rewrite Hf, Hs. simpl. split.
          -- intros [[Hx|Hx]|Hx]; auto; [|intuition]. right; split; [lia|]. left; lia.
          -- intros [Hx|(Hx & [Hx'|Hx'])]; auto. left; right; lia.
      + destruct (IH (set_insert N.eqb t0 (Z.to_N (Z.abs z))) f0 H3) as (t & f & E1 & Ht & Hf).
        exists t, f. split; auto. unfold good_int in *. split; intros x.
        * rewrite Ht, Hs. simpl. split.
          -- intros [[Hx|Hx]|Hx]; auto; [|intuition]. right; split; [lia|]. left; lia.
          -- intros [Hx|(Hx & [Hx'|Hx'])]; auto. left; right; lia.
        * rewrite Hf. simpl. split; [intuition|].
          intros [Hx|(Hx & [Hx'|Hx'])]; auto; lia. }
  destruct (G v [] [] H) as (t & f & E & Ht & Hf).
  exists t, f. rewrite E. simpl. split; auto. split; intros x; [rewrite Ht|rewrite Hf]; simpl; intuition.
Qed.

Lemma get_value_true asg v : get_value asg v = Some true <-> In v (true_variables asg).
Proof.
  unfold get_value. rewrite <- (set_mem_in N.eqb N.eqb_eq).
  destruct (set_mem N.eqb v (true_variables asg)); [intuition|].
  destruct (set_mem N.eqb v (false_variables asg)); intuition congruence.
Qed.

Lemma get_value_false asg v : get_value asg v = Some false <->
  ~ In v (true_variables asg) /\ In v (false_variables asg).
Proof.
  unfold get_value. rewrite <- !(set_mem_in N.eqb N.eqb_eq).
  destruct (set_mem N.eqb v (true_variables asg)); [intuition congruence|].
  destruct (set_mem N.eqb v (false_variables asg)); intuition congruence.
Qed.

Lemma get_value_none asg v : get_value asg v = None <->
  ~ In v (true_variables asg) /\ ~ In v (false_variables asg).
Proof.
  unfold get_value. rewrite <- !(set_mem_in N.eqb N.eqb_eq).
  destruct (set_mem N.eqb v (true_variables asg)); [intuition congruence|].
  destruct (set_mem N.eqb v (false_variables asg)); intuition congruence.
Qed.

Lemma from_dimacs_get_value b v : Forall good_int v ->
  exists asg, from_dimacs_assignment b v = Ok asg /\
    forall x, 1 <= x ->
      (get_value asg x = Some true <-> In (Z.of_N x) v) /\
      (get_value asg x = Some false <-> ~ In (Z.of_N x) v /\ In (- Z.of_N x)%Z v) /\
      (get_value asg x = None <-> ~ In (Z.of_N x) v /\ ~ In (- Z.of_N x)%Z v).
Proof.
  intros H. destruct (from_dimacs_ok b v H) as (t & f & E & Ht & Hf).
  eexists; split; [exact E|]. intros x Hx.
  rewrite get_value_true, get_value_false, get_value_none. simpl. rewrite Ht, Hf. intuition.
Qed.

Lemma from_dimacs_zero v asg : from_dimacs_assignment Debug v = Ok asg -> Forall (fun z => z <> 0%Z) v.
Proof.
  unfold from_dimacs_assignment. intros H. binds. clear H.
  revert a E. generalize ([] : list N, [] : list N) as s.
  induction v as [|z v IH]; simpl; intros s a E; auto.
  binds. constructor; eauto. unfold from_dimacs_step in E0. binds.
  simpl in E1. destruct (Z.to_N (Z.abs z) =? 0) eqn:Ez; [discriminate|]. lia.
Qed.

Lemma from_dimacs_min b v asg : from_dimacs_assignment b v = Ok asg ->
  Forall (fun z => z <> (-2147483648)%Z) v.
Proof.
  unfold from_dimacs_assignment. intros H. binds. clear H.
  revert a E. generalize ([] : list N, [] : list N) as s.
  induction v as [|z v IH]; simpl; intros s a E; auto.
  binds. constructor; eauto. unfold from_dimacs_step in E0. binds.
  lia.
Qed.

(** A completion of an assignment. *)
Definition complete (asg : Assignment) : valuation :=
  fun v => match get_value asg v with Some x => x | None => false end.

Lemma complete_agrees asg : agrees asg (complete asg).
Proof. intros v x H. unfold complete. rewrite H. auto. Qed.

(* --------------------------------------------------------------- evaluation *)

Lemma evaluate_literal_alt l asg : evaluate_literal l asg =
  match get_value asg (lit_var l) with
  | Some x => Ok (xorb x (lit_neg l))
  | None => Panic
  end.
Proof.
  unfold evaluate_literal. rewrite get_number_div. fold (lit_var l).
  rewrite is_negated_odd. fold (lit_neg l).
  destruct (get_value asg (lit_var l)) as [x|]; simpl; auto.
  destruct x, (lit_neg l); auto.
Qed.

Lemma evaluate_literal_sound l asg r a : evaluate_literal l asg = Ok r -> agrees asg a ->
  (r = true <-> lit_true a l).
Proof.
  rewrite evaluate_literal_alt. unfold lit_true.
  destruct (get_value asg (lit_var l)) as [x|] eqn:E; [|discriminate].
  intros H Ha; inv H. rewrite (Ha _ _ E). reflexivity.
Qed.

Lemma evaluate_literals_sound ls asg r a : evaluate_literals ls asg = Ok r -> agrees asg a ->
  (r = true <-> exists l, In l ls /\ lit_true a l).
Proof.
  intros H Ha. induction ls as [|l ls IH]; simpl in H.
  - inv H. split; [discriminate|]. intros (l & [] & _).
  - binds. pose proof (evaluate_literal_sound _ _ _ _ E Ha) as Hl.
    destruct a0; binds.
    + split; auto. intros _. exists l; simpl; intuition.
    + rewrite IH by auto. split; intros (x & Hx & Hx').
      * exists x; simpl; auto.
      * destruct Hx as [<-|Hx]; eauto. apply Hl in Hx'. discriminate.
Qed.

Lemma evaluate_clauses_sound cs asg r a : evaluate_clauses cs asg = Ok r -> agrees asg a ->
  (r = true <-> clauses_true a cs).
Proof.
  unfold clauses_true. intros H Ha. induction cs as [|c cs IH]; simpl in H.
  - inv H. split; auto. intros _ c [].
  - binds. pose proof (evaluate_literals_sound _ _ _ _ E Ha) as Hl.
    destruct a0; binds.
    + rewrite IH by auto. split.
      * intros Hc d [<-|Hd]; auto. apply Hl; auto.
      * intros Hc d Hd; apply Hc; right; auto.
    + split; [discriminate|]. intros Hc. apply Hl. apply (Hc c); left; auto.
Qed.

Lemma evaluate_literals_defined ls asg :
  (forall l, In l ls -> get_value asg (lit_var l) <> None) -> exists r, evaluate_literals ls asg = Ok r.
Proof.
  induction ls as [|l ls IH]; simpl; intros H; eauto.
  rewrite evaluate_literal_alt. destruct (get_value asg (lit_var l)) as [x|] eqn:E.
  - simpl. destruct (xorb x (lit_neg l)); eauto.
  - exfalso. eapply H; eauto.
Qed.

Lemma evaluate_clauses_defined cs asg :
  (forall c l, In c cs -> In l (clause_lits c) -> get_value asg (lit_var l) <> None) ->
  exists r, evaluate_clauses cs asg = Ok r.
Proof.
  induction cs as [|c cs IH]; simpl; intros H; eauto.
  destruct (evaluate_literals_defined (clause_lits c) asg) as [r E].
  { intros l Hl; eapply H; eauto. }
  unfold evaluate_clause, clause_iter. rewrite E. simpl. destruct r; eauto.
Qed.

Lemma evaluate_literals_panics ls asg : evaluate_literals ls asg <> OutOfFuel.
Proof.
  induction ls as [|l ls IH]; simpl; [discriminate|].
  rewrite evaluate_literal_alt. destruct (get_value asg (lit_var l)) as [x|]; simpl; [|discriminate].
  destruct (xorb x (lit_neg l)); auto. discriminate.
Qed.

Lemma evaluate_clauses_panics cs asg : evaluate_clauses cs asg <> OutOfFuel.
Proof.
  induction cs as [|c cs IH]; simpl; [discriminate|].
  unfold evaluate_clause, clause_iter.
  pose proof (evaluate_literals_panics (clause_lits c) asg).
  destruct (evaluate_literals (clause_lits c) asg) as [[]| |]; simpl; auto; discriminate.
Qed.

Lemma evaluate_cnf_sound order f asg r a : order_ok order ->
  evaluate_cnf order f asg = Ok r -> agrees asg a -> (r = true <-> cnf_true a f).
Proof.
  intros Ho H Ha. unfold evaluate_cnf in H.
  rewrite (evaluate_clauses_sound _ _ _ _ H Ha). unfold cnf_true, clauses_true.
  split; intros Hc c Hin; apply Hc; [|eapply Permutation_in; [apply Ho|]; auto].
  eapply Permutation_in; [symmetry; apply Ho|]; auto.
Qed.

Lemma evaluate_cnf_defined order f asg : order_ok order ->
  (forall c l, In c (cnf_clauses f) -> In l (clause_lits c) -> get_value asg (lit_var l) <> None) ->
  exists r, evaluate_cnf order f asg = Ok r.
Proof.
  intros Ho H. apply evaluate_clauses_defined. intros c l Hc. apply H.
  eapply Permutation_in; [apply Ho|]; auto.
Qed.

(* ------------------------------------------------------------------- queries *)

Lemma legal_max f : api_cnf f -> cnf_legal f -> cnf_max f < 2147483648.
Proof.
  intros Ha Hl. rewrite cnf_max_max_var by auto. apply N.le_lt_trans with 2147483647; [|reflexivity].
  apply max_var_le. intros d l Hd Hx.
  unfold cnf_legal in Hl. rewrite Forall_forall in Hl. specialize (Hl d Hd). red in Hl.
  rewrite Forall_forall in Hl. apply lit_legal_var. auto.
Qed.

Lemma correct_below m T : solver_correct T -> solver_correct_below m T.
Proof. intros H n f Ha Hl _. apply H; auto. Qed.
Lemma total_below m T : solver_total T -> solver_total_below m T.
Proof. intros H n f asg Ha Hl _. apply H; auto. Qed.

Lemma solver_sat_below m T n f : solver_correct_below m T -> api_cnf f -> cnf_legal f -> cnf_max f < m ->
  exists r, T n f = Ok r /\
    match r with
    | Sat asg => satisfies_clauses asg (cnf_clauses f)
    | UnSat => forall a, ~ cnf_true a f
    end.
Proof.
  intros HT Ha Hl Hm. destruct (HT n f Ha Hl Hm) as [(asg & E & H)|[E H]].
  - exists (Sat asg); auto.
  - exists UnSat; split; auto. intros a Hx. apply H; exists a; auto.
Qed.

Lemma correct_sound m T : solver_correct_below m T -> solver_sound_below m T.
Proof.
  intros H n f Ha Hl Hm. destruct (H n f Ha Hl Hm) as [(asg & -> & X)|(-> & X)]; exact X.
Qed.

Lemma solver_sat T n f : solver_correct T -> api_cnf f -> cnf_legal f ->
  exists r, T n f = Ok r /\
    match r with
    | Sat asg => satisfies_clauses asg (cnf_clauses f)
    | UnSat => forall a, ~ cnf_true a f
    end.
Proof.
  intros HT Ha Hl. apply (solver_sat_below 2147483648); auto using correct_below, legal_max.
Qed.

Lemma append_below m f g : api_cnf f -> api_cnf g -> cnf_max f < m -> cnf_max g < m ->
  cnf_max (cnf_append f g) < m.
Proof.
  intros Hf Hg. rewrite !cnf_max_max_var by auto with api. intros H1 H2.
  destruct (N.eq_dec m 0) as [->|Hm]; [lia|].
  apply N.le_lt_trans with (N.pred m); [|lia]. apply max_var_le. intros d l Hd Hl.
  apply in_append in Hd. destruct Hd as [Hd|Hd]; pose proof (max_var_in _ _ _ Hd Hl); lia.
Qed.

Lemma negated_below m d : 0 < m -> (forall l, In l (clause_lits d) -> lit_var l < m) ->
  cnf_max (cube_to_cnf (clause_not d)) < m.
Proof.
  intros Hm H. rewrite cnf_max_max_var by auto with api.
  apply N.le_lt_trans with (N.pred m); [|lia]. apply max_var_le. intros e l He Hl.
  assert (X : In l (cube_lits (clause_not d))).
  { apply in_cube_to_cnf in He. destruct He as (l' & Hl' & ->). destruct Hl as [<-|[]]. auto. }
  apply in_clause_not in X. specialize (H _ X). rewrite lit_var_not in H. lia.
Qed.

Lemma implies_loop_below m T n a cs : 0 < m -> solver_correct_below m T -> api_cnf a -> cnf_legal a -> cnf_max a < m ->
  Forall clause_legal cs -> max_var cs < m ->
  exists r, implies_loop T n a cs = Ok r /\
    (r = true <-> forall v, cnf_true v a -> clauses_true v cs).
Proof.
  intros Hm0 HT Ha Hl Hm. revert n. induction cs as [|c cs IH]; intros n Hcs Hcm; simpl.
  - exists true; split; auto. split; auto. intros _ v _ c [].
  - inv Hcs. set (f := cnf_append (cube_to_cnf (clause_not c)) a).
    assert (Hc0 : forall l, In l (clause_lits c) -> lit_var l < m).
    { intros l Hx. pose proof (max_var_in (c :: cs) c l (or_introl eq_refl) Hx). lia. }
    assert (Hc1 : max_var cs < m) by (rewrite max_var_cons in Hcm; lia).
    destruct (solver_sat_below m T n f HT) as (r & E & Hr); unfold f; auto with api.
    { apply append_below; auto with api. apply negated_below; auto. }
    fold f. rewrite E. simpl. destruct r as [|asg].
    + destruct (IH (S n) H2 Hc1) as (r & E' & Hr'). exists r; split; auto.
      rewrite Hr'. split.
      * intros H v Hv d [<-|Hd]; [|apply H; auto].
        destruct (clause_true_dec v c) as [Hd|Hd]; auto. exfalso. apply (Hr v).
        unfold f. rewrite cnf_append_true, cube_to_cnf_true, clause_not_true. auto.
      * intros H v Hv d Hd. apply (H v Hv). right; auto.
    + exists false; split; auto. split; [discriminate|]. intros H. exfalso.
      specialize (Hr _ (complete_agrees asg)).
      assert (Hf : cnf_true (complete asg) f) by exact Hr.
      unfold f in Hf. rewrite cnf_append_true, cube_to_cnf_true, clause_not_true in Hf.
      destruct Hf as [Hf1 Hf2]. apply Hf1. apply (H _ Hf2). left; auto.
Qed.

Lemma does_a_imply_b_below m T order a b : solver_correct_below m T -> order_ok order ->
  api_cnf a -> cnf_legal a -> api_cnf b -> cnf_legal b -> cnf_max a < m -> cnf_max b < m ->
  exists r, does_a_imply_b T order a b = Ok r /\
    (r = true <-> forall v, cnf_true v a -> cnf_true v b).
Proof.
  intros HT Ho Ha Hl Hb Hlb Hma Hmb. unfold does_a_imply_b.
  destruct (implies_loop_below m T 0 a (order (cnf_clauses b))) as (r & E & Hr); auto; [lia| | |].
  { eapply Permutation_Forall; [symmetry; apply Ho|]. exact Hlb. }
  { rewrite (max_var_same _ (cnf_clauses b)); [rewrite <- cnf_max_max_var; auto|].
    intros d. split; apply Permutation_in; [apply Ho|symmetry; apply Ho]. }
  exists r; split; auto. rewrite Hr. unfold cnf_true, clauses_true.
  split; intros H v Hv c Hc; apply (H v Hv).
  - eapply Permutation_in; [symmetry; apply Ho|]; auto.
  - eapply Permutation_in; [apply Ho|]; auto.
Qed.

Lemma does_a_imply_b_correct T order a b : solver_correct T -> order_ok order ->
  api_cnf a -> cnf_legal a -> api_cnf b -> cnf_legal b ->
  exists r, does_a_imply_b T order a b = Ok r /\
    (r = true <-> forall v, cnf_true v a -> cnf_true v b).
Proof. intros. apply (does_a_imply_b_below 2147483648); auto using correct_below, legal_max. Qed.

Lemma is_a_and_b_satisfiable_below m T a b : solver_correct_below m T ->
  api_cnf a -> cnf_legal a -> api_cnf b -> cnf_legal b -> cnf_max a < m -> cnf_max b < m ->
  exists r, is_a_and_b_satisfiable T a b = Ok r /\
    (r = true <-> exists v, cnf_true v a /\ cnf_true v b).
Proof.
  intros HT Ha Hl Hb Hlb Hma Hmb. unfold is_a_and_b_satisfiable.
  destruct (solver_sat_below m T 0 (cnf_append a b) HT) as (r & E & Hr); auto using append_below with api.
  rewrite E. simpl. destruct r as [|asg].
  - exists false; split; auto. split; [discriminate|]. intros (v & Hv1 & Hv2).
    exfalso. apply (Hr v). rewrite cnf_append_true; auto.
  - exists true; split; auto. split; auto. intros _. exists (complete asg).
    apply cnf_append_true. apply (Hr _ (complete_agrees asg)).
Qed.

Lemma is_a_and_b_satisfiable_correct T a b : solver_correct T ->
  api_cnf a -> cnf_legal a -> api_cnf b -> cnf_legal b ->
  exists r, is_a_and_b_satisfiable T a b = Ok r /\
    (r = true <-> exists v, cnf_true v a /\ cnf_true v b).
Proof. intros. apply (is_a_and_b_satisfiable_below 2147483648); auto using correct_below, legal_max. Qed.

(* ---------------------------------------------------------- variable numbers *)

Lemma in_variable_numbers f v : In v (variable_numbers f) <->
  exists c l, In c (cnf_clauses f) /\ In l (clause_lits c) /\ lit_var l = v.
Proof.
  unfold variable_numbers.
  assert (G1 : forall ls s, In v (fold_left (fun s l => set_insert N.eqb s (get_number l)) ls s) <->
     In v s \/ exists l, In l ls /\ lit_var l = v).
  { induction ls as [|l ls IH]; simpl; intros s.
    - split; auto. intros [H|(l & [] & _)]; auto.
    - rewrite IH, in_set_insert by apply N.eqb_eq. rewrite get_number_div. fold (lit_var l). split.
      + intros [[H|H]|(x & Hx & Hx')]; eauto.
      + intros [H|(x & [<-|Hx] & Hx')]; eauto. }
  assert (G2 : forall cs s, In v (fold_left (fun s c =>
       fold_left (fun s l => set_insert N.eqb s (get_number l)) (clause_iter c) s) cs s) <->
     In v s \/ exists c l, In c cs /\ In l (clause_lits c) /\ lit_var l = v).
  { induction cs as [|c cs IH]; simpl; intros s.
    - split; auto. intros [H|(c & l & [] & _)]; auto.
    - rewrite IH, G1. unfold clause_iter. split.
      + intros [[H|(l & Hl & Hl')]|(d & l & Hd & Hl & Hl')]; eauto 8.
      + intros [H|(d & l & [<-|Hd] & Hl & Hl')]; eauto 8. }
  rewrite G2. simpl. intuition.
Qed.

Lemma variable_numbers_nodup f : NoDup (variable_numbers f).
Proof.
  unfold variable_numbers.
  assert (G1 : forall ls s, NoDup s ->
     NoDup (fold_left (fun s l => set_insert N.eqb s (get_number l)) ls s)).
  { induction ls; simpl; auto. intros. apply IHls, set_insert_nodup; auto. apply N.eqb_eq. }
  assert (G2 : forall cs s, NoDup s -> NoDup (fold_left (fun s c =>
       fold_left (fun s l => set_insert N.eqb s (get_number l)) (clause_iter c) s) cs s)).
  { induction cs; simpl; auto. }
  apply G2; constructor.
Qed.
