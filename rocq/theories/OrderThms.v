(** Hash iteration orders do not influence the construction of a transition system (C53). *)
From Verif Require Import Base Formulas FormulaLogic Aig Fsts Spec SpecAig SpecFsts Tac FormulasFacts
  LogicFacts FstsFacts.
Open Scope N_scope.

Lemma same_outcome_bind {A B} (R : A -> A -> Prop) (Q : B -> B -> Prop) m1 m2 f1 f2 :
  same_outcome R m1 m2 -> (forall x y, R x y -> same_outcome Q (f1 x) (f2 y)) ->
  same_outcome Q (bind m1 f1) (bind m2 f2).
Proof. destruct m1, m2; cbn; auto; try tauto. Qed.

Lemma same_outcome_refl {A} (R : A -> A -> Prop) m : (forall x, R x x) -> same_outcome R m m.
Proof. destruct m; cbn; auto. Qed.

(** The clauses of one gate. *)
Definition gate_lists (b : build) (g : N * N * N) : res (list (list N)) :=
  let '(lhs, rhs0, rhs1) := g in
  o <- literal_of_aig b lhs ;;
  _ <- assert_ (negb (is_negated o)) ;;
  if (rhs0 =? 0) || (rhs1 =? 0) then Ok [[literal_not o]]
  else if (rhs0 =? 1) && (rhs1 =? 1) then Ok [[o]]
  else if rhs0 =? 1 then i <- literal_of_aig b rhs1 ;; Ok [[literal_not i; o]; [i; literal_not o]]
  else if rhs1 =? 1 then i <- literal_of_aig b rhs0 ;; Ok [[literal_not i; o]; [i; literal_not o]]
  else i1 <- literal_of_aig b rhs1 ;; i0 <- literal_of_aig b rhs0 ;;
       Ok [[literal_not o; i0]; [literal_not o; i1]; [o; literal_not i0; literal_not i1]].

Lemma encode_gate_lists b f g : encode_gate b f g = (lss <- gate_lists b g ;; Ok (adds f lss)).
Proof.
  destruct g as ((lhs, r0), r1). unfold encode_gate, gate_lists.
  destruct (literal_of_aig b lhs); cbn [bind]; auto.
  destruct (assert_ _); cbn [bind]; auto.
  destruct (_ || _); auto. destruct (_ && _); auto.
  destruct (r0 =? 1); [destruct (literal_of_aig b r1); reflexivity|].
  destruct (r1 =? 1); [destruct (literal_of_aig b r0); reflexivity|].
  destruct (literal_of_aig b r1); cbn [bind]; auto. destruct (literal_of_aig b r0); reflexivity.
Qed.

Lemma literal_of_aig_fuel b l : literal_of_aig b l <> OutOfFuel.
Proof.
  unfold literal_of_aig, u32_of_usize, literal_new. destruct (_ <? _); cbn [assert_ bind]; [|discriminate].
  destruct b; cbn [debug_assert bind]; [|discriminate].
  destruct (0 <? _); cbn; [|discriminate]. destruct (_ <=? _); cbn; discriminate.
Qed.

Lemma gate_lists_fuel b g : gate_lists b g <> OutOfFuel.
Proof.
  destruct g as ((lhs, r0), r1). unfold gate_lists.
  pose proof (literal_of_aig_fuel b lhs). pose proof (literal_of_aig_fuel b r0).
  pose proof (literal_of_aig_fuel b r1).
  destruct (literal_of_aig b lhs); cbn [bind]; try congruence.
  destruct (negb _); cbn [assert_ bind]; [|discriminate].
  destruct (_ || _); [discriminate|]. destruct (_ && _); [discriminate|].
  destruct (literal_of_aig b r0), (literal_of_aig b r1); cbn [bind]; try congruence;
    destruct (r0 =? 1); try discriminate; destruct (r1 =? 1); discriminate.
Qed.

Lemma fold_gates b : forall gs f, foldM (encode_gate b) gs f =
  (ls <- mapM (gate_lists b) gs ;; Ok (adds f (concat ls))).
Proof.
  induction gs as [|g gs IH]; intros f; [reflexivity|].
  cbn [foldM mapM]. rewrite encode_gate_lists. destruct (gate_lists b g) as [lss| |]; cbn [bind]; auto.
  rewrite IH. destruct (mapM _ gs); cbn [bind]; auto. rewrite <- adds_app. reflexivity.
Qed.

Lemma mapM_permutation {A B} (f : A -> res B) : (forall x, f x <> OutOfFuel) ->
  forall l l', Permutation l l' -> same_outcome (@Permutation B) (mapM f l) (mapM f l').
Proof.
  intros Hf l l' H.
  assert (F : forall k, mapM f k <> OutOfFuel).
  { induction k as [|x k IH]; cbn [mapM]; [discriminate|]. specialize (Hf x).
    destruct (f x); cbn [bind]; try congruence. destruct (mapM f k); cbn [bind]; congruence. }
  induction H as [|x k k' Hk IH|x y k|k1 k2 k3 _ IH1 _ IH2].
  - cbn. auto.
  - cbn [mapM]. destruct (f x); cbn [bind]; [|exact I|exact I].
    eapply same_outcome_bind; [exact IH|]. intros u v P. cbn. auto.
  - cbn [mapM]. pose proof (Hf x). pose proof (Hf y). pose proof (F k).
    destruct (f x), (f y); cbn [bind]; try congruence; destruct (mapM f k); cbn [bind]; try congruence; cbn; auto.
    apply perm_swap.
  - destruct (mapM f k1), (mapM f k2), (mapM f k3); cbn in *; auto; try tauto. eapply perm_trans; eauto.
Qed.

(** Formulas with the same clauses. *)
Definition same_cnf (f g : CNF) : Prop :=
  api_cnf f /\ api_cnf g /\ forall c, In c (cnf_clauses f) <-> In c (cnf_clauses g).

Lemma wires_order b o1 o2 a wires : order_ok o1 -> order_ok o2 ->
  same_outcome same_cnf (wires_cnf b o1 a wires) (wires_cnf b o2 a wires).
Proof.
  intros H1 H2. unfold wires_cnf, cone_of_influence.
  destruct (cone_loop _ a wires []) as [gs| |]; cbn [bind]; [|exact I|exact I].
  rewrite !fold_gates. eapply same_outcome_bind.
  - apply (mapM_permutation _ (gate_lists_fuel b) (o1 gs) (o2 gs)).
    eapply perm_trans; [apply H1|]. apply Permutation_sym, H2.
  - intros l1 l2 P. cbn. split; [apply adds_api; auto with api|]. split; [apply adds_api; auto with api|].
    intros c. rewrite !in_adds. split; (intros [[]|(ls & Hl & ->)]; right; exists ls; split; auto);
      apply in_concat in Hl; destruct Hl as (x & Hx & Hl); apply in_concat; exists x; split; auto.
    + eapply Permutation_in; eauto.
    + eapply Permutation_in; [apply Permutation_sym|]; eauto.
Qed.

Lemma fold_transition_api b m : forall infos f ws f' ws', api_cnf f ->
  foldM (transition_step b m) infos (f, ws) = Ok (f', ws') -> api_cnf f'.
Proof.
  induction infos as [|((lhs, nx), r) infos IH]; intros f ws f' ws' Hf E; cbn [foldM] in E.
  - injection E as <- <-. auto.
  - destruct (transition_step b m (f, ws) (lhs, nx, r)) as [(f1, ws1)| |] eqn:E1; try discriminate.
    cbn [bind] in E. apply (IH f1 ws1 f' ws'); auto. clear E IH.
    unfold transition_step in E1. binds.
    destruct (nx =? 0); [injection E1 as <- <-; auto with api|].
    destruct (nx =? 1); [injection E1 as <- <-; auto with api|].
    binds. auto with api.
Qed.

Lemma transition_order b o1 o2 a m : order_ok o1 -> order_ok o2 ->
  same_outcome same_cnf (create_transition_cnf b o1 a m) (create_transition_cnf b o2 a m).
Proof.
  intros H1 H2. unfold create_transition_cnf.
  destruct (get_latch_information a) as [infos| |]; cbn [bind]; [|exact I|exact I].
  destruct (foldM (transition_step b m) infos (cnf_new, [])) as [(f, ws)| |] eqn:E; cbn [bind]; [|exact I|exact I].
  apply fold_transition_api in E; [|apply api_cnf_new].
  eapply same_outcome_bind; [apply wires_order; eauto|].
  intros g1 g2 (A1 & A2 & S). cbn. split; [auto with api|]. split; [auto with api|].
  intros c. rewrite !in_append, S. tauto.
Qed.

Lemma same_cnf_eqb f g : same_cnf f g -> cnf_eqb f g = true /\ cnf_max f = cnf_max g.
Proof.
  intros (A1 & A2 & S). split; [apply cnf_eqb_spec; auto using api_cnf_nodup|].
  rewrite !cnf_max_max_var by auto. apply max_var_same. auto.
Qed.

Lemma same_variables f g : same_cnf f g -> forall v, In v (variable_numbers f) <-> In v (variable_numbers g).
Proof.
  intros (_ & _ & S) v. rewrite !in_variable_numbers.
  split; intros (c & l & H & H'); exists c, l; split; auto; apply S; auto.
Qed.

Lemma set_mem_same x l l' : (forall v, In v l <-> In v l') -> set_mem N.eqb x l = set_mem N.eqb x l'.
Proof.
  intros H. apply Bool.eq_iff_eq_true. rewrite !(set_mem_in N.eqb N.eqb_eq). auto.
Qed.

Lemma filter_cone (P : N -> bool) l l' : (forall v, In v l <-> In v l') ->
  forall v, In v (filter P l) <-> In v (filter P l').
Proof. intros H v. rewrite !filter_In, H. tauto. Qed.

Lemma from_aig_order b o1 o2 a flag : order_ok o1 -> order_ok o2 ->
  same_outcome same_system (from_aig b o1 a flag) (from_aig b o2 a flag).
Proof.
  intros H1 H2. unfold from_aig.
  destruct (assert_ (_ <? _)); cbn [bind]; [|exact I|exact I].
  destruct (assert_ _); cbn [bind]; [|exact I|exact I].
  destruct (u32_of_usize _) as [m| |]; cbn [bind]; [|exact I|exact I].
  destruct (create_input_and_state_literal_numbers b a) as [(ins, sts)| |]; cbn [bind]; [|exact I|exact I].
  destruct (create_initial_cnf b a) as [init| |]; cbn [bind]; [|exact I|exact I].
  eapply same_outcome_bind; [apply transition_order; eauto|]. intros t1 t2 Ht.
  unfold create_state_to_safety_translation.
  eapply same_outcome_bind; [apply wires_order; eauto|]. intros s1 s2 Hs.
  destruct (create_unsafety_property b a flag) as [d| |]; cbn [bind]; [|exact I|exact I].
  pose proof (same_cnf_eqb _ _ Ht) as (T1 & T2). pose proof (same_cnf_eqb _ _ Hs) as (S1 & S2).
  cbn [same_outcome]. unfold same_system, get_safety_property.
  cbn [get_initial_relation get_unsafety_property get_max_literal_number get_state_literal_numbers
    get_input_literal_numbers get_transition_relation get_state_to_safety_translation initial_states
    unsafety_property max_literal_number state_literals input_literals transition state_to_safety_translation].
  do 10 (split; [first [reflexivity|assumption]|]). intros q. split; [reflexivity|].
  unfold intersect_cube_with_cone_of_safety, intersect_cube_with_cone_of_transition.
  cbn [cone_of_safety_only_latches cone_of_transition_only_latches].
  split; f_equal; apply filter_ext; intros l; apply set_mem_same, filter_cone, same_variables; auto.
Qed.
