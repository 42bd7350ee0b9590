(** Lemmas behind C58: the derived orders of literals, clauses and cubes. *)
From Verif Require Import Base Formulas Spec SpecText SpecOrder Tac FormulasFacts TextFacts.
Open Scope N_scope.

Lemma lit_before_lt l l' : lit_before l l' <-> l < l'.
Proof.
  unfold lit_before, lit_neg, lit_var.
  assert (H : forall x, x = 2 * (x / 2) + (if N.odd x then 1 else 0)).
  { intros x. rewrite <- N.div2_div. exact (N.div2_odd x). }
  pose proof (H l) as E. pose proof (H l') as E'.
  destruct (N.odd l), (N.odd l'); lia.
Qed.

Lemma literal_cmp_exact l l' :
  (literal_cmp l l' = Lt <-> lit_before l l') /\ (literal_cmp l l' = Eq <-> l = l') /\
  (literal_cmp l l' = Gt <-> lit_before l' l).
Proof.
  unfold literal_cmp. rewrite !lit_before_lt. split; [apply N.compare_lt_iff|].
  split; [apply N.compare_eq_iff|apply N.compare_gt_iff].
Qed.

Lemma list_cmp_lt : forall x y, list_cmp x y = Lt <-> seq_before x y.
Proof.
  induction x as [|l x IH]; intros [|l' y]; cbn [list_cmp]; split; intros H; try discriminate.
  - destruct H as [(p & l & l' & x' & y' & H & _)|(l' & y' & H)]; [|discriminate].
    destruct p; discriminate.
  - right. exists l', y. reflexivity.
  - reflexivity.
  - destruct H as [(p & m & m' & x' & y' & _ & H & _)|(m' & y' & H)]; [destruct p; discriminate|discriminate].
  - destruct (N.compare_spec l l') as [E|E|E]; [subst l'| |discriminate].
    + apply IH in H. destruct H as [(p & m & m' & x' & y' & -> & -> & H)|(m' & y' & ->)].
      * left. exists (l :: p), m, m', x', y'. auto.
      * right. exists m', y'. reflexivity.
    + left. exists [], l, l', x, y. split; auto. split; auto. apply lit_before_lt; auto.
  - destruct H as [(p & m & m' & x' & y' & Hx & Hy & H)|(m' & y' & Hy)].
    + destruct p as [|k p]; cbn [app] in Hx, Hy; injection Hx as -> ->; injection Hy as -> ->.
      * apply lit_before_lt in H. apply N.compare_lt_iff in H. rewrite H. reflexivity.
      * rewrite N.compare_refl. apply IH. left. exists p, m, m', x', y'. auto.
    + cbn [app] in Hy. injection Hy as -> ->. rewrite N.compare_refl. apply IH. right. eauto.
Qed.

Lemma list_cmp_lt_trans x y z : list_cmp x y = Lt -> list_cmp y z = Lt -> list_cmp x z = Lt.
Proof.
  intros H1 H2. assert (G : list_cmp x z <> Gt) by (apply (list_cmp_trans x y z); congruence).
  destruct (list_cmp x z) eqn:E; auto; [|congruence].
  apply list_cmp_eq in E. subst z. rewrite list_cmp_antisym, H1 in H2. discriminate.
Qed.

Lemma clause_cmp_order a b d :
  (clause_cmp a b = Eq <-> clause_eqb a b = true) /\
  clause_cmp b a = CompOpp (clause_cmp a b) /\
  (clause_cmp a b = Lt -> clause_cmp b d = Lt -> clause_cmp a d = Lt) /\
  (clause_cmp a b = Lt <-> seq_before (clause_iter a) (clause_iter b)).
Proof.
  unfold clause_cmp. split; [|split; [apply list_cmp_antisym|split; [apply list_cmp_lt_trans|apply list_cmp_lt]]].
  rewrite list_cmp_eq, clause_eqb_eq. destruct a, b; simpl; split; congruence.
Qed.

Lemma cube_cmp_order a b d :
  (cube_cmp a b = Eq <-> cube_eqb a b = true) /\
  cube_cmp b a = CompOpp (cube_cmp a b) /\
  (cube_cmp a b = Lt -> cube_cmp b d = Lt -> cube_cmp a d = Lt) /\
  (cube_cmp a b = Lt <-> seq_before (cube_iter a) (cube_iter b)).
Proof.
  unfold cube_cmp. split; [|split; [apply list_cmp_antisym|split; [apply list_cmp_lt_trans|apply list_cmp_lt]]].
  rewrite list_cmp_eq, cube_eqb_eq. destruct a, b; simpl; split; congruence.
Qed.
