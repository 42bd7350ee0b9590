(** Lemmas about literals, clauses, cubes and CNFs. *)
From Coq Require Import Sorted.
From Verif Require Import Base Formulas FormulaLogic Solvers Spec Tac.
Open Scope N_scope.

(* ---------------------------------------------------------------- literals *)

Lemma get_number_div l : get_number l = l / 2.
Proof. unfold get_number. rewrite N.shiftr_div_pow2. reflexivity. Qed.

Lemma odd_mod l : N.odd l = (l mod 2 =? 1).
Proof.
  pose proof (N.bit0_mod l) as H. rewrite N.bit0_odd in H. rewrite <- H.
  destruct (N.odd l); reflexivity.
Qed.

Lemma is_negated_odd l : is_negated l = N.odd l.
Proof. unfold is_negated. rewrite odd_mod. reflexivity. Qed.

Lemma lxor1_even n : N.lxor (2 * n) 1 = 2 * n + 1.
Proof. destruct n; reflexivity. Qed.

Lemma lxor1_odd n : N.lxor (2 * n + 1) 1 = 2 * n.
Proof. destruct n; reflexivity. Qed.

Lemma literal_not_alt l :
  literal_not l = if N.odd l then l - 1 else l + 1.
Proof.
  unfold literal_not. rewrite odd_mod.
  pose proof (N.div_mod l 2 ltac:(discriminate)) as E.
  assert (l mod 2 < 2) by (apply N.mod_lt; discriminate).
  destruct (l mod 2 =? 1) eqn:Hm.
  - assert (El : l = 2 * (l / 2) + 1) by lia.
    rewrite El at 1. rewrite lxor1_odd. lia.
  - assert (El : l = 2 * (l / 2)) by lia.
    rewrite El at 1. rewrite lxor1_even. lia.
Qed.

Lemma lit_var_not l : lit_var (literal_not l) = lit_var l.
Proof. unfold lit_var. rewrite literal_not_alt, odd_mod. destruct (l mod 2 =? 1) eqn:E; lia. Qed.

Lemma lit_neg_not l : lit_neg (literal_not l) = negb (lit_neg l).
Proof.
  unfold lit_neg. rewrite literal_not_alt, !odd_mod.
  destruct (l mod 2 =? 1) eqn:E; lia.
Qed.

Lemma literal_not_invol l : literal_not (literal_not l) = l.
Proof. unfold literal_not. rewrite N.lxor_assoc. rewrite N.lxor_nilpotent. apply N.lxor_0_r. Qed.

Lemma lit_eq l l' : l = l' <-> lit_var l = lit_var l' /\ lit_neg l = lit_neg l'.
Proof.
  unfold lit_var, lit_neg. rewrite !odd_mod. split.
  - intros ->; auto.
  - intros [H1 H2]. lia.
Qed.

Lemma lit_true_not a l : lit_true a (literal_not l) <-> ~ lit_true a l.
Proof.
  unfold lit_true. rewrite lit_var_not, lit_neg_not.
  destruct (a (lit_var l)), (lit_neg l); simpl; split; congruence.
Qed.

Lemma lit_true_dec a l : {lit_true a l} + {~ lit_true a l}.
Proof. unfold lit_true. apply bool_dec. Qed.

Lemma lit_legal_not l : lit_legal l -> lit_legal (literal_not l).
Proof. unfold lit_legal. rewrite literal_not_alt, odd_mod. destruct (l mod 2 =? 1) eqn:E; lia. Qed.

Lemma lit_legal_var l : lit_legal l <-> 1 <= lit_var l <= 2147483647.
Proof. unfold lit_legal, lit_var. lia. Qed.

Lemma literal_new_ok b n : 1 <= n <= 2147483647 -> literal_new b n = Ok (2 * n).
Proof.
  intros H. unfold literal_new. rewrite !debug_assert_true by (unfold u31_max; lia).
  simpl. rewrite N.shiftl_mul_pow2. change (2 ^ 1) with 2. unfold u32_mod.
  rewrite N.mod_small by lia. f_equal. lia.
Qed.

Lemma literal_new_debug_panic n :
  n = 0 \/ 2147483647 < n -> literal_new Debug n = Panic.
Proof.
  intros H. unfold literal_new, debug_assert, u31_max.
  destruct (0 <? n) eqn:E1; simpl; auto.
  destruct (n <=? 2147483647) eqn:E2; simpl; auto. lia.
Qed.

Lemma literal_new_inv b n l : literal_new b n = Ok l ->
  (b = Debug -> 1 <= n <= 2147483647) /\ l = (2 * n) mod 4294967296.
Proof.
  unfold literal_new. destruct b; simpl.
  - destruct (0 <? n) eqn:E1; simpl; [|discriminate].
    destruct (n <=? u31_max) eqn:E2; simpl; [|discriminate].
    intros H; inv H. unfold u31_max in *. split; [lia|].
    rewrite N.shiftl_mul_pow2. f_equal. change (2^1) with 2; lia.
  - intros H; inv H. split; [discriminate|].
    rewrite N.shiftl_mul_pow2. f_equal. change (2^1) with 2; lia.
Qed.

Lemma negate_if_true_var l b : lit_var (negate_if_true l b) = lit_var l.
Proof. destruct b; simpl; auto using lit_var_not. Qed.

Lemma negate_if_true_neg l b : lit_neg (negate_if_true l b) = xorb (lit_neg l) b.
Proof. destruct b; simpl; rewrite ?lit_neg_not; destruct (lit_neg l); auto. Qed.

(* ------------------------------------------------------------------- sorting *)

Lemma insert_sorted_perm {A} leb (x : A) l : Permutation (insert_sorted leb x l) (x :: l).
Proof.
  induction l as [|y l IH]; simpl; auto.
  destruct (leb x y); auto.
  rewrite IH. apply perm_swap.
Qed.

Lemma sort_perm {A} leb (l : list A) : Permutation (sort leb l) l.
Proof.
  induction l as [|x l IH]; simpl; auto.
  rewrite insert_sorted_perm. auto.
Qed.

Section SortFacts.
Context {A : Type} (leb : A -> A -> bool).
Hypothesis leb_total : forall x y, leb x y = true \/ leb y x = true.
Hypothesis leb_trans : forall x y z, leb x y = true -> leb y z = true -> leb x z = true.
Let le x y := leb x y = true.

Lemma insert_sorted_sorted x l : StronglySorted le l -> StronglySorted le (insert_sorted leb x l).
Proof.
  induction 1 as [|y l HS IH HF]; simpl.
  - repeat constructor.
  - destruct (leb x y) eqn:E.
    + constructor; [constructor; auto|]. constructor; auto.
      eapply Forall_impl; [|exact HF]. intros z Hz. eapply leb_trans; eauto.
    + constructor; auto.
      assert (Hyx : leb y x = true) by (destruct (leb_total x y); congruence).
      eapply Permutation_Forall; [symmetry; apply insert_sorted_perm|].
      constructor; auto.
Qed.

Lemma sort_sorted l : StronglySorted le (sort leb l).
Proof. induction l; simpl; [constructor|]. apply insert_sorted_sorted; auto. Qed.

Hypothesis leb_antisym : forall x y, leb x y = true -> leb y x = true -> x = y.

Lemma sorted_perm_eq l1 l2 :
  StronglySorted le l1 -> StronglySorted le l2 -> Permutation l1 l2 -> l1 = l2.
Proof.
  intros H1; revert l2; induction H1 as [|x l1 HS IH HF]; intros l2 H2 HP.
  - apply Permutation_nil in HP; auto.
  - destruct H2 as [|y l2 HS2 HF2].
    + apply Permutation_sym, Permutation_nil in HP; discriminate.
    + assert (x = y).
      { assert (Hx : In x (y :: l2)) by (eapply Permutation_in; [exact HP|left; auto]).
        assert (Hy : In y (x :: l1)) by (eapply Permutation_in; [symmetry; exact HP|left; auto]).
        rewrite Forall_forall in HF, HF2.
        destruct Hx as [->|Hx]; auto. destruct Hy as [->|Hy]; auto.
        apply leb_antisym; [apply HF|apply HF2]; auto. }
      subst y. f_equal. apply IH; auto. eapply Permutation_cons_inv; eauto.
Qed.

Lemma sort_eq_iff l1 l2 : sort leb l1 = sort leb l2 <-> Permutation l1 l2.
Proof.
  split; intros H.
  - rewrite <- (sort_perm leb l1), H. apply sort_perm.
  - apply sorted_perm_eq; auto using sort_sorted.
    rewrite !sort_perm; auto.
Qed.

Lemma sort_idem l : StronglySorted le l -> sort leb l = l.
Proof. intros H. apply sorted_perm_eq; auto using sort_sorted, sort_perm. Qed.
End SortFacts.

Lemma Nleb_total x y : (x <=? y) = true \/ (y <=? x) = true. Proof. lia. Qed.
Lemma Nleb_trans x y z : (x <=? y) = true -> (y <=? z) = true -> (x <=? z) = true. Proof. lia. Qed.
Lemma Nleb_antisym x y : (x <=? y) = true -> (y <=? x) = true -> x = y. Proof. lia. Qed.

Definition sortedN (l : list N) : Prop := StronglySorted (fun x y => (x <=? y) = true) l.

Lemma sortN_sorted l : sortedN (sort N.leb l).
Proof. apply sort_sorted; auto using Nleb_total. exact Nleb_trans. Qed.

Lemma sortN_idem l : sortedN l -> sort N.leb l = l.
Proof. apply sort_idem; auto using Nleb_total, Nleb_antisym. exact Nleb_trans. Qed.

Lemma sortN_eq_iff l1 l2 : sort N.leb l1 = sort N.leb l2 <-> Permutation l1 l2.
Proof. apply sort_eq_iff; auto using Nleb_total, Nleb_antisym. exact Nleb_trans. Qed.

Lemma in_sort {A} leb (l : list A) x : In x (sort leb l) <-> In x l.
Proof.
  split; apply Permutation_in; [|symmetry]; apply sort_perm.
Qed.

(* ------------------------------------------------------------ clauses, cubes *)

Lemma api_clause_sorted c : api_clause c <-> sortedN (clause_lits c).
Proof.
  split.
  - intros [ls ->]. apply sortN_sorted.
  - intros H. exists (clause_lits c). destruct c as [ls]; unfold clause_new; simpl in *.
    rewrite sortN_idem; auto.
Qed.

Lemma api_cube_sorted c : api_cube c <-> sortedN (cube_lits c).
Proof.
  split.
  - intros [ls ->]. apply sortN_sorted.
  - intros H. exists (cube_lits c). destruct c as [ls]; unfold cube_new; simpl in *.
    rewrite sortN_idem; auto.
Qed.

Lemma clause_new_api ls : api_clause (clause_new ls). Proof. exists ls; auto. Qed.
Lemma cube_new_api ls : api_cube (cube_new ls). Proof. exists ls; auto. Qed.
Lemma clause_not_api c : api_cube (clause_not c). Proof. eexists; reflexivity. Qed.
Lemma cube_not_api c : api_clause (cube_not c). Proof. eexists; reflexivity. Qed.
Global Hint Resolve clause_new_api cube_new_api clause_not_api cube_not_api : api.

Lemma in_clause_new ls l : In l (clause_lits (clause_new ls)) <-> In l ls.
Proof. apply in_sort. Qed.
Lemma in_cube_new ls l : In l (cube_lits (cube_new ls)) <-> In l ls.
Proof. apply in_sort. Qed.

Lemma clause_new_true a ls : clause_true a (clause_new ls) <-> exists l, In l ls /\ lit_true a l.
Proof. unfold clause_true. setoid_rewrite in_clause_new. reflexivity. Qed.

Lemma cube_new_true a ls : cube_true a (cube_new ls) <-> forall l, In l ls -> lit_true a l.
Proof. unfold cube_true. setoid_rewrite in_cube_new. reflexivity. Qed.

Lemma clause_new_legal ls : clause_legal (clause_new ls) <-> Forall lit_legal ls.
Proof.
  unfold clause_legal. rewrite !Forall_forall. setoid_rewrite in_clause_new. reflexivity.
Qed.
Lemma cube_new_legal ls : cube_legal (cube_new ls) <-> Forall lit_legal ls.
Proof.
  unfold cube_legal. rewrite !Forall_forall. setoid_rewrite in_cube_new. reflexivity.
Qed.

Lemma in_clause_not c l : In l (cube_lits (clause_not c)) <-> In (literal_not l) (clause_lits c).
Proof.
  unfold clause_not. rewrite in_cube_new, in_map_iff. unfold clause_iter. split.
  - intros (x & <- & H). rewrite literal_not_invol; auto.
  - intros H. eexists; split; [|exact H]. apply literal_not_invol.
Qed.

Lemma in_cube_not q l : In l (clause_lits (cube_not q)) <-> In (literal_not l) (cube_lits q).
Proof.
  unfold cube_not. rewrite in_clause_new, in_map_iff. unfold cube_iter. split.
  - intros (x & <- & H). rewrite literal_not_invol; auto.
  - intros H. eexists; split; [|exact H]. apply literal_not_invol.
Qed.

Lemma clause_true_dec a c : {clause_true a c} + {~ clause_true a c}.
Proof.
  unfold clause_true. induction (clause_lits c) as [|l ls IH].
  - right. intros (l & [] & _).
  - destruct (lit_true_dec a l) as [Hl|Hl].
    + left; exists l; simpl; auto.
    + destruct IH as [IH|IH].
      * left. destruct IH as (x & Hx & Hx'); exists x; simpl; auto.
      * right. intros (x & [<-|Hx] & Hx'); eauto.
Qed.

Lemma cube_true_dec a q : {cube_true a q} + {~ cube_true a q}.
Proof.
  unfold cube_true. induction (cube_lits q) as [|l ls IH].
  - left. intros l [].
  - destruct (lit_true_dec a l) as [Hl|Hl].
    + destruct IH as [IH|IH].
      * left. intros x [<-|Hx]; auto.
      * right. intros H. apply IH. intros x Hx; apply H; right; auto.
    + right. intros H. apply Hl, H; left; auto.
Qed.

Lemma clauses_true_dec a cs : {clauses_true a cs} + {~ clauses_true a cs}.
Proof.
  unfold clauses_true. induction cs as [|c cs IH].
  - left. intros l [].
  - destruct (clause_true_dec a c) as [Hl|Hl].
    + destruct IH as [IH|IH].
      * left. intros x [<-|Hx]; auto.
      * right. intros H. apply IH. intros x Hx; apply H; right; auto.
    + right. intros H. apply Hl, H; left; auto.
Qed.

Lemma clause_not_true a c : cube_true a (clause_not c) <-> ~ clause_true a c.
Proof.
  unfold cube_true, clause_true. split.
  - intros H (l & Hl & Ht). specialize (H (literal_not l)).
    rewrite in_clause_not, literal_not_invol in H. apply (lit_true_not a l) in H; auto.
  - intros H l Hl. apply in_clause_not in Hl.
    destruct (lit_true_dec a l) as [Hd|Hd]; auto.
    exfalso; apply H. exists (literal_not l); split; auto. apply lit_true_not; auto.
Qed.

Lemma cube_not_true a q : clause_true a (cube_not q) <-> ~ cube_true a q.
Proof.
  unfold cube_true, clause_true. split.
  - intros (l & Hl & Ht) H. apply in_cube_not in Hl. apply H in Hl.
    apply lit_true_not in Hl. auto.
  - intros H. destruct (clause_true_dec a (cube_not q)) as [Hd|Hd]; auto.
    exfalso; apply H. intros l Hl.
    destruct (lit_true_dec a l) as [Hx|Hx]; auto.
    exfalso; apply Hd. exists (literal_not l). split.
    + rewrite in_cube_not, literal_not_invol; auto.
    + apply lit_true_not; auto.
Qed.

Lemma map_not_invol ls : map literal_not (map literal_not ls) = ls.
Proof.
  rewrite map_map. rewrite <- (map_id ls) at 2. apply map_ext; apply literal_not_invol.
Qed.

Lemma clause_not_not c : api_clause c -> cube_not (clause_not c) = c.
Proof.
  intros H; apply api_clause_sorted in H. destruct c as [ls]; simpl in H.
  unfold cube_not, clause_not, clause_new, cube_new, cube_iter, clause_iter; simpl. f_equal.
  rewrite <- (sortN_idem ls) at 2 by auto. apply sortN_eq_iff.
  etransitivity; [apply Permutation_map, sort_perm|]. rewrite map_not_invol; auto.
Qed.

Lemma cube_not_not q : api_cube q -> clause_not (cube_not q) = q.
Proof.
  intros H; apply api_cube_sorted in H. destruct q as [ls]; simpl in H.
  unfold cube_not, clause_not, clause_new, cube_new, cube_iter, clause_iter; simpl. f_equal.
  rewrite <- (sortN_idem ls) at 2 by auto. apply sortN_eq_iff.
  etransitivity; [apply Permutation_map, sort_perm|]. rewrite map_not_invol; auto.
Qed.

Lemma clause_not_legal c : clause_legal c -> cube_legal (clause_not c).
Proof.
  unfold clause_legal, cube_legal. rewrite !Forall_forall. intros H l Hl.
  apply in_clause_not in Hl. rewrite <- (literal_not_invol l). apply lit_legal_not; auto.
Qed.
Lemma cube_not_legal c : cube_legal c -> clause_legal (cube_not c).
Proof.
  unfold clause_legal, cube_legal. rewrite !Forall_forall. intros H l Hl.
  apply in_cube_not in Hl. rewrite <- (literal_not_invol l). apply lit_legal_not; auto.
Qed.

Definition clause_max (c : Clause) : N := fold_right (fun l m => N.max (lit_var l) m) 0 (clause_lits c).

Lemma fold_max_le ls m : fold_right (fun l m => N.max (lit_var l) m) 0 ls <= m <->
  Forall (fun l => lit_var l <= m) ls.
Proof.
  induction ls as [|l ls IH]; simpl.
  - split; auto. intros; lia.
  - rewrite Forall_cons_iff, <- IH. lia.
Qed.

Lemma clause_max_le c m : clause_max c <= m <-> forall l, In l (clause_lits c) -> lit_var l <= m.
Proof. unfold clause_max. rewrite fold_max_le, Forall_forall. reflexivity. Qed.

Lemma clause_max_in c l : In l (clause_lits c) -> lit_var l <= clause_max c.
Proof. intros H. apply (clause_max_le c (clause_max c)); auto. lia. Qed.

Lemma last_opt_app {A} (l : list A) x : last_opt (l ++ [x]) = Some x.
Proof. induction l as [|y [|z l] IH]; simpl; auto. Qed.

Lemma sorted_app_inv {A} (R : A -> A -> Prop) l1 l2 :
  StronglySorted R (l1 ++ l2) -> forall x y, In x l1 -> In y l2 -> R x y.
Proof.
  induction l1 as [|z l1 IH]; simpl; intros H x y Hx Hy; [contradiction|].
  inv H. destruct Hx as [->|Hx]; eauto.
  rewrite Forall_forall in H3. apply H3, in_or_app; auto.
Qed.

Lemma clause_highest_max c : api_clause c -> clause_highest c = clause_max c.
Proof.
  intros H; apply api_clause_sorted in H. unfold clause_highest.
  destruct c as [ls]; unfold clause_max; simpl in *.
  destruct ls as [|x ls] using rev_ind; simpl; auto.
  rewrite last_opt_app, get_number_div.
  apply N.le_antisymm.
  - apply (clause_max_in (mkClause (ls ++ [x])) x). simpl. apply in_or_app; simpl; auto.
  - apply fold_max_le. apply Forall_app; split; [|repeat constructor; unfold lit_var; lia].
    apply Forall_forall. intros l Hl.
    pose proof (sorted_app_inv _ ls [x] H l x Hl (or_introl eq_refl)) as Hle. cbv beta in Hle.
    unfold lit_var. lia.
Qed.

Lemma list_eqb_eq a b : list_eqb a b = true <-> a = b.
Proof.
  revert b; induction a as [|x a IH]; destruct b as [|y b]; simpl; split; try congruence; auto.
  - rewrite andb_true_iff, IH. intros [H ->]. f_equal; lia.
  - intros H; inv H. rewrite andb_true_iff, IH. split; auto; lia.
Qed.

Lemma clause_eqb_eq c d : clause_eqb c d = true <-> c = d.
Proof. unfold clause_eqb. rewrite list_eqb_eq. destruct c, d; simpl; split; congruence. Qed.
Lemma cube_eqb_eq c d : cube_eqb c d = true <-> c = d.
Proof. unfold cube_eqb. rewrite list_eqb_eq. destruct c, d; simpl; split; congruence. Qed.

(* -------------------------------------------------------------------- list sets *)

Section SetFacts.
Context {A : Type} (eqb : A -> A -> bool).
Hypothesis eqb_eq : forall x y, eqb x y = true <-> x = y.

Lemma set_mem_in x l : set_mem eqb x l = true <-> In x l.
Proof.
  unfold set_mem. rewrite existsb_exists. split.
  - intros (y & Hy & E). apply eqb_eq in E; subst; auto.
  - intros H. exists x; split; auto. apply eqb_eq; auto.
Qed.

Lemma in_set_insert l x y : In y (set_insert eqb l x) <-> In y l \/ y = x.
Proof.
  unfold set_insert. destruct (set_mem eqb x l) eqn:E.
  - apply set_mem_in in E. split; auto. intros [H| ->]; auto.
  - rewrite in_app_iff; simpl. intuition.
Qed.

Lemma set_insert_nodup l x : NoDup l -> NoDup (set_insert eqb l x).
Proof.
  unfold set_insert. destruct (set_mem eqb x l) eqn:E; auto.
  intros H.
  eapply Permutation_NoDup; [apply Permutation_cons_append|].
  constructor; auto. rewrite <- set_mem_in. congruence.
Qed.

Lemma in_fold_insert g l y : In y (fold_left (set_insert eqb) g l) <-> In y l \/ In y g.
Proof.
  revert l; induction g as [|x g IH]; simpl; intros l.
  - intuition.
  - rewrite IH, in_set_insert. intuition.
Qed.

Lemma fold_insert_nodup g l : NoDup l -> NoDup (fold_left (set_insert eqb) g l).
Proof. revert l; induction g; simpl; auto using set_insert_nodup. Qed.
End SetFacts.

(* -------------------------------------------------------------------------- CNF *)

Lemma in_add_clause f c d : In d (cnf_clauses (cnf_add_clause f c)) <-> In d (cnf_clauses f) \/ d = c.
Proof. simpl. apply in_set_insert, clause_eqb_eq. Qed.

Lemma in_append f g d : In d (cnf_clauses (cnf_append f g)) <-> In d (cnf_clauses f) \/ In d (cnf_clauses g).
Proof. simpl. apply in_fold_insert, clause_eqb_eq. Qed.

Lemma cnf_new_true a : cnf_true a cnf_new.
Proof. intros c []. Qed.

Lemma cnf_add_clause_true a f c : cnf_true a (cnf_add_clause f c) <-> cnf_true a f /\ clause_true a c.
Proof.
  unfold cnf_true, clauses_true. setoid_rewrite in_add_clause. split.
  - intros H; split; auto.
  - intros [H1 H2] d [Hd| ->]; auto.
Qed.

Lemma cnf_append_true a f g : cnf_true a (cnf_append f g) <-> cnf_true a f /\ cnf_true a g.
Proof.
  unfold cnf_true, clauses_true. setoid_rewrite in_append. split.
  - intros H; split; auto.
  - intros [H1 H2] d [Hd|Hd]; auto.
Qed.

Lemma clause_to_cnf_true a c : cnf_true a (clause_to_cnf c) <-> clause_true a c.
Proof. unfold clause_to_cnf. rewrite cnf_add_clause_true. intuition auto using cnf_new_true. Qed.

Lemma unit_true a l : clause_true a (clause_new [l]) <-> lit_true a l.
Proof.
  rewrite clause_new_true. simpl. split.
  - intros (x & [<-|[]] & H); auto.
  - eauto.
Qed.

Lemma in_cube_to_cnf q c :
  In c (cnf_clauses (cube_to_cnf q)) <-> exists l, In l (cube_lits q) /\ c = mkClause [l].
Proof.
  unfold cube_to_cnf.
  assert (G : forall ls f, In c (cnf_clauses (fold_left (fun f l => cnf_add_clause f (clause_new [l])) ls f))
     <-> In c (cnf_clauses f) \/ exists l, In l ls /\ c = mkClause [l]).
  { induction ls as [|l ls IH]; cbn [fold_left]; intros f.
    - split; auto. intros [H|(l & [] & _)]; auto.
    - rewrite IH, in_add_clause. change (clause_new [l]) with (mkClause [l]). split.
      + intros [[H| ->]|(x & Hx & ->)]; auto; right; eexists; split; eauto; simpl; auto.
      + intros [H|(x & [<-|Hx] & ->)]; eauto. }
  rewrite G. simpl. split; [intros [[]|H]; auto|auto].
Qed.

Lemma cube_to_cnf_true a q : cnf_true a (cube_to_cnf q) <-> cube_true a q.
Proof.
  unfold cnf_true, clauses_true, cube_true. setoid_rewrite in_cube_to_cnf. split.
  - intros H l Hl. apply unit_true. apply H. exists l; auto.
  - intros H c (l & Hl & ->). apply (unit_true a l); auto.
Qed.

Lemma api_cnf_new : api_cnf cnf_new. Proof. exists H_new; auto. Qed.
Lemma api_cnf_add f c : api_cnf f -> api_clause c -> api_cnf (cnf_add_clause f c).
Proof. intros [h ->] [ls ->]. exists (H_add h ls); auto. Qed.
Lemma api_cnf_append f g : api_cnf f -> api_cnf g -> api_cnf (cnf_append f g).
Proof. intros [h ->] [h' ->]. exists (H_append h h'); auto. Qed.
Lemma api_clause_to_cnf c : api_clause c -> api_cnf (clause_to_cnf c).
Proof. intros H. apply api_cnf_add; auto using api_cnf_new. Qed.
Lemma api_cube_to_cnf q : api_cnf (cube_to_cnf q).
Proof.
  unfold cube_to_cnf. assert (G : forall ls f, api_cnf f ->
    api_cnf (fold_left (fun f l => cnf_add_clause f (clause_new [l])) ls f)).
  { induction ls; cbn [fold_left]; auto with api. intros f Hf. apply IHls, api_cnf_add; auto with api. }
  apply G, api_cnf_new.
Qed.
Global Hint Resolve api_cnf_new api_cnf_add api_cnf_append api_clause_to_cnf api_cube_to_cnf : api.

Lemma api_cnf_clauses f : api_cnf f -> Forall api_clause (cnf_clauses f).
Proof.
  intros [h ->]. induction h; rewrite Forall_forall in *; intros c Hc.
  - destruct Hc.
  - simpl run_history in Hc. apply in_add_clause in Hc as [Hc| ->]; auto with api.
  - simpl run_history in Hc. apply in_append in Hc as [Hc|Hc]; auto.
Qed.

Lemma api_cnf_nodup f : api_cnf f -> NoDup (cnf_clauses f).
Proof.
  intros [h ->]. induction h; simpl.
  - constructor.
  - apply set_insert_nodup; auto. apply clause_eqb_eq.
  - apply fold_insert_nodup; auto. apply clause_eqb_eq.
Qed.

Lemma max_var_cons c cs : max_var (c :: cs) = N.max (clause_max c) (max_var cs).
Proof. reflexivity. Qed.

Lemma max_var_le cs m : max_var cs <= m <->
  forall c l, In c cs -> In l (clause_lits c) -> lit_var l <= m.
Proof.
  induction cs as [|c cs IH].
  - simpl. split; [intros _ c l []|]. intros; lia.
  - rewrite max_var_cons. rewrite N.max_lub_iff, IH, clause_max_le. simpl. split.
    + intros [H1 H2] d l [<-|Hd]; eauto.
    + intros H; split; eauto.
Qed.

Lemma max_var_in cs c l : In c cs -> In l (clause_lits c) -> lit_var l <= max_var cs.
Proof. intros. eapply max_var_le; eauto. lia. Qed.

Lemma max_var_same cs ds : (forall c, In c cs <-> In c ds) -> max_var cs = max_var ds.
Proof.
  intros H. apply N.le_antisymm; apply max_var_le; intros c l Hc Hl;
    eapply max_var_in; eauto; apply H; auto.
Qed.

Lemma max_var_app cs ds : max_var (cs ++ ds) = N.max (max_var cs) (max_var ds).
Proof. induction cs; simpl app; rewrite ?max_var_cons; [simpl; lia|]. rewrite IHcs. lia. Qed.

Lemma cnf_max_max_var f : api_cnf f -> cnf_max f = max_var (cnf_clauses f).
Proof.
  intros [h ->]. induction h; simpl run_history.
  - reflexivity.
  - transitivity (max_var (clause_new ls :: cnf_clauses (run_history h))).
    + rewrite max_var_cons, <- IHh, <- clause_highest_max by auto with api. simpl. lia.
    + apply max_var_same. intros c. rewrite in_add_clause. simpl. intuition.
  - transitivity (max_var (cnf_clauses (run_history h1) ++ cnf_clauses (run_history h2))).
    + rewrite max_var_app, <- IHh1, <- IHh2. reflexivity.
    + apply max_var_same. intros c. rewrite in_append, in_app_iff. reflexivity.
Qed.

Lemma cnf_legal_new : cnf_legal cnf_new. Proof. constructor. Qed.
Lemma cnf_legal_add f c : cnf_legal f -> clause_legal c -> cnf_legal (cnf_add_clause f c).
Proof.
  unfold cnf_legal. rewrite !Forall_forall. intros H Hc d Hd.
  apply in_add_clause in Hd as [Hd| ->]; auto.
Qed.
Lemma cnf_legal_append f g : cnf_legal f -> cnf_legal g -> cnf_legal (cnf_append f g).
Proof.
  unfold cnf_legal. rewrite !Forall_forall. intros H Hc d Hd.
  apply in_append in Hd as [Hd|Hd]; auto.
Qed.
Lemma clause_to_cnf_legal c : clause_legal c -> cnf_legal (clause_to_cnf c).
Proof. intros; apply cnf_legal_add; auto using cnf_legal_new. Qed.
Lemma cube_to_cnf_legal q : cube_legal q -> cnf_legal (cube_to_cnf q).
Proof.
  unfold cnf_legal, cube_legal. rewrite !Forall_forall. intros H c Hc.
  apply in_cube_to_cnf in Hc as (l & Hl & ->). repeat constructor; apply H in Hl; unfold lit_legal in Hl; lia.
Qed.
Global Hint Resolve cnf_legal_new cnf_legal_add cnf_legal_append clause_to_cnf_legal
  cube_to_cnf_legal clause_not_legal cube_not_legal : api.

Lemma cnf_legal_in f c : cnf_legal f -> In c (cnf_clauses f) -> clause_legal c.
Proof. unfold cnf_legal. rewrite Forall_forall. auto. Qed.

Lemma cnf_contains_in f c : cnf_contains f c = true <-> In c (cnf_clauses f).
Proof. apply set_mem_in, clause_eqb_eq. Qed.

Lemma cnf_eqb_spec f g : NoDup (cnf_clauses f) -> NoDup (cnf_clauses g) ->
  (cnf_eqb f g = true <-> forall c, In c (cnf_clauses f) <-> In c (cnf_clauses g)).
Proof.
  intros Nf Ng. unfold cnf_eqb, lenN. rewrite andb_true_iff, N.eqb_eq, forallb_forall.
  setoid_rewrite (set_mem_in clause_eqb clause_eqb_eq). split.
  - intros [Hl Hi] c; split; auto.
    apply NoDup_length_incl; auto. lia.
  - intros H. split; [|intros c Hc; apply H; auto].
    f_equal. apply Nat.le_antisymm; apply NoDup_incl_length; auto; intros c Hc; apply H; auto.
Qed.
