(** Final forms of the facts about literals, clauses, cubes and CNFs. *)
From Coq Require Import Sorted.
From Verif Require Import Base Formulas FormulaLogic Solvers Spec SpecText Tac FormulasFacts TextFacts LogicFacts.
Open Scope N_scope.

Lemma literal_code l : get_number l = lit_var l /\ is_negated l = lit_neg l.
Proof. split; [apply get_number_div|apply is_negated_odd]. Qed.

Lemma literal_roundtrip b n : 1 <= n <= 2147483647 ->
  exists l, literal_new b n = Ok l /\ get_number l = n /\ is_negated l = false /\ lit_legal l.
Proof.
  intros H. exists (2 * n). rewrite literal_new_ok, get_number_div, is_negated_odd, odd_mod by auto.
  unfold lit_legal. repeat split; lia.
Qed.

Lemma literal_negation l :
  get_number (literal_not l) = get_number l /\
  is_negated (literal_not l) = negb (is_negated l) /\
  literal_not (literal_not l) = l /\
  forall b, get_number (negate_if_true l b) = get_number l /\
            is_negated (negate_if_true l b) = xorb (is_negated l) b.
Proof.
  rewrite !get_number_div, !is_negated_odd. repeat split.
  - apply lit_var_not.
  - apply lit_neg_not.
  - apply literal_not_invol.
  - rewrite !get_number_div. apply negate_if_true_var.
  - rewrite !is_negated_odd. apply negate_if_true_neg.
Qed.

Lemma literal_equal l l' :
  l = l' <-> get_number l = get_number l' /\ is_negated l = is_negated l'.
Proof. rewrite !get_number_div, !is_negated_odd. apply lit_eq. Qed.

Lemma literal_debug_rejects n : n = 0 \/ 2147483647 < n -> literal_new Debug n = Panic.
Proof. apply literal_new_debug_panic. Qed.

Lemma literal_release_alias n m : n < 4294967296 -> m < 4294967296 ->
  (exists l, literal_new Release n = Ok l) /\
  (literal_new Release n = literal_new Release m <-> n mod 2147483648 = m mod 2147483648).
Proof.
  intros Hn Hm. unfold literal_new; simpl. split; eauto.
  rewrite !N.shiftl_mul_pow2. change (2 ^ 1) with 2. unfold u32_mod. split.
  - intros H; inv H. lia.
  - intros H. f_equal. lia.
Qed.

(* ------------------------------------------------------------------ C02 *)

Lemma clause_new_eq l1 l2 : clause_new l1 = clause_new l2 <-> Permutation l1 l2.
Proof.
  unfold clause_new. split; intros H.
  - inv H. apply sortN_eq_iff; auto.
  - f_equal. apply sortN_eq_iff; auto.
Qed.

Lemma cube_new_eq l1 l2 : cube_new l1 = cube_new l2 <-> Permutation l1 l2.
Proof.
  unfold cube_new. split; intros H.
  - inv H. apply sortN_eq_iff; auto.
  - f_equal. apply sortN_eq_iff; auto.
Qed.

Lemma clause_eqb_new l1 l2 : clause_eqb (clause_new l1) (clause_new l2) = true <-> Permutation l1 l2.
Proof. rewrite clause_eqb_eq. apply clause_new_eq. Qed.
Lemma cube_eqb_new l1 l2 : cube_eqb (cube_new l1) (cube_new l2) = true <-> Permutation l1 l2.
Proof. rewrite cube_eqb_eq. apply cube_new_eq. Qed.

Lemma sortedN_le l : sortedN l -> StronglySorted N.le l.
Proof.
  induction 1 as [|x l HS IH HF]; constructor; auto.
  eapply Forall_impl; [|exact HF]. intros y Hy. cbv beta in Hy. lia.
Qed.

Lemma nil_eqb {A} (l : list A) : match l with [] => true | _ => false end = true <-> l = [].
Proof. destruct l; split; congruence. Qed.

Lemma sort_nil ls : sort N.leb ls = [] <-> ls = [].
Proof.
  split; intros H; [|subst; auto].
  apply Permutation_nil. rewrite <- H. apply sort_perm.
Qed.

Lemma clause_observers ls :
  Permutation (clause_iter (clause_new ls)) ls /\
  StronglySorted N.le (clause_iter (clause_new ls)) /\
  clause_len (clause_new ls) = N.of_nat (length ls) /\
  (clause_is_empty (clause_new ls) = true <-> ls = []).
Proof.
  unfold clause_iter, clause_len, clause_is_empty, lenN. simpl.
  split; [apply sort_perm|]. split; [apply sortedN_le, sortN_sorted|].
  split; [f_equal; apply Permutation_length, sort_perm|].
  rewrite nil_eqb. apply sort_nil.
Qed.

Lemma cube_observers ls :
  Permutation (cube_iter (cube_new ls)) ls /\
  StronglySorted N.le (cube_iter (cube_new ls)) /\
  cube_len (cube_new ls) = N.of_nat (length ls) /\
  (cube_is_empty (cube_new ls) = true <-> ls = []).
Proof.
  unfold cube_iter, cube_len, cube_is_empty, lenN. simpl.
  split; [apply sort_perm|]. split; [apply sortedN_le, sortN_sorted|].
  split; [f_equal; apply Permutation_length, sort_perm|].
  rewrite nil_eqb. apply sort_nil.
Qed.

Lemma clause_highest_spec ls :
  (forall l, In l ls -> get_number l <= clause_highest (clause_new ls)) /\
  (clause_highest (clause_new ls) = 0 \/
   exists l, In l ls /\ clause_highest (clause_new ls) = get_number l).
Proof.
  rewrite clause_highest_max by auto with api. split.
  - intros l Hl. rewrite get_number_div. apply clause_max_in. apply in_clause_new; auto.
  - unfold clause_max.
    assert (G : forall ks, fold_right (fun l m => N.max (lit_var l) m) 0 ks = 0 \/
      exists l, In l ks /\ fold_right (fun l m => N.max (lit_var l) m) 0 ks = lit_var l).
    { induction ks as [|k ks [IH|(l & Hl & IH)]]; simpl; auto.
      - right. exists k. split; auto. rewrite IH. lia.
      - right. rewrite IH. destruct (N.max_dec (lit_var k) (lit_var l)) as [E|E]; rewrite E; eauto. }
    destruct (G (clause_lits (clause_new ls))) as [E|(l & Hl & E)]; auto.
    right. exists l. rewrite get_number_div. split; auto. apply in_clause_new; auto.
Qed.

(* ------------------------------------------------------------------ C04 *)

Lemma in_run_history h c :
  In c (cnf_clauses (run_history h)) <-> exists ls, In ls (added h) /\ c = clause_new ls.
Proof.
  induction h as [|h IH ls|h1 IH1 h2 IH2]; simpl run_history; simpl added.
  - simpl. split; [intros []|intros (ls & [] & _)].
  - rewrite in_add_clause, IH. setoid_rewrite in_app_iff. split.
    + intros [(k & Hk & ->)| ->]; [exists k|exists ls]; simpl; auto.
    + intros (k & [Hk|[<-|[]]] & ->); eauto.
  - rewrite in_append, IH1, IH2. setoid_rewrite in_app_iff. split.
    + intros [(k & Hk & ->)|(k & Hk & ->)]; exists k; auto.
    + intros (k & [Hk|Hk] & ->); eauto.
Qed.

Lemma history_contains h ls :
  cnf_contains (run_history h) (clause_new ls) = true <->
  exists ls', In ls' (added h) /\ Permutation ls ls'.
Proof.
  rewrite cnf_contains_in, in_run_history.
  split; intros (k & Hk & H); exists k; split; auto; apply clause_new_eq; auto.
Qed.

Lemma history_len h :
  exists D : list (list N),
    (forall d, In d D -> In d (added h)) /\
    (forall ls, In ls (added h) -> exists d, In d D /\ Permutation ls d) /\
    ForallOrdPairs (fun d d' => ~ Permutation d d') D /\
    cnf_len (run_history h) = N.of_nat (length D).
Proof.
  assert (Hn : NoDup (cnf_clauses (run_history h))) by (apply api_cnf_nodup; eexists; eauto).
  assert (Hin : forall c, In c (cnf_clauses (run_history h)) -> exists ls, In ls (added h) /\ c = clause_new ls)
    by (intros; apply in_run_history; auto).
  assert (Hall : forall ls, In ls (added h) -> In (clause_new ls) (cnf_clauses (run_history h)))
    by (intros; apply in_run_history; eauto).
  unfold cnf_len, lenN. revert Hn Hin Hall. generalize (cnf_clauses (run_history h)) as cs.
  intros cs Hn Hin Hall.
  assert (G : exists D, length D = length cs /\ (forall d, In d D -> In d (added h)) /\
     map clause_new D = cs).
  { clear Hn Hall. induction cs as [|c cs IH].
    - exists []; simpl; repeat split; auto; intros d [].
    - destruct IH as (D & E1 & E2 & E3); [intros; apply Hin; right; auto|].
      destruct (Hin c (or_introl eq_refl)) as (ls & Hls & ->).
      exists (ls :: D). simpl. repeat split; auto; try congruence. intros d [<-|Hd]; auto. }
  destruct G as (D & E1 & E2 & E3). exists D. repeat split; auto.
  - intros ls Hls. apply Hall in Hls. rewrite <- E3 in Hls. apply in_map_iff in Hls as (d & Ed & Hd).
    exists d; split; auto. apply clause_new_eq; auto.
  - clear - Hn E3. revert cs E3 Hn; induction D as [|d D IH]; intros cs E Hn; [constructor|].
    simpl in E. subst cs. inv Hn. constructor; eauto.
    apply Forall_forall. intros d' Hd' HP. apply H1. apply clause_new_eq in HP. rewrite HP.
    apply in_map; auto.
Qed.

Lemma max_var_reached cs :
  max_var cs = 0 \/ exists c l, In c cs /\ In l (clause_lits c) /\ max_var cs = lit_var l.
Proof.
  induction cs as [|c cs IH]; [left; reflexivity|]. rewrite max_var_cons.
  assert (Gc : clause_max c = 0 \/ exists l, In l (clause_lits c) /\ clause_max c = lit_var l).
  { unfold clause_max. induction (clause_lits c) as [|k ks [IHk|(l & Hl & IHk)]]; simpl; auto.
    - right. exists k. split; auto. rewrite IHk. lia.
    - right. rewrite IHk. destruct (N.max_dec (lit_var k) (lit_var l)) as [E|E]; rewrite E; eauto. }
  destruct (N.max_dec (clause_max c) (max_var cs)) as [E|E]; rewrite E.
  - destruct Gc as [Gc|(l & Hl & Gc)]; auto. right. exists c, l. simpl; auto.
  - destruct IH as [IH|(d & l & Hd & Hl & IH)]; auto. right. exists d, l. simpl; auto.
Qed.

Lemma history_max h :
  (forall ls l, In ls (added h) -> In l ls -> get_number l <= cnf_get_max (run_history h)) /\
  (cnf_get_max (run_history h) = 0 \/
   exists ls l, In ls (added h) /\ In l ls /\ cnf_get_max (run_history h) = get_number l).
Proof.
  unfold cnf_get_max. rewrite cnf_max_max_var by (eexists; eauto). split.
  - intros ls l Hls Hl. rewrite get_number_div. eapply max_var_in.
    + apply in_run_history. eauto.
    + apply in_clause_new; auto.
  - destruct (max_var_reached (cnf_clauses (run_history h))) as [E|(c & l & Hc & Hl & E)]; auto.
    right. apply in_run_history in Hc as (ls & Hls & ->). exists ls, l.
    rewrite get_number_div. repeat split; auto. apply in_clause_new; auto.
Qed.

Lemma history_eq h h' :
  (cnf_eqb (run_history h) (run_history h') = true <->
   forall ls, cnf_contains (run_history h) (clause_new ls) = cnf_contains (run_history h') (clause_new ls)) /\
  (cnf_eqb (run_history h) (run_history h') = true ->
   cnf_len (run_history h) = cnf_len (run_history h') /\
   cnf_get_max (run_history h) = cnf_get_max (run_history h')).
Proof.
  assert (Hn : forall h, NoDup (cnf_clauses (run_history h))) by (intros; apply api_cnf_nodup; eexists; eauto).
  rewrite cnf_eqb_spec by auto. split.
  - split; intros H.
    + intros ls. apply eq_true_iff_eq. rewrite !cnf_contains_in. apply H.
    + assert (G : forall c, api_clause c -> cnf_contains (run_history h) c = cnf_contains (run_history h') c)
        by (intros c [ls ->]; auto).
      intros c. rewrite <- !cnf_contains_in. split; intros Hc.
      * rewrite <- G; auto. apply cnf_contains_in in Hc.
        apply in_run_history in Hc as (ls & _ & ->); auto with api.
      * rewrite G; auto. apply cnf_contains_in in Hc.
        apply in_run_history in Hc as (ls & _ & ->); auto with api.
  - intros H. unfold cnf_len, cnf_get_max, lenN. split.
    + f_equal. apply Permutation_length. apply NoDup_Permutation; auto.
    + rewrite !cnf_max_max_var by (eexists; eauto). apply max_var_same; auto.
Qed.

Lemma history_empty h : cnf_is_empty (run_history h) = true <-> added h = [].
Proof.
  unfold cnf_is_empty. rewrite nil_eqb. split; intros H.
  - destruct (added h) as [|ls r] eqn:E; auto.
    assert (Hi : In (clause_new ls) (cnf_clauses (run_history h))).
    { apply in_run_history. rewrite E. exists ls; simpl; auto. }
    rewrite H in Hi. destruct Hi.
  - destruct (cnf_clauses (run_history h)) as [|c r] eqn:E; auto.
    assert (Hi : In c (cnf_clauses (run_history h))) by (rewrite E; left; auto).
    apply in_run_history in Hi as (ls & Hi & _). rewrite H in Hi. destruct Hi.
Qed.

(* ------------------------------------------------------------------ C08 *)

Lemma evaluate_total order f asg : order_ok order ->
  (forall c l, In c (cnf_clauses f) -> In l (clause_lits c) -> get_value asg (lit_var l) <> None) ->
  exists r, evaluate_cnf order f asg = Ok r /\
    forall a, agrees asg a -> (r = true <-> cnf_true a f).
Proof.
  intros Ho Hd. destruct (evaluate_cnf_defined order f asg Ho Hd) as [r E].
  exists r; split; auto. intros a Ha. eapply evaluate_cnf_sound; eauto.
Qed.

Lemma evaluate_clause_total c asg :
  (forall l, In l (clause_lits c) -> get_value asg (lit_var l) <> None) ->
  exists r, evaluate_clause c asg = Ok r /\
    forall a, agrees asg a -> (r = true <-> clause_true a c).
Proof.
  intros Hd. destruct (evaluate_literals_defined _ asg Hd) as [r E].
  exists r; split; auto. intros a Ha. eapply evaluate_literals_sound; eauto.
Qed.

Lemma evaluate_literal_total l asg :
  get_value asg (lit_var l) <> None ->
  exists r, evaluate_literal l asg = Ok r /\
    forall a, agrees asg a -> (r = true <-> lit_true a l).
Proof.
  intros Hd. destruct (get_value asg (lit_var l)) as [x|] eqn:E; [|congruence].
  exists (xorb x (lit_neg l)). assert (E' : evaluate_literal l asg = Ok (xorb x (lit_neg l)))
    by (rewrite evaluate_literal_alt, E; auto).
  split; auto. intros a Ha. eapply evaluate_literal_sound; eauto.
Qed.

Lemma evaluate_partial_sound order f c l asg a : order_ok order -> agrees asg a ->
  (forall r, evaluate_literal l asg = Ok r -> (r = true <-> lit_true a l)) /\
  (forall r, evaluate_clause c asg = Ok r -> (r = true <-> clause_true a c)) /\
  (forall r, evaluate_cnf order f asg = Ok r -> (r = true <-> cnf_true a f)).
Proof.
  intros Ho Ha. split; [|split]; intros r E.
  - eapply evaluate_literal_sound; eauto.
  - eapply evaluate_literals_sound; eauto.
  - eapply evaluate_cnf_sound; eauto.
Qed.
