(** Printing of literals, clauses and cubes. *)
From Verif Require Import Base Formulas Spec SpecText Tac FormulasFacts TextFacts FormulaThms.
Open Scope N_scope.

Lemma literal_display_eq l l' : lit_legal l -> lit_legal l' ->
  (literal_display l = literal_display l' <-> l = l').
Proof.
  intros H H'. split; [|intros ->; auto]. intros E. apply dimacs_int_inj; auto.
  pose proof (read_integer_literal l) as X. rewrite E, read_integer_literal in X. congruence.
Qed.

Lemma same_lits c d : clause_lits c = clause_lits d -> d = c.
Proof. destruct c, d; simpl; congruence. Qed.

Lemma clause_display_read ls : Forall lit_legal ls ->
  exists zs, read_clause_line (clause_display (clause_new ls)) = Some zs /\
    Permutation zs (map dimacs_int ls).
Proof.
  intros H. exists (map dimacs_int (clause_lits (clause_new ls))). split.
  - apply read_clause_line_display; [exists ls; auto|apply clause_new_legal; auto].
  - apply Permutation_map. apply clause_observers.
Qed.

Lemma clause_display_eq l1 l2 : Forall lit_legal l1 -> Forall lit_legal l2 ->
  (clause_display (clause_new l1) = clause_display (clause_new l2) <-> Permutation l1 l2).
Proof.
  intros H1 H2. rewrite <- clause_eqb_new, clause_eqb_eq. split; [|intros ->; auto].
  intros E. apply clause_new_legal in H1, H2.
  pose proof (read_clause_line_display (clause_new l1) (ex_intro _ l1 eq_refl) H1) as X.
  rewrite E, (read_clause_line_display (clause_new l2) (ex_intro _ l2 eq_refl) H2) in X.
  injection X as X. apply map_dimacs_inj in X; auto.
  apply same_lits; auto.
Qed.

Lemma in_cube_new l ls : In l (cube_lits (cube_new ls)) <-> In l ls.
Proof.
  destruct (cube_observers ls) as [H _]. unfold cube_iter in H.
  split; apply Permutation_in; auto using Permutation_sym.
Qed.

Lemma cube_display_read order ls : order_ok order -> Forall lit_legal ls ->
  exists m n cs, read_dimacs (cube_display order (cube_new ls)) = Some (m, n, cs) /\
    NoDup cs /\ n = lenN cs /\
    (forall zs, In zs cs <-> exists l, In l ls /\ zs = [dimacs_int l]) /\
    (forall l, In l ls -> lit_var l <= m) /\
    (m = 0 \/ exists l, In l ls /\ m = lit_var l).
Proof.
  intros Ho Hl. apply cube_new_legal in Hl. set (f := cube_to_cnf (cube_new ls)).
  assert (Hf : api_cnf f) by apply api_cube_to_cnf.
  assert (Lf : cnf_legal f) by (apply cube_to_cnf_legal; auto).
  assert (Hi : forall c, In c (cnf_clauses f) <-> exists l, In l ls /\ c = mkClause [l]).
  { intros c. unfold f. rewrite in_cube_to_cnf. setoid_rewrite in_cube_new. tauto. }
  destruct (read_dimacs_display order f Ho Hf Lf) as (cs & E & P).
  exists (cnf_max f), (cnf_len f), cs. split; auto. split; [|split; [|split; [|split]]].
  - apply (Permutation_NoDup (Permutation_sym P)).
    assert (N : NoDup (cnf_clauses f)) by (apply api_cnf_nodup; auto).
    assert (G : forall l, (forall c, In c l -> In c (cnf_clauses f)) -> NoDup l ->
      NoDup (map (fun c => map dimacs_int (clause_lits c)) l)).
    { induction l as [|c l IH]; intros Hs Hn; [constructor|]. inversion Hn; subst. cbn [map].
      constructor; [|apply IH; auto with datatypes]. intros Hc.
      apply in_map_iff in Hc as (d & Ed & Hd).
      apply map_dimacs_inj in Ed; [|apply (cnf_legal_in f); auto with datatypes..].
      apply same_lits in Ed. subst. auto. }
    apply G; auto.
  - unfold cnf_len, lenN. apply Permutation_length in P. rewrite map_length in P. lia.
  - intros zs. split.
    + intros H. apply (Permutation_in _ P) in H. apply in_map_iff in H as (c & <- & Hc).
      apply Hi in Hc as (l & Hin & ->). exists l. auto.
    + intros (l & Hin & ->). apply (Permutation_in _ (Permutation_sym P)).
      apply in_map_iff. exists (mkClause [l]). split; auto. apply Hi. eauto.
  - intros l Hin. rewrite cnf_max_max_var by auto.
    apply (max_var_in (cnf_clauses f) (mkClause [l]) l); [apply Hi; eauto|left; auto].
  - rewrite cnf_max_max_var by auto.
    destruct (max_var_reached (cnf_clauses f)) as [X|(c & l & Hc & Hx & X)]; auto.
    right. apply Hi in Hc as (l' & Hin & ->). destruct Hx as [<-|[]]. eauto.
Qed.

Lemma cube_display_eq o1 o2 l1 l2 : order_ok o1 -> order_ok o2 ->
  Forall lit_legal l1 -> Forall lit_legal l2 ->
  (cube_display o1 (cube_new l1) = cube_display o2 (cube_new l2) <-> forall l, In l l1 <-> In l l2).
Proof.
  intros Ho1 Ho2 H1 H2. apply cube_new_legal in H1, H2. unfold cube_display.
  rewrite cnf_display_eq; auto using api_cube_to_cnf, cube_to_cnf_legal.
  rewrite cnf_eqb_spec by (apply api_cnf_nodup, api_cube_to_cnf).
  setoid_rewrite in_cube_to_cnf. setoid_rewrite in_cube_new. split.
  - intros H l. specialize (H (mkClause [l])). split; intros Hl.
    + destruct (proj1 H (ex_intro _ l (conj Hl eq_refl))) as (l' & Hl' & E). injection E as <-. auto.
    + destruct (proj2 H (ex_intro _ l (conj Hl eq_refl))) as (l' & Hl' & E). injection E as <-. auto.
  - intros H c. split; intros (l & Hl & ->); exists l; split; auto; apply H; auto.
Qed.
