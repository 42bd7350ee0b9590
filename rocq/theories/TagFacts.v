(** Facts about tagging (renaming to another time frame), state extraction and the other
    operations on transition systems. *)
From Coq Require Import Sorted.
From Verif Require Import Base Formulas FormulaLogic Aig Fsts Solvers Spec SpecAig SpecFsts Tac
  FormulasFacts LogicFacts AigFacts SimFacts FstsFacts FstsSem.
Open Scope N_scope.

(* ------------------------------------------------------------------------ bumping *)

Definition shift (n : N) (a : valuation) : valuation := fun v => a (v + n).
Definition bumpable (n : N) (v : N) : Prop := 1 <= v /\ v + n <= 2147483647.

Lemma lit_var_bump n l : lit_var (l + 2 * n) = lit_var l + n.
Proof. unfold lit_var. lia. Qed.
Lemma lit_neg_bump n l : lit_neg (l + 2 * n) = lit_neg l.
Proof. unfold lit_neg. rewrite !odd_mod. lia. Qed.
Lemma lit_true_bump a n l : lit_true a (l + 2 * n) <-> lit_true (shift n a) l.
Proof. unfold lit_true, shift. rewrite lit_var_bump, lit_neg_bump. tauto. Qed.
Lemma literal_not_bump n l : literal_not (l + 2 * n) = literal_not l + 2 * n.
Proof.
  apply lit_eq. rewrite lit_var_not, !lit_var_bump, lit_var_not, lit_neg_not, !lit_neg_bump, lit_neg_not.
  auto.
Qed.

Lemma bump_literal_ok b n l : bumpable n (lit_var l) -> bump_literal b n l = Ok (l + 2 * n).
Proof.
  intros (H1 & H2). unfold bump_literal. rewrite get_number_div. fold (lit_var l).
  destruct (lit_var l =? 0) eqn:E; [lia|]. cbn [negb assert_ bind].
  unfold u32_add. destruct (lit_var l + n <? u32_mod) eqn:E2; [|unfold u32_mod in *; lia]. cbn [bind].
  rewrite literal_new_ok by lia. cbn [bind]. rewrite negate_double, is_negated_odd, odd_mod.
  unfold lit_var. destruct (l mod 2 =? 1) eqn:E3; f_equal; lia.
Qed.

Lemma bump_literal_debug n l l' : bump_literal Debug n l = Ok l' -> bumpable n (lit_var l).
Proof.
  unfold bump_literal. rewrite get_number_div. fold (lit_var l). intros H.
  apply bind_ok in H. destruct H as ([] & E1 & H). apply assert_ok_u in E1.
  apply bind_ok in H. destruct H as (m & E2 & H).
  apply bind_ok in H. destruct H as (x & E3 & H).
  unfold u32_add in E2. destruct (lit_var l + n <? u32_mod); inv E2.
  apply literal_new_inv in E3. destruct E3 as (E3 & _). specialize (E3 eq_refl).
  unfold bumpable. split; [|lia]. destruct (lit_var l =? 0) eqn:E; [discriminate|lia].
Qed.

Definition bumped (n : N) (c : Clause) : Clause := mkClause (map (fun l => l + 2 * n) (clause_lits c)).

Lemma bump_sorted n ls : sortedN ls -> sortedN (map (fun l => l + 2 * n) ls).
Proof.
  intros H. induction H as [|x ls Hs IH Hf]; simpl; constructor; auto.
  apply Forall_map. eapply Forall_impl; [|exact Hf]. intros y Hy. cbv beta in *. lia.
Qed.

Lemma bumped_new n c : api_clause c -> clause_new (map (fun l => l + 2 * n) (clause_lits c)) = bumped n c.
Proof.
  intros H. apply api_clause_sorted in H. unfold clause_new, bumped. f_equal.
  apply sortN_idem. apply bump_sorted. auto.
Qed.

Lemma bump_clause_ok b n c : api_clause c -> clause_vars (bumpable n) c ->
  bump_clause b c n = Ok (bumped n c).
Proof.
  intros Ha Hv. unfold bump_clause, clause_iter.
  rewrite (mapM_total (bump_literal b n) (fun l => l + 2 * n)).
  - cbn [bind]. rewrite bumped_new; auto.
  - intros l Hl. apply bump_literal_ok. apply Hv; auto.
Qed.

Lemma bump_clause_debug n c c' : bump_clause Debug c n = Ok c' -> clause_vars (bumpable n) c.
Proof.
  intros H. unfold bump_clause in H. apply bind_ok in H. destruct H as (ls & H & _).
  apply mapM_ok in H. intros l Hl. unfold clause_iter in H.
  induction H as [|x y xs ys Hxy _ IH]; [destruct Hl|]. destruct Hl as [<-|Hl]; auto.
  eapply bump_literal_debug; eauto.
Qed.

Lemma bumped_true a n c : clause_true a (bumped n c) <-> clause_true (shift n a) c.
Proof.
  unfold clause_true, bumped. cbn [clause_lits]. split.
  - intros (l & Hl & Ht). apply in_map_iff in Hl. destruct Hl as (x & <- & Hx).
    exists x. split; auto. apply lit_true_bump; auto.
  - intros (l & Hl & Ht). exists (l + 2 * n). split; [apply in_map_iff; eauto|].
    apply lit_true_bump; auto.
Qed.

Lemma bumped_api n c : api_clause c -> api_clause (bumped n c).
Proof.
  intros H. apply api_clause_sorted. apply api_clause_sorted in H. apply bump_sorted; auto.
Qed.

Lemma bumped_legal n c : clause_vars (bumpable n) c -> clause_legal (bumped n c).
Proof.
  intros H. apply Forall_map. apply Forall_forall. intros l Hl.
  apply lit_legal_var. rewrite lit_var_bump. specialize (H l Hl). unfold bumpable in H. lia.
Qed.

Definition bumped_cnf (n : N) (f : CNF) : CNF :=
  fold_left (fun acc c => cnf_add_clause acc (bumped n c)) (cnf_clauses f) cnf_new.

Lemma in_fold_add (g : Clause -> Clause) cs : forall f d,
  In d (cnf_clauses (fold_left (fun acc c => cnf_add_clause acc (g c)) cs f)) <->
  In d (cnf_clauses f) \/ exists c, In c cs /\ d = g c.
Proof.
  induction cs as [|c cs IH]; simpl; intros f d.
  - split; auto. intros [H|(x & [] & _)]; auto.
  - rewrite IH, in_add_clause. split.
    + intros [[H|H]|(x & H & H')]; eauto.
    + intros [H|(x & [<-|H] & H')]; eauto.
Qed.

Lemma fold_add_api (g : Clause -> Clause) cs : forall f, api_cnf f ->
  (forall c, In c cs -> api_clause (g c)) ->
  api_cnf (fold_left (fun acc c => cnf_add_clause acc (g c)) cs f).
Proof. induction cs as [|c cs IH]; simpl; intros f Hf Hg; auto. apply IH; auto with api. Qed.

Lemma in_bumped_cnf n f d : In d (cnf_clauses (bumped_cnf n f)) <->
  exists c, In c (cnf_clauses f) /\ d = bumped n c.
Proof. unfold bumped_cnf. rewrite (in_fold_add (bumped n)). simpl. tauto. Qed.

Lemma bumped_cnf_api n f : api_cnf f -> api_cnf (bumped_cnf n f).
Proof.
  intros H. apply fold_add_api; auto with api. intros c Hc. apply bumped_api.
  apply api_cnf_clauses in H. rewrite Forall_forall in H; auto.
Qed.

Lemma bumped_cnf_legal n f : cnf_vars (bumpable n) f -> cnf_legal (bumped_cnf n f).
Proof.
  intros H. apply Forall_forall. intros d Hd. apply in_bumped_cnf in Hd.
  destruct Hd as (c & Hc & ->). apply bumped_legal. apply H; auto.
Qed.

Lemma bumped_cnf_true a n f : cnf_true a (bumped_cnf n f) <-> cnf_true (shift n a) f.
Proof.
  unfold cnf_true, clauses_true. split.
  - intros H c Hc. apply bumped_true. apply H. apply in_bumped_cnf. eauto.
  - intros H d Hd. apply in_bumped_cnf in Hd. destruct Hd as (c & Hc & ->).
    apply bumped_true. auto.
Qed.

Lemma bumped_cnf_vars (P : N -> Prop) n f : cnf_vars (fun v => P (v + n)) f -> cnf_vars P (bumped_cnf n f).
Proof.
  intros H d Hd l Hl. apply in_bumped_cnf in Hd. destruct Hd as (c & Hc & ->).
  unfold bumped in Hl. cbn [clause_lits] in Hl. apply in_map_iff in Hl. destruct Hl as (x & <- & Hx).
  rewrite lit_var_bump. apply (H c Hc x Hx).
Qed.

(** The result of bumping a CNF by [n] (0 leaves it alone). *)
Definition tagged_cnf (n : N) (f : CNF) : CNF := if n =? 0 then f else bumped_cnf n f.

Lemma shift_0 a v : shift 0 a v = a v.
Proof. unfold shift. f_equal. lia. Qed.

Lemma bumped_0 c : bumped 0 c = c.
Proof.
  unfold bumped. destruct c as (ls). cbn [clause_lits]. f_equal.
  rewrite (map_ext _ (fun l => l)); [apply map_id|]. intros; lia.
Qed.

Lemma in_tagged_cnf n f d : In d (cnf_clauses (tagged_cnf n f)) <->
  exists c, In c (cnf_clauses f) /\ d = bumped n c.
Proof.
  unfold tagged_cnf. destruct (n =? 0) eqn:E; [|apply in_bumped_cnf].
  apply N.eqb_eq in E. subst n. split.
  - intros H. exists d. rewrite bumped_0. auto.
  - intros (c & H & ->). rewrite bumped_0. auto.
Qed.

Lemma tagged_cnf_true a n f : cnf_true a (tagged_cnf n f) <-> cnf_true (shift n a) f.
Proof.
  unfold tagged_cnf. destruct (n =? 0) eqn:E; [|apply bumped_cnf_true].
  apply N.eqb_eq in E. subst n. apply (cnf_true_ext (fun _ => True)).
  - intros ? ? ? ?; exact I.
  - intros. symmetry. apply shift_0.
Qed.

Lemma tagged_cnf_api n f : api_cnf f -> api_cnf (tagged_cnf n f).
Proof. unfold tagged_cnf. destruct (n =? 0); auto using bumped_cnf_api. Qed.

Lemma cnf_vars_legal f : cnf_vars (bumpable 0) f -> cnf_legal f.
Proof.
  intros H. apply Forall_forall. intros c Hc. apply Forall_forall. intros l Hl.
  apply lit_legal_var. specialize (H c Hc l Hl). unfold bumpable in H. lia.
Qed.

Lemma tagged_cnf_legal n f : cnf_vars (bumpable n) f -> cnf_legal (tagged_cnf n f).
Proof.
  unfold tagged_cnf. destruct (n =? 0) eqn:E; auto using bumped_cnf_legal.
  apply N.eqb_eq in E. subst. apply cnf_vars_legal.
Qed.

Lemma tagged_cnf_vars (P : N -> Prop) n f : cnf_vars (fun v => P (v + n)) f -> cnf_vars P (tagged_cnf n f).
Proof.
  unfold tagged_cnf. destruct (n =? 0) eqn:E; auto using bumped_cnf_vars.
  apply N.eqb_eq in E. subst. intros H d Hd l Hl. specialize (H d Hd l Hl). cbv beta in H.
  rewrite N.add_0_r in H. auto.
Qed.

Lemma bump_cnf_ok b n f : api_cnf f -> (n = 0 \/ cnf_vars (bumpable n) f) ->
  bump_cnf b f n = Ok (tagged_cnf n f).
Proof.
  intros Ha Hv. unfold bump_cnf, tagged_cnf. destruct (n =? 0) eqn:E; auto.
  destruct Hv as [Hv|Hv]; [lia|].
  unfold bumped_cnf. apply api_cnf_clauses in Ha. unfold cnf_vars in Hv.
  generalize cnf_new. revert Ha Hv. generalize (cnf_clauses f).
  induction l as [|c cs IH]; simpl; intros Ha Hv g; auto. inv Ha.
  rewrite bump_clause_ok by auto. cbn [bind]. apply IH; auto.
Qed.

Lemma bump_cnf_debug n f f' : bump_cnf Debug f n = Ok f' -> n = 0 \/ cnf_vars (bumpable n) f.
Proof.
  unfold bump_cnf. destruct (n =? 0) eqn:E; [lia|]. intros H. right. intros c Hc.
  destruct (foldM_ok_in _ _ _ _ c H Hc) as (st & st' & E').
  apply bind_ok in E'. destruct E' as (c' & E' & _). eapply bump_clause_debug; eauto.
Qed.

(* ------------------------------------------------------------------------ tagging *)

Lemma u32_mul_ok b x y : x * y < 4294967296 -> u32_mul b x y = Ok (x * y).
Proof. intros H. unfold u32_mul, u32_mod. destruct (x * y <? 4294967296) eqn:E; auto. lia. Qed.

Lemma u32_mul_debug x y z : u32_mul Debug x y = Ok z -> z = x * y /\ x * y < 4294967296.
Proof.
  unfold u32_mul, u32_mod. destruct (x * y <? 4294967296) eqn:E; intros H; inv H. split; auto. lia.
Qed.

Lemma add_tags_relation_ok b s f k : api_cnf f -> max_literal_number s * k < 4294967296 ->
  (max_literal_number s * k = 0 \/ cnf_vars (bumpable (max_literal_number s * k)) f) ->
  add_tags_to_relation b s f k = Ok (tagged_cnf (max_literal_number s * k) f).
Proof.
  intros Ha Hk Hv. unfold add_tags_to_relation. rewrite u32_mul_ok by auto. cbn [bind].
  apply bump_cnf_ok; auto.
Qed.

Lemma add_tags_relation_debug s f k f' : api_cnf f -> add_tags_to_relation Debug s f k = Ok f' ->
  (max_literal_number s * k = 0 \/ cnf_vars (bumpable (max_literal_number s * k)) f) /\
  f' = tagged_cnf (max_literal_number s * k) f.
Proof.
  intros Ha H. unfold add_tags_to_relation in H. apply bind_ok in H. destruct H as (n & E & H).
  apply u32_mul_debug in E. destruct E as (-> & E).
  pose proof (bump_cnf_debug _ _ _ H) as Hv. split; auto.
  rewrite bump_cnf_ok in H by auto. inv H. auto.
Qed.

Lemma add_tags_clause_ok b s c k : api_clause c -> max_literal_number s * k < 4294967296 ->
  (k = 0 \/ clause_vars (bumpable (max_literal_number s * k)) c) ->
  add_tags_to_clause b s c k = Ok (bumped (max_literal_number s * k) c).
Proof.
  intros Ha Hk Hv. unfold add_tags_to_clause. destruct (k =? 0) eqn:E.
  - apply N.eqb_eq in E. subst. rewrite N.mul_0_r, bumped_0. reflexivity.
  - rewrite u32_mul_ok by auto. cbn [bind]. apply bump_clause_ok; auto.
    destruct Hv; auto. lia.
Qed.

Lemma add_tags_clause_debug s c k c' : api_clause c -> add_tags_to_clause Debug s c k = Ok c' ->
  (k = 0 \/ clause_vars (bumpable (max_literal_number s * k)) c) /\
  c' = bumped (max_literal_number s * k) c.
Proof.
  intros Ha H. unfold add_tags_to_clause in H. destruct (k =? 0) eqn:E.
  - apply N.eqb_eq in E. subst. inv H. rewrite N.mul_0_r, bumped_0. auto.
  - apply bind_ok in H. destruct H as (n & E2 & H).
    apply u32_mul_debug in E2. destruct E2 as (-> & E2).
    pose proof (bump_clause_debug _ _ _ H) as Hv. split; auto.
    rewrite bump_clause_ok in H by auto. inv H. auto.
Qed.

Definition bumped_cube (n : N) (q : Cube) : Cube := mkCube (map (fun l => l + 2 * n) (cube_lits q)).

Lemma bumped_cube_0 q : bumped_cube 0 q = q.
Proof.
  unfold bumped_cube. destruct q as (ls). cbn [cube_lits]. f_equal.
  rewrite (map_ext _ (fun l => l)); [apply map_id|]. intros; lia.
Qed.

Lemma bumped_cube_api n q : api_cube q -> api_cube (bumped_cube n q).
Proof.
  intros H. apply api_cube_sorted. apply api_cube_sorted in H. apply bump_sorted; auto.
Qed.

Lemma bumped_cube_true a n q : cube_true a (bumped_cube n q) <-> cube_true (shift n a) q.
Proof.
  unfold cube_true, bumped_cube. cbn [cube_lits]. split.
  - intros H l Hl. apply lit_true_bump. apply H. apply in_map_iff. eauto.
  - intros H l Hl. apply in_map_iff in Hl. destruct Hl as (x & <- & Hx). apply lit_true_bump; auto.
Qed.

Lemma bumped_cube_legal n q : cube_vars (bumpable n) q -> cube_legal (bumped_cube n q).
Proof.
  intros H. apply Forall_map. apply Forall_forall. intros l Hl.
  apply lit_legal_var. rewrite lit_var_bump. specialize (H l Hl). unfold bumpable in H. lia.
Qed.

Lemma clause_not_bumped n c : api_clause c -> clause_not (bumped n c) = bumped_cube n (clause_not c).
Proof.
  intros Ha. unfold clause_not, clause_iter, bumped, bumped_cube, cube_new. cbn [clause_lits cube_lits].
  f_equal. rewrite map_map.
  rewrite (map_ext _ (fun l => literal_not l + 2 * n)) by (intros; apply literal_not_bump).
  rewrite <- (map_map literal_not (fun l => l + 2 * n)).
  rewrite <- (sortN_idem (map (fun l => l + 2 * n) (sort N.leb (map literal_not (clause_lits c))))).
  - apply sortN_eq_iff. apply Permutation_map. symmetry. apply sort_perm.
  - apply bump_sorted. apply sortN_sorted.
Qed.

Lemma cube_not_bumped n q : api_cube q -> cube_not (bumped_cube n q) = bumped n (cube_not q).
Proof.
  intros Ha. rewrite <- (cube_not_not q Ha) at 1. rewrite <- clause_not_bumped by auto with api.
  apply clause_not_not. apply bumped_api. auto with api.
Qed.

Lemma cube_not_vars P q : cube_vars P q -> clause_vars P (cube_not q).
Proof.
  intros H l Hl. rewrite in_cube_not in Hl. apply H in Hl. rewrite lit_var_not in Hl. auto.
Qed.
Lemma clause_not_vars P c : clause_vars P c -> cube_vars P (clause_not c).
Proof.
  intros H l Hl. rewrite in_clause_not in Hl. apply H in Hl. rewrite lit_var_not in Hl. auto.
Qed.

Lemma add_tags_cube_ok b s q k : api_cube q -> max_literal_number s * k < 4294967296 ->
  (k = 0 \/ cube_vars (bumpable (max_literal_number s * k)) q) ->
  add_tags_to_cube b s q k = Ok (bumped_cube (max_literal_number s * k) q).
Proof.
  intros Ha Hk Hv. unfold add_tags_to_cube. destruct (k =? 0) eqn:E.
  - apply N.eqb_eq in E. subst. rewrite N.mul_0_r, bumped_cube_0. reflexivity.
  - rewrite u32_mul_ok by auto. cbn [bind].
    rewrite bump_clause_ok; auto with api.
    + cbn [bind]. rewrite clause_not_bumped by auto with api. rewrite cube_not_not; auto.
    + apply cube_not_vars. destruct Hv; auto. lia.
Qed.

Lemma add_tags_cube_debug s q k q' : api_cube q -> add_tags_to_cube Debug s q k = Ok q' ->
  (k = 0 \/ cube_vars (bumpable (max_literal_number s * k)) q) /\
  q' = bumped_cube (max_literal_number s * k) q.
Proof.
  intros Ha H. unfold add_tags_to_cube in H. destruct (k =? 0) eqn:E.
  - apply N.eqb_eq in E. subst. inv H. rewrite N.mul_0_r, bumped_cube_0. auto.
  - apply bind_ok in H. destruct H as (n & E2 & H).
    apply u32_mul_debug in E2. destruct E2 as (-> & E2).
    apply bind_ok in H. destruct H as (c' & E3 & H).
    pose proof (bump_clause_debug _ _ _ E3) as Hv.
    rewrite bump_clause_ok in E3 by auto with api. inv E3. inv H. split.
    + right. rewrite <- (cube_not_not q Ha). apply clause_not_vars; auto.
    + rewrite clause_not_bumped by auto with api. rewrite cube_not_not; auto.
Qed.

Lemma in_bumped_cube_to_cnf n q d : In d (cnf_clauses (tagged_cnf n (cube_to_cnf q))) <->
  In d (cnf_clauses (cube_to_cnf (bumped_cube n q))).
Proof.
  rewrite in_tagged_cnf, in_cube_to_cnf. unfold bumped_cube. cbn [cube_lits]. split.
  - intros (c & Hc & ->). apply in_cube_to_cnf in Hc. destruct Hc as (l & Hl & ->).
    exists (l + 2 * n). split; [apply in_map_iff; eauto|]. reflexivity.
  - intros (l & Hl & ->). apply in_map_iff in Hl. destruct Hl as (x & <- & Hx).
    exists (mkClause [x]). split; [|reflexivity]. apply in_cube_to_cnf. eauto.
Qed.

Lemma cube_to_cnf_bumpable n q : cube_vars (bumpable n) q -> cnf_vars (bumpable n) (cube_to_cnf q).
Proof.
  intros H d Hd l Hl. apply in_cube_to_cnf in Hd. destruct Hd as (x & Hx & ->).
  destruct Hl as [<-|[]]. auto.
Qed.

Lemma cube_to_cnf_vars P q : cube_vars P q -> cnf_vars P (cube_to_cnf q).
Proof.
  intros H d Hd l Hl. apply in_cube_to_cnf in Hd. destruct Hd as (x & Hx & ->).
  destruct Hl as [<-|[]]. auto.
Qed.
Lemma clause_to_cnf_vars P q : clause_vars P q -> cnf_vars P (clause_to_cnf q).
Proof.
  intros H d Hd l Hl. apply in_add_clause in Hd. destruct Hd as [[]| ->]. auto.
Qed.
Lemma cnf_append_vars P f g : cnf_vars P f -> cnf_vars P g -> cnf_vars P (cnf_append f g).
Proof. intros H1 H2 d Hd. apply in_append in Hd. destruct Hd; auto. Qed.
Lemma cnf_add_vars P f d : cnf_vars P f -> clause_vars P d -> cnf_vars P (cnf_add_clause f d).
Proof. intros H1 H2 x Hx. apply in_add_clause in Hx. destruct Hx; subst; auto. Qed.
Lemma cnf_new_vars P : cnf_vars P cnf_new.
Proof. intros d []. Qed.
Lemma cnf_vars_impl (P Q : N -> Prop) f : (forall v, P v -> Q v) -> cnf_vars P f -> cnf_vars Q f.
Proof. intros H Hf d Hd l Hl. apply H. eapply Hf; eauto. Qed.
Lemma clause_vars_impl (P Q : N -> Prop) f : (forall v, P v -> Q v) -> clause_vars P f -> clause_vars Q f.
Proof. intros H Hf l Hl. apply H. eapply Hf; eauto. Qed.
Lemma cube_vars_impl (P Q : N -> Prop) f : (forall v, P v -> Q v) -> cube_vars P f -> cube_vars Q f.
Proof. intros H Hf l Hl. apply H. eapply Hf; eauto. Qed.

(* --------------------------------------------------------------------- extraction *)

Lemma extract_ok b s asg : (forall v, In v (state_literals s) -> 1 <= v <= 2147483647) ->
  (forall v, In v (state_literals s) -> get_value asg v <> None) ->
  extract_state_from_assignment b s asg =
  Ok (cube_new (map (fun v => if complete asg v then 2 * v else 2 * v + 1) (state_literals s))).
Proof.
  intros Hr Hd. unfold extract_state_from_assignment.
  rewrite (mapM_total (extract_literal b asg) (fun v => if complete asg v then 2 * v else 2 * v + 1)); auto.
  intros v Hv. unfold extract_literal. rewrite literal_new_ok by (apply Hr; auto). cbn [bind].
  unfold complete. specialize (Hd v Hv). destruct (get_value asg v) as [x|] eqn:E; [|congruence].
  cbn [unwrap bind]. rewrite negate_double.
  pose proof (complete_agrees asg v x E) as Hc. unfold complete in Hc. rewrite E in *.
  destruct x; reflexivity.
Qed.

Lemma extract_panics b s asg v : (forall v, In v (state_literals s) -> 1 <= v <= 2147483647) ->
  In v (state_literals s) -> get_value asg v = None ->
  extract_state_from_assignment b s asg = Panic.
Proof.
  intros Hr Hv Hn. unfold extract_state_from_assignment.
  enough (E : mapM (extract_literal b asg) (state_literals s) = Panic) by (rewrite E; auto).
  assert (K : forall u, 1 <= u <= 2147483647 ->
     extract_literal b asg u = Panic \/ exists l, extract_literal b asg u = Ok l).
  { intros u Hu. unfold extract_literal. rewrite literal_new_ok by auto. cbn [bind].
    destruct (get_value asg u); cbn; eauto. }
  revert Hr Hv. generalize (state_literals s).
  induction l as [|x l IH]; intros Hr; [intros []|]. intros Hv. simpl.
  destruct (N.eq_dec x v) as [->|Hne].
  - unfold extract_literal at 1. rewrite literal_new_ok by (apply Hr; simpl; auto). cbn [bind].
    rewrite Hn. reflexivity.
  - destruct (K x) as [E|(y & E)]; [apply Hr; simpl; auto| |]; rewrite E; auto. cbn [bind].
    rewrite IH; auto. { intros; apply Hr; simpl; auto. } destruct Hv; [congruence|auto].
Qed.
