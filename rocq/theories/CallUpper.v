(** How many questions IC3 asks at most. *)
From Coq Require Import Permutation.
From Verif Require Import Base Formulas FormulaLogic Aig Fsts Solvers Ic3 Spec SpecAig SpecFsts Tac
  FormulasFacts LogicFacts AigFacts SimFacts AigThms ParseFacts FstsFacts FstsSem TagFacts FstsThms BmcThms StateFacts
  Ic3Core CallBound FuelFacts.
Open Scope nat_scope.

(** A counter of questions: every query raises it by at most one, except for the one that may ask two. *)
Record costs (O : Ic3Ops) (calls : ox O -> nat) : Prop := {
  u_push : forall x x', o_push_frame O x = Ok x' ->
    calls x' = calls x /\ o_clauses O x' = o_clauses O x ++ [cnf_new];
  u_add : forall x j d x', o_add_clause O x j d = Ok x' -> calls x' = calls x /\
    exists f, indexn (o_clauses O x) j = Ok f /\ o_clauses O x' = set_nth (o_clauses O x) j (cnf_add_clause f d);
  u_bad_0 : forall x r x', o_bad_in_0 O x = Ok (r, x') -> calls x' <= calls x + 1 /\ o_clauses O x' = o_clauses O x;
  u_bad_1 : forall x r x', o_bad_in_1 O x = Ok (r, x') -> calls x' <= calls x + 1 /\ o_clauses O x' = o_clauses O x;
  u_bad_from : forall x i r x', o_bad_from_fi O x i = Ok (r, x') ->
    calls x' <= calls x + 1 /\ o_clauses O x' = o_clauses O x;
  u_reach : forall x i q r x', o_reach_from_fi O x i q = Ok (r, x') ->
    calls x' <= calls x + 1 /\ o_clauses O x' = o_clauses O x;
  u_propagate : forall x i d r x', o_propagate_query O x i d = Ok (r, x') ->
    calls x' <= calls x + 1 /\ o_clauses O x' = o_clauses O x;
  u_not_s : forall x i q r x', o_not_s_and_s_tag O x i q = Ok (r, x') ->
    calls x' <= calls x + 1 /\ o_clauses O x' = o_clauses O x;
  u_inductive : forall x d i r x', o_clause_inductive O x d i = Ok (r, x') ->
    calls x' <= calls x + 2 /\ o_clauses O x' = o_clauses O x }.

(* ------------------------------------------------------------------ clauses over a list of variables *)

(** Every variable at most once. *)
Definition once (V : list N) (ls : list Literal) : Prop := NoDup (map lit_var ls) /\ incl (map lit_var ls) V.

Fixpoint choices (V : list N) : list (list Literal) :=
  match V with
  | [] => [[]]
  | v :: V => flat_map (fun p => [p; (2 * v)%N :: p; (2 * v + 1)%N :: p]) (choices V)
  end.

Lemma choices_length V : length (choices V) = 3 ^ length V.
Proof.
  induction V as [|v V IH]; auto. cbn [choices length]. rewrite Nat.pow_succ_r', <- IH.
  generalize (choices V) as P. induction P as [|p P IHP]; auto. cbn [flat_map app length]. rewrite IHP. lia.
Qed.

Lemma choices_once V : forall ls, once V ls -> exists p, In p (choices V) /\ Permutation ls p.
Proof.
  induction V as [|v V IH]; intros ls (Hn & Hi).
  - destruct ls as [|l ls]; [|destruct (Hi (lit_var l)); left; reflexivity]. exists []. split; [left|]; auto.
  - cbn [choices]. destruct (in_dec N.eq_dec v (map lit_var ls)) as [Hv|Hv].
    + apply in_map_iff in Hv. destruct Hv as (l & El & Hl). apply in_split in Hl. destruct Hl as (a & d & ->).
      assert (P : Permutation (a ++ l :: d) (l :: a ++ d)) by (symmetry; apply Permutation_middle).
      assert (Hn' : NoDup (map lit_var (l :: a ++ d))) by (eapply Permutation_NoDup; [apply Permutation_map, P|exact Hn]).
      cbn [map] in Hn'. inversion Hn' as [|y r Hnin Hn'']; subst y r.
      destruct (IH (a ++ d)) as (p & Hp & Pp).
      { split; auto. intros x Hx. destruct (Hi x) as [->|Hx']; auto.
        - eapply Permutation_in; [apply Permutation_map, Permutation_sym, P|]. right; auto.
        - exfalso. apply Hnin. rewrite El. auto. }
      exists (l :: p). split.
      * apply in_flat_map. exists p. split; auto. unfold lit_var in El.
        pose proof (N.div_mod l 2 ltac:(discriminate)) as D. rewrite El in D.
        pose proof (N.mod_lt l 2 ltac:(discriminate)) as M. cbn [In].
        destruct (N.eq_dec (l mod 2) 0) as [Z|Z]; [right; left|right; right; left]; f_equal; lia.
      * rewrite P. apply perm_skip. auto.
    + destruct (IH ls) as (p & Hp & Pp).
      { split; auto. intros x Hx. destruct (Hi x Hx) as [<-|]; auto. contradiction. }
      exists p. split; auto. apply in_flat_map. exists p. split; auto. left; auto.
Qed.

Definition all_clauses (V : list N) : list Clause := map clause_new (choices V).

Lemma all_clauses_in V ls : once V ls -> In (clause_new ls) (all_clauses V).
Proof.
  intros H. destruct (choices_once V ls H) as (p & Hp & P). rewrite (clause_new_perm ls p P). apply in_map. auto.
Qed.

Lemma once_perm V l l' : Permutation l l' -> once V l -> once V l'.
Proof.
  intros P (Hn & Hi). split.
  - eapply Permutation_NoDup; [apply Permutation_map, P|exact Hn].
  - intros x Hx. apply Hi. eapply Permutation_in; [apply Permutation_map, Permutation_sym, P|exact Hx].
Qed.

Lemma once_tail V x l : once V (x :: l) -> once V l.
Proof. intros (Hn & Hi). cbn [map] in *. inversion Hn; subst. split; auto. intros y Hy. apply Hi. right; auto. Qed.

(* ------------------------------------------------------------------ the frames *)

Definition within (W : list Clause) (cls : list CNF) : Prop :=
  forall f, In f cls -> NoDup (cnf_clauses f) /\ incl (cnf_clauses f) W.

Lemma in_set_nth {A} (l : list A) : forall j x y, In y (set_nth l j x) -> In y l \/ y = x.
Proof.
  induction l as [|z l IH]; intros j x y; [destruct j; auto|].
  destruct j as [|j]; cbn [set_nth In]; [intros [<-|H]; auto|]. intros [<-|H]; auto. apply IH in H. tauto.
Qed.

Lemma indexn_in {A} (l : list A) j x : indexn l j = Ok x -> In x l.
Proof.
  unfold indexn. destruct (nth_error l j) eqn:E; cbn [unwrap]; try discriminate. intros X. injection X as <-.
  eapply nth_error_In; eauto.
Qed.

Lemma within_push W cls : within W cls -> within W (cls ++ [cnf_new]).
Proof.
  intros H f Hf. apply in_app_iff in Hf. destruct Hf as [Hf|[<-|[]]]; auto. split; [constructor|intros x []].
Qed.

Lemma within_add W cls j f d : within W cls -> In d W -> indexn cls j = Ok f ->
  within W (set_nth cls j (cnf_add_clause f d)).
Proof.
  intros H Hd Hf g Hg. apply in_set_nth in Hg. destruct Hg as [Hg| ->]; auto.
  apply indexn_in in Hf. destruct (H f Hf) as (H1 & H2). cbn [cnf_add_clause cnf_clauses]. split.
  - apply (set_insert_nodup clause_eqb clause_eqb_eq); auto.
  - intros x Hx. rewrite (in_set_insert clause_eqb clause_eqb_eq) in Hx. destruct Hx as [Hx| ->]; auto.
Qed.

Section Upper.
Variables (b : build) (R : Random) (O : Ic3Ops) (s : FSTS) (calls : ox O -> nat) (V : list N).
Hypothesis HR : random_ok R.
Hypothesis HU : costs O calls.
Notation cl := (fun st : Ic3State O => o_clauses O (st_ops st)).
Notation cs := (fun st : Ic3State O => calls (st_ops st)).
Notation W := (all_clauses V).

(** Between the two states at most [n] questions were asked, and only clauses over [V] were added. *)
Definition spent (n : nat) (st st' : Ic3State O) : Prop :=
  cs st' <= cs st + n /\ (within W (cl st) -> within W (cl st')).

Lemma spent_trans n m st st1 st2 : spent n st st1 -> spent m st1 st2 -> spent (n + m) st st2.
Proof. intros (H1 & H2) (H3 & H4). split; [lia|auto]. Qed.

Lemma spent_le n m st st' : n <= m -> spent n st st' -> spent m st st'.
Proof. intros H (H1 & H2). split; [lia|auto]. Qed.

Lemma spent_draw st d : spent 0 st (mkIc3State (st_ops st) d).
Proof. split; cbn [st_ops]; [lia|auto]. Qed.

Lemma op_spent {A} n (f : ox O -> res (A * ox O)) st r st' : op O f st = Ok (r, st') ->
  (forall r x', f (st_ops st) = Ok (r, x') -> calls x' <= calls (st_ops st) + n /\
     o_clauses O x' = o_clauses O (st_ops st)) -> spent n st st'.
Proof.
  unfold op. destruct (f (st_ops st)) as [(a & x)| |] eqn:E; cbn [bind]; try discriminate.
  intros X H. injection X as _ <-. destruct (H _ _ eq_refl) as (H1 & H2). split; cbn [st_ops]; auto.
  rewrite H2. auto.
Qed.

Definition cube_fine (q : Cube) : Prop := once V (cube_lits q) /\ length (cube_lits q) = length V.

Lemma subclause_spent i : forall fuel lits j st r st', once V lits ->
  subclause_loop O fuel i lits j st = Ok (r, st') -> spent (2 * (length lits - j)) st st' /\ once V r.
Proof.
  induction fuel as [|fuel IH]; intros lits j st r st' Ho; cbn [subclause_loop];
    destruct (j <? length lits) eqn:E; try discriminate.
  1,3: intros X; injection X as <- <-; split; auto; split; [lia|auto].
  apply Nat.ltb_lt in E. destruct (swap_remove_ok lits j E) as (x & l & Ex & P). rewrite Ex. cbn [bind].
  destruct (op O _ st) as [(ind & st1)| |] eqn:E1; cbn [bind]; try discriminate.
  assert (H1 : spent 2 st st1) by (eapply op_spent; [exact E1|intros ? ? Hop; eapply (u_inductive _ _ HU); exact Hop]).
  pose proof (Permutation_length P) as HL. cbn [length] in HL. destruct ind.
  - intros X. apply IH in X; [|apply (once_tail V x), (once_perm V lits); auto].
    destruct X as (X1 & X2). split; auto. eapply spent_le; [|eapply spent_trans; [exact H1|exact X1]]. lia.
  - assert (HL' : length (l ++ [x]) = length lits) by (rewrite app_length; cbn [length]; lia).
    destruct (swap_last_ok (l ++ [x]) j) as (l' & El & P'); [lia|]. rewrite El. cbn [bind].
    pose proof (Permutation_length P') as HL''.
    intros X. apply IH in X.
    + destruct X as (X1 & X2). split; auto. eapply spent_le; [|eapply spent_trans; [exact H1|exact X1]]. lia.
    + apply (once_perm V lits); auto. rewrite P, <- P'. apply Permutation_cons_append.
Qed.

Lemma not_once q : cube_fine q -> once V (clause_lits (cube_not q)) /\ length (clause_lits (cube_not q)) = length V.
Proof.
  intros (H & HL). unfold cube_not, clause_new, cube_iter. cbn [clause_lits].
  pose proof (sort_perm N.leb (map literal_not (cube_lits q))) as P. split.
  - eapply once_perm; [symmetry; exact P|]. destruct H as (H1 & H2).
    assert (E : map lit_var (map literal_not (cube_lits q)) = map lit_var (cube_lits q)).
    { rewrite map_map. apply map_ext. intros l. apply lit_var_not. }
    split; rewrite E; auto.
  - etransitivity; [apply (Permutation_length P)|]. rewrite map_length. auto.
Qed.

Lemma add_spent d : In d W -> forall js st st',
  foldM (fun st j => op_ O (fun x => o_add_clause O x j d) st) js st = Ok st' -> spent 0 st st'.
Proof.
  intros Hd. induction js as [|j js IH]; intros st st'; cbn [foldM].
  - intros X. injection X as <-. split; [lia|auto].
  - unfold op_ at 1. destruct (o_add_clause O (st_ops st) j d) as [x| |] eqn:E; cbn [bind]; try discriminate.
    intros X. apply IH in X. apply (u_add _ _ HU) in E. destruct E as (E1 & f & E2 & E3).
    apply (spent_trans 0 0 st (mkIc3State x (st_draws st)) st'); auto. split; cbn [st_ops]; [lia|].
    intros H. rewrite E3. apply within_add; auto.
Qed.

Lemma generate_spent q i st st' : cube_fine q -> generate_clause R O q i st = Ok st' ->
  spent (2 * length V) st st'.
Proof.
  intros Hq. unfold generate_clause, get_subclause, draw, clause_iter. 
  destruct (not_once q Hq) as (Ho & HL).
  assert (P : Permutation (R (st_draws st) Literal (clause_lits (cube_not q))) (clause_lits (cube_not q))) by apply HR.
  destruct (subclause_loop O _ i _ 0 _) as [(r & st1)| |] eqn:E; cbn [bind]; try discriminate.
  apply subclause_spent in E; [|eapply once_perm; [symmetry; exact P|auto]].
  destruct E as (E & Hr). rewrite (Permutation_length P), HL in E.
  intros X. apply add_spent in X; [|apply all_clauses_in; auto].
  eapply spent_le; [|eapply spent_trans; [apply spent_draw|eapply spent_trans; [exact E|exact X]]]. lia.
Qed.

Lemma generalize_loop_spent q k : cube_fine q -> forall frames st r st',
  generalize_loop R O q k frames st = Ok (r, st') -> spent (length frames + 2 * length V) st st'.
Proof.
  intros Hq. induction frames as [|i frames IH]; intros st r st'; cbn [generalize_loop].
  - destruct (generate_clause R O q k st) as [st1| |] eqn:E; cbn [bind]; try discriminate.
    intros X. injection X as _ <-. apply (generate_spent q k); auto.
  - destruct (op O _ st) as [(sat & st1)| |] eqn:E1; cbn [bind]; try discriminate.
    assert (H1 : spent 1 st st1) by (eapply op_spent; [exact E1|intros ? ? Hop; eapply (u_not_s _ _ HU); exact Hop]).
    destruct sat.
    + destruct (generate_clause R O q (i - 1) st1) as [st2| |] eqn:E; cbn [bind]; try discriminate.
      intros X. injection X as _ <-. apply (generate_spent q (i - 1)) in E; auto.
      eapply spent_le; [|eapply spent_trans; [exact H1|exact E]]. cbn [length]. lia.
    + intros X. apply IH in X. eapply spent_le; [|eapply spent_trans; [exact H1|exact X]]. cbn [length]. lia.
Qed.

Lemma generalize_spent q mn k st r st' : cube_fine q -> inductively_generalize R O q mn k st = Ok (r, st') ->
  spent (k + 1 + 2 * length V) st st'.
Proof.
  intros Hq. unfold inductively_generalize.
  match goal with |- context [bind ?m _] => destruct m as [(fail & st1)| |] eqn:E; cbn [bind]; try discriminate end.
  assert (H1 : spent 1 st st1).
  { destruct (mn <? 0)%Z.
    - eapply op_spent; [exact E|intros ? ? Hop; eapply (u_not_s _ _ HU); exact Hop].
    - injection E as _ <-. split; [lia|auto]. }
  destruct fail.
  - intros X. injection X as _ <-. eapply spent_le; [|exact H1]. lia.
  - cbv zeta. intros X. apply generalize_loop_spent in X; auto. rewrite seq_length in X.
    eapply spent_le; [|eapply spent_trans; [exact H1|exact X]]. lia.
Qed.

Lemma queue_push_in (q : Queue Cube) x n e : In e (queue_push cube_eqb q x n) -> fst e = x \/ In (fst e) (map fst q).
Proof.
  unfold queue_push. destruct (existsb _ q).
  - intros H. apply in_map_iff in H. destruct H as (a & <- & Ha). right.
    destruct (cube_eqb x (fst a)); cbn [fst]; apply in_map; auto.
  - intros H. apply in_app_iff in H. destruct H as [H|[<-|[]]]; [right; apply in_map; auto|left; reflexivity].
Qed.

Definition queue_fine (q : Queue Cube) : Prop := forall e, In e q -> cube_fine (fst e).

Lemma queue_fine_push q x n : queue_fine q -> cube_fine x -> queue_fine (queue_push cube_eqb q x n).
Proof.
  intros H Hx e He. apply queue_push_in in He. destruct He as [->|He]; auto.
  apply in_map_iff in He. destruct He as (a & <- & Ha). auto.
Qed.

Hypothesis HE : forall asg q, extract_state_from_assignment b s asg = Ok q -> cube_fine q.

Lemma push_spent k : forall fuel q st r st', queue_fine q ->
  push_generalization b R O s fuel q k st = Ok (r, st') -> spent (fuel * (k + 2 + 2 * length V)) st st'.
Proof.
  induction fuel as [|fuel IH]; intros q st r st' Hq; cbn [push_generalization]; [discriminate|].
  destruct (list_eq_nil q) as [->|Hne].
  { unfold queue_pop. assert (P : Permutation (R (st_draws st) (Cube * nat)%type []) []) by apply HR.
    apply Permutation_sym, Permutation_nil in P. rewrite P. discriminate. }
  destruct (queue_pop_spec (R (st_draws st)) q) as ((cube & n) & q' & Ep & P & _);
    [intros B l; apply HR|exact Hne|].
  rewrite Ep. cbn [unwrap bind].
  assert (Hc : cube_fine cube) by (apply (Hq (cube, n)); rewrite P; left; auto).
  assert (Hq' : queue_fine q') by (intros e He; apply Hq; rewrite P; right; auto).
  set (st0 := mkIc3State (st_ops st) (S (st_draws st))).
  assert (H0 : spent 0 st st0) by apply spent_draw.
  destruct (k <? n).
  { intros X. injection X as _ <-. eapply spent_le; [|exact H0]. lia. }
  destruct (op O _ st0) as [(resp & st1)| |] eqn:E1; cbn [bind]; try discriminate.
  assert (H1 : spent 1 st0 st1) by (eapply op_spent; [exact E1|intros ? ? Hop; eapply (u_reach _ _ HU); exact Hop]).
  assert (K : forall u mn g st2, cube_fine u -> inductively_generalize R O u mn k st1 = Ok (g, st2) ->
    spent (k + 2 + 2 * length V) st st2).
  { intros u mn g st2 Hu E2. apply generalize_spent in E2; auto.
    eapply spent_le; [|eapply spent_trans; [exact H0|eapply spent_trans; [exact H1|exact E2]]]. lia. }
  destruct resp as [|asg].
  - destruct (inductively_generalize R O cube _ k st1) as [(g & st2)| |] eqn:E2; cbn [bind]; try discriminate.
    apply K in E2; auto. destruct g as [m|].
    + intros X. apply IH in X; [|apply queue_fine_push; auto].
      cbn [Nat.mul]. eapply spent_trans; [exact E2|exact X].
    + intros X. injection X as _ <-. eapply spent_le; [|exact E2]. cbn [Nat.mul]. lia.
  - destruct (extract_state_from_assignment b s asg) as [pred| |] eqn:Es; cbn [bind]; try discriminate.
    apply HE in Es.
    destruct (inductively_generalize R O pred _ k st1) as [(g & st2)| |] eqn:E2; cbn [bind]; try discriminate.
    apply K in E2; auto. destruct g as [m|].
    + cbv zeta. intros X. apply IH in X; [|apply queue_fine_push; auto; apply queue_fine_push; auto].
      cbn [Nat.mul]. eapply spent_trans; [exact E2|exact X].
    + intros X. injection X as _ <-. eapply spent_le; [|exact E2]. cbn [Nat.mul]. lia.
Qed.

Lemma strengthen_spent inner k : forall fuel st r st',
  strengthen b R O s inner fuel k st = Ok (r, st') -> spent (fuel * ((inner + 1) * (k + 2 + 2 * length V))) st st'.
Proof.
  induction fuel as [|fuel IH]; intros st r st'; cbn [strengthen]; [discriminate|].
  destruct (op O _ st) as [(resp & st1)| |] eqn:E1; cbn [bind]; try discriminate.
  assert (H1 : spent 1 st st1) by (eapply op_spent; [exact E1|intros ? ? Hop; eapply (u_bad_from _ _ HU); exact Hop]).
  set (c1 := k + 2 + 2 * length V). assert (Hc1 : 1 <= c1) by (unfold c1; lia).
  assert (Hin : (inner + 1) * c1 = inner * c1 + c1) by lia.
  destruct resp as [|asg].
  { intros X. injection X as _ <-. eapply spent_le; [|exact H1]. cbn [Nat.mul]. lia. }
  destruct (extract_state_from_assignment b s asg) as [pred| |] eqn:Es; cbn [bind]; try discriminate.
  apply HE in Es.
  destruct (inductively_generalize R O pred _ k st1) as [(g & st2)| |] eqn:E2; cbn [bind]; try discriminate.
  apply generalize_spent in E2; auto.
  assert (H2 : spent c1 st st2).
  { eapply spent_le; [|eapply spent_trans; [exact H1|exact E2]]. unfold c1. lia. }
  destruct g as [m|].
  2:{ intros X. injection X as _ <-. eapply spent_le; [|exact H2]. cbn [Nat.mul]. lia. }
  cbv zeta.
  destruct (push_generalization b R O s inner _ k st2) as [(o & st3)| |] eqn:E3; cbn [bind]; try discriminate.
  apply push_spent in E3; [|apply queue_fine_push; auto; intros e []]. fold c1 in E3.
  assert (H3 : spent ((inner + 1) * c1) st st3).
  { eapply spent_le; [|eapply spent_trans; [exact H2|exact E3]]. lia. }
  destruct o.
  - intros X. apply IH in X. fold c1 in X. cbn [Nat.mul]. eapply spent_trans; [exact H3|exact X].
  - intros X. injection X as _ <-. eapply spent_le; [|exact H3]. cbn [Nat.mul]. lia.
Qed.

Lemma propagate_fold_spent i : forall order st st', incl order W ->
  foldM (fun st d =>
           '(r, st) <- op O (fun x => o_propagate_query O x i d) st ;;
           match r with
           | UnSat => op_ O (fun x => o_add_clause O x (i + 1) d) st
           | Sat _ => Ok st
           end) order st = Ok st' -> spent (length order) st st'.
Proof.
  induction order as [|d order IH]; intros st st' Hi; cbn [foldM].
  { intros X. injection X as <-. split; [lia|auto]. }
  destruct (op O _ st) as [(resp & st1)| |] eqn:E1; cbn [bind]; try discriminate.
  assert (H1 : spent 1 st st1) by (eapply op_spent; [exact E1|intros ? ? Hop; eapply (u_propagate _ _ HU); exact Hop]).
  assert (Hi' : incl order W) by (intros x Hx; apply Hi; right; auto).
  destruct resp as [|asg].
  - destruct (op_ O _ st1) as [st2| |] eqn:E2; cbn [bind]; try discriminate.
    intros X. apply IH in X; auto. cbn [length]. change (S (length order)) with (1 + length order).
    apply (spent_trans 1 (length order) st st2 st'); auto.
    eapply (spent_trans 1 0); [exact H1|]. apply (add_spent d (Hi d (or_introl eq_refl)) [i + 1]).
    cbn [foldM]. rewrite E2. reflexivity.
  - intros X. apply IH in X; auto. cbn [length]. change (S (length order)) with (1 + length order).
    eapply spent_trans; [exact H1|exact X].
Qed.

Lemma propagate_spent : forall js st st', within W (cl st) -> foldM (propagate_frame R O) js st = Ok st' ->
  spent (length js * 3 ^ length V) st st'.
Proof.
  induction js as [|j js IH]; intros st st' Hw; cbn [foldM].
  { intros X. injection X as <-. split; [lia|auto]. }
  destruct (propagate_frame R O st j) as [st1| |] eqn:E; cbn [bind]; try discriminate.
  assert (H1 : spent (3 ^ length V) st st1).
  { unfold propagate_frame, draw in E.
    destruct (indexn (o_clauses O (st_ops st)) j) as [f| |] eqn:Ef; cbn [bind] in E; try discriminate.
    destruct (Hw f (indexn_in _ _ _ Ef)) as (W1 & W2).
    assert (P : Permutation (R (st_draws st) Clause (cnf_clauses f)) (cnf_clauses f)) by apply HR.
    apply propagate_fold_spent in E.
    - rewrite (Permutation_length P) in E. eapply spent_le; [|eapply spent_trans; [apply spent_draw|exact E]].
      pose proof (NoDup_incl_length W1 W2) as L. unfold all_clauses in L. rewrite map_length, choices_length in L. lia.
    - intros x Hx. apply W2. eapply Permutation_in; eauto. }
  intros X. apply IH in X; [|apply H1; auto]. cbn [length Nat.mul]. eapply spent_trans; [exact H1|exact X].
Qed.

End Upper.

(* ------------------------------------------------------------------ the main loop *)

Section Circuit.
Variables (c : circuit) (flag : bool) (s : FSTS).
Hypothesis Hwf : circuit_wf c.
Hypothesis Hn : numbered c flag.
Hypothesis He : encodes c flag s.
Notation V := (state_literals s).

Lemma state_count : length V = length (c_latches c).
Proof. rewrite (e_states _ _ _ He), numbers_length. unfold lenN. apply Nat2N.id. Qed.

Lemma extract_fine b asg q : extract_state_from_assignment b s asg = Ok q -> cube_fine V q.
Proof.
  pose proof (states_range c flag s Hn He) as Hr. unfold extract_state_from_assignment.
  destruct (mapM (extract_literal b asg) V) as [lits| |] eqn:E; cbn [bind]; try discriminate.
  intros X. injection X as <-. apply mapM_ok in E.
  assert (K : map lit_var lits = V).
  { revert Hr E. generalize V as l. intros l Hr E. induction E as [|v y l lits Hy E IH]; auto.
    cbn [map]. f_equal; [|apply IH; intros x Hx; apply Hr; right; auto].
    unfold extract_literal in Hy. rewrite literal_new_ok in Hy by (apply Hr; left; auto). cbn [bind] in Hy.
    destruct (get_value asg v) as [t|]; cbn [unwrap bind] in Hy; try discriminate. injection Hy as <-.
    destruct t; cbn [negb negate_if_true]; [|rewrite lit_var_not]; unfold lit_var; lia. }
  pose proof (sort_perm N.leb lits) as P. unfold cube_fine, cube_new. cbn [cube_lits]. split.
  - eapply once_perm; [symmetry; exact P|]. split; rewrite K; [|apply incl_refl].
    rewrite (e_states _ _ _ He). apply numbers_nodup.
  - etransitivity; [apply (Permutation_length P)|]. rewrite <- (map_length lit_var lits), K. reflexivity.
Qed.

Notation N := (states c).
Notation L := (length (c_latches c)).
Let inner0 := N * (N + 3) + 1.
Let round := (N + 1) * ((inner0 + 1) * (N + 3 + 2 * L)) + (N + 1) * 3 ^ L.

Section Run.
Hypothesis Hp0 : forall w, wires_ok c w -> initial_values c w -> ~ is_bad c flag w.
Variable (b : build) (R : Random) (O : Ic3Ops) (good : ox O -> Prop) (calls : ox O -> nat).
Hypothesis HR : random_ok R.
Hypothesis HO : ops_ok c flag s O good.
Hypothesis HU : costs O calls.
Notation cl := (fun st : Ic3State O => o_clauses O (st_ops st)).
Notation cs := (fun st : Ic3State O => calls (st_ops st)).

(** The fuel does not enter the bound. *)
Lemma strengthen_bounded inner fuel k0 st r st' : k0 <= N -> sinv c flag O good (S k0) st ->
  nobad c flag (cl st) k0 -> strengthen b R O s inner fuel (S k0) st = Ok (r, st') ->
  spent O calls V ((N + 1) * ((inner0 + 1) * (N + 3 + 2 * L))) st st'.
Proof.
  intros Hk Hs Hnb E.
  assert (E' : strengthen b R O s inner0 (N + 1) (S k0) st = Ok (r, st')).
  { destruct (strengthen_fuel b R O s fuel (Nat.max fuel (N + 1)) inner (Nat.max inner inner0) (S k0) st ltac:(lia) ltac:(lia))
      as [X|X]; [congruence|].
    destruct (strengthen_fuel b R O s (N + 1) (Nat.max fuel (N + 1)) inner0 (Nat.max inner inner0) (S k0) st ltac:(lia) ltac:(lia))
      as [Y|Y]; [|congruence].
    exfalso. pose proof (strengthen_ok c flag s Hwf Hn He Hp0 b R O good HR HO inner0 (S k0) ltac:(lia) (N + 1) st Hs) as Z.
    rewrite Y in Z. cbn [post] in Z. replace (S k0 - 1) with k0 in Z by lia.
    pose proof (count_le c (fr (cl st) (S k0))).
    assert (N * (S k0 + 2) <= N * (N + 3)) by (apply Nat.mul_le_mono_l; lia).
    destruct (Z Hnb) as [H1|H1]; [lia|]. unfold inner0 in H1. lia. }
  apply (strengthen_spent b R O s calls V HR HU (extract_fine b)) in E'.
  eapply spent_le; [|exact E']. rewrite state_count. apply Nat.mul_le_mono_l, Nat.mul_le_mono_l. lia.
Qed.

Lemma prove_loop_bounded inner base : forall outer k0 st, sinv c flag O good k0 st -> nobad c flag (cl st) k0 ->
  k0 <= N -> within (all_clauses V) (cl st) -> cs st <= base + k0 * round ->
  post (prove_loop b R O s inner outer (S k0) st) True True (fun r => cs (snd r) <= base + (N + 1) * round).
Proof.
  induction outer as [|outer IH]; intros k0 st Hs Hnb Hk Hw Hc; cbn [prove_loop]; [exact I|].
  unfold op_ at 1. destruct (ok_push _ _ _ _ _ HO (st_ops st) (proj1 Hs)) as (x & Ex & Hgx & Ecx).
  rewrite Ex. cbn [bind]. apply (u_push _ _ HU) in Ex. destruct Ex as (Ex & _).
  destruct (finv_new c flag k0 (cl st) (proj2 Hs)) as (Hf1 & Efr).
  rewrite <- Ecx in Hf1, Efr.
  cbn [st_ops]. destruct (debug_assert b _) as [[]| |]; cbn [bind post]; auto.
  rewrite (ok_check _ _ _ _ _ HO x Hgx) by (try apply (f_zero _ _ _ _ Hf1); pose proof (f_len _ _ _ _ Hf1); lia). cbn [bind].
  set (st1 := mkIc3State x (st_draws st)).
  assert (Hs1 : sinv c flag O good (S k0) st1) by (split; auto).
  assert (Hnb1 : nobad c flag (cl st1) k0).
  { intros w w' Hst (Hx & Hb). apply (Hnb w w' Hst). split; auto.
    unfold st1 in Hx. cbn [st_ops] in Hx. rewrite Efr in Hx. auto. }
  assert (Hw1 : within (all_clauses V) (cl st1)) by (unfold st1; cbn [st_ops]; rewrite Ecx; apply within_push; auto).
  assert (Hc1 : cs st1 <= base + k0 * round) by (unfold st1; cbn [st_ops]; lia).
  assert (Hmore : k0 * round + round <= (N + 1) * round).
  { replace (k0 * round + round) with ((k0 + 1) * round) by lia. apply Nat.mul_le_mono_r. lia. }
  pose proof (strengthen_ok c flag s Hwf Hn He Hp0 b R O good HR HO inner (S k0) ltac:(lia) inner st1 Hs1) as Z.
  replace (S k0 - 1) with k0 in Z by lia. specialize (Z Hnb1).
  destruct (strengthen b R O s inner inner (S k0) st1) as [(o & st2)| |] eqn:E; cbn [bind post]; auto.
  apply strengthen_bounded in E; auto. destruct E as (E1 & E2). specialize (E2 Hw1).
  cbn [post fst snd] in Z. destruct Z as (G1 & G2 & G3). destruct o.
  - unfold propagate_clauses.
    destruct (propagate_frames c flag s Hp0 R O good HR HO (S k0) (S k0) 1 st2) as (st3 & E3 & F1 & F2 & F3 & F4); try assumption; try lia.
    rewrite E3. cbn [bind].
    apply (propagate_spent R O calls V HR HU) in E3; auto. rewrite seq_length, state_count in E3.
    destruct E3 as (P1 & P2). specialize (P2 E2).
    assert (Hprop : S k0 * 3 ^ L <= (N + 1) * 3 ^ L) by (apply Nat.mul_le_mono_r; lia).
    assert (Hc3 : cs st3 <= base + k0 * round + round) by (unfold round; unfold round in Hc1; lia).
    assert (Hnb3 : nobad c flag (cl st3) (S k0)) by (eapply nobad_grow; eauto).
    destruct (find_fixpoint_ok c flag s b O good HO (S k0) (st_ops st3) (proj1 F1) (proj2 F1) (S k0) 1) as (res & Er & Hres); [lia|lia|].
    rewrite Er. cbn [bind]. destruct res as [inv|].
    + cbn [post snd]. lia.
    + assert (Hkn : S k0 <= N).
      { apply (counts_increase c flag Hp0 (S k0) (cl st3)); auto.
        - apply F1.
        - intros j d Hj. apply F4. lia.
        - intros j Hj. apply Hres. lia. }
      apply (IH (S k0) st3); auto. cbn [Nat.mul]. lia.
  - destruct (depth_of_frame (S k0)); cbn [bind post snd]; auto. unfold round in *. lia.
Qed.

End Run.

Lemma prove_bounded (b : build) (R : Random) (O : Ic3Ops) (good : ox O -> Prop) (calls : ox O -> nat) :
  random_ok R -> ops_ok c flag s O good -> costs O calls ->
  forall fuel st, good (st_ops st) -> o_clauses O (st_ops st) = [] ->
  forall r st', ic3_prove b R O s fuel st = Ok (r, st') ->
  calls (st_ops st') <= calls (st_ops st) + 2 +
    (N + 1) * ((N + 1) * ((N * (N + 3) + 2) * (N + 3 + 2 * L)) + (N + 1) * 3 ^ L).
Proof.
  intros HR HO HU fuel st Hg Hcl r st' E.
  assert (X : post (ic3_prove b R O s fuel st) True True (fun r =>
    calls (st_ops (snd r)) <= calls (st_ops st) + 2 + (N + 1) * round)).
  2:{ rewrite E in X. cbn [post snd] in X. unfold round, inner0 in X.
      replace (N * (N + 3) + 1 + 1) with (N * (N + 3) + 2) in X by lia. exact X. }
  unfold ic3_prove.
  eapply bind_okay.
  { eapply (okay_and _ _ (fun r => spent O calls V 1 st (snd r))); [apply op_okay; apply (ok_bad_0 _ _ _ _ _ HO); auto|].
    intros (r0 & st0) E0. eapply (op_spent O calls V 1) in E0; [exact E0|intros ? ? Hop; eapply (u_bad_0 _ _ HU); exact Hop]. }
  intros (r0 & st1) (((Hg1 & Ec1 & H0) & _) & L1). cbn [fst snd] in *. destruct L1 as (L1 & _). destruct r0 as [|asg].
  2:{ cbn [post snd]. lia. }
  eapply bind_okay.
  { eapply (okay_and _ _ (fun r => spent O calls V 1 st1 (snd r))); [apply op_okay; apply (ok_bad_1 _ _ _ _ _ HO); auto|].
    intros (r1 & st2) E1. eapply (op_spent O calls V 1) in E1; [exact E1|intros ? ? Hop; eapply (u_bad_1 _ _ HU); exact Hop]. }
  intros (r1 & st2) (((Hg2 & Ec2 & H1) & _) & L2). cbn [fst snd] in *. destruct L2 as (L2 & _).
  rewrite Ec1, Hcl in Ec2. destruct r1 as [|asg].
  2:{ cbn [post snd]. lia. }
  unfold op_ at 1. destruct (ok_push _ _ _ _ _ HO (st_ops st2) Hg2) as (x & Ex & Hgx & Ecx).
  rewrite Ex. cbn [bind]. unfold op_ at 1. cbn [st_ops].
  destruct (ok_push _ _ _ _ _ HO x Hgx) as (x' & Ex' & Hgx' & Ecx'). rewrite Ex'. cbn [bind].
  apply (u_push _ _ HU) in Ex. apply (u_push _ _ HU) in Ex'.
  assert (Ecls : o_clauses O x' = [cnf_new; cnf_new]) by (rewrite Ecx', Ecx, Ec2; reflexivity).
  apply (prove_loop_bounded H0 b R O good calls HR HO HU fuel (calls (st_ops st) + 2) fuel 0).
  - split; [auto|]. cbn [st_ops]. rewrite Ecls. exact (frames_ok_nil c flag).
  - cbn [st_ops]. intros w w' Hst (_ & Hx). apply (H1 w w' Hst). exact Hx.
  - lia.
  - cbn [st_ops]. rewrite Ecls. intros f [<-|[<-|[]]]; (split; [constructor|intros y []]).
  - cbn [st_ops]. lia.
Qed.

End Circuit.
