(** Replacing the solver or the build profile under the algorithms.  [fits r x y]: the run [x]
    panics, or the run [y] ends in the same way.  When every call of one solver fits the same
    call of another, so do whole runs of IC3 and PDR. *)
From Verif Require Import Base Formulas FormulaLogic Aig Fsts Bmc Solvers Ic3 Pdr Spec
  FormulasFacts LogicFacts Brute BruteFacts Tac Plain.
Open Scope nat_scope.

Create HintDb fits discriminated.

Section Replace.
(** When [K] holds, nothing is said about runs out of fuel. *)
Variable K : Prop.

Inductive fits {A B} (r : A -> B -> Prop) : res A -> res B -> Prop :=
| fits_panic y : fits r Panic y
| fits_ok x y : r x y -> fits r (Ok x) (Ok y)
| fits_fuel : fits r OutOfFuel OutOfFuel
| fits_any y : K -> fits r OutOfFuel y.

(** The same result next to related states. *)
Definition with_result {A X Y} (r : X -> Y -> Prop) (p : A * X) (q : A * Y) : Prop :=
  fst p = fst q /\ r (snd p) (snd q).

(** The same answer, except that the model on the right may give values to more variables. *)
Definition extends (asg asg' : Assignment) : Prop :=
  forall v x, get_value asg v = Some x -> get_value asg' v = Some x.
Inductive response_fits : SatResponse -> SatResponse -> Prop :=
| fits_unsat : response_fits UnSat UnSat
| fits_sat asg asg' : extends asg asg' -> response_fits (Sat asg) (Sat asg').
Definition answered {X Y} (r : X -> Y -> Prop) (p : SatResponse * X) (q : SatResponse * Y) : Prop :=
  response_fits (fst p) (fst q) /\ r (snd p) (snd q).

Lemma response_same a : response_fits a a.
Proof. destruct a; constructor. intros v x; auto. Qed.

Lemma response_sat a a' : response_fits a a' -> is_sat_response a = is_sat_response a'.
Proof. intros []; auto. Qed.

Lemma result_answered {X Y} (r : X -> Y -> Prop) p q : with_result r p q -> answered r p q.
Proof. destruct p, q. intros [E H]. cbn [fst snd] in *. subst. split; auto using response_same. Qed.

Lemma fits_bind {A B A' B'} (r : A -> A' -> Prop) (t : B -> B' -> Prop) x y f g :
  fits r x y -> (forall a a', r a a' -> fits t (f a) (g a')) -> fits t (bind x f) (bind y g).
Proof. intros [ |a a' H| |] G; cbn [bind]; auto; constructor; auto. Qed.

Lemma fits_bind_same {A B B'} (t : B -> B' -> Prop) (x : res A) f g :
  (forall a, fits t (f a) (g a)) -> fits t (bind x f) (bind x g).
Proof. intros G. destruct x; cbn [bind]; auto; constructor. Qed.

Lemma fits_bind_eq {A B B'} (t : B -> B' -> Prop) (x y : res A) f g :
  fits eq x y -> (forall a, fits t (f a) (g a)) -> fits t (bind x f) (bind y g).
Proof. intros H G. eapply fits_bind; [exact H|]. intros ? ? <-. apply G. Qed.

Lemma fits_refl {A} (x : res A) : fits eq x x.
Proof. destruct x; constructor; auto. Qed.

Lemma fits_foldM {A X Y} (r : X -> Y -> Prop) (f : X -> A -> res X) (g : Y -> A -> res Y) l :
  (forall x y a, r x y -> fits r (f x a) (g y a)) ->
  forall x y, r x y -> fits r (foldM f l x) (foldM g l y).
Proof.
  intros G. induction l as [|a l IH]; intros x y H; cbn [foldM]; [constructor; auto|].
  eapply fits_bind; eauto.
Qed.

Lemma fits_foldM_eq {A X} (f g : X -> A -> res X) l x :
  (forall x a, fits eq (f x a) (g x a)) -> fits eq (foldM f l x) (foldM g l x).
Proof. intros G. apply fits_foldM; auto. intros ? ? a <-. apply G. Qed.

Lemma fits_mapM {A B} (f g : A -> res B) l : (forall x, fits eq (f x) (g x)) ->
  fits eq (mapM f l) (mapM g l).
Proof.
  intros H. induction l as [|x l IH]; cbn [mapM]; [constructor; auto|].
  eapply fits_bind; [apply H|]. intros ? ? <-. eapply fits_bind; [apply IH|]. intros ? ? <-.
  constructor; auto.
Qed.

Lemma all_length {X Y} (r : X -> Y -> Prop) l l' : Forall2 r l l' -> length l = length l'.
Proof. induction 1; cbn [length]; auto. Qed.

Lemma fits_indexn {X Y} (r : X -> Y -> Prop) l l' :
  Forall2 r l l' -> forall i, fits r (indexn l i) (indexn l' i).
Proof.
  unfold indexn. induction 1 as [|x y l l' H _ IH]; intros [|i]; cbn [nth_error unwrap]; try constructor; auto.
Qed.

Lemma all_set_nth {X Y} (r : X -> Y -> Prop) l l' :
  Forall2 r l l' -> forall i x y, r x y -> Forall2 r (set_nth l i x) (set_nth l' i y).
Proof.
  induction 1 as [|x0 y0 l l' H G IH]; intros [|i] x y Hr; cbn [set_nth]; constructor; auto.
Qed.

Lemma all_snoc {X Y} (r : X -> Y -> Prop) l l' x y :
  Forall2 r l l' -> r x y -> Forall2 r (l ++ [x]) (l' ++ [y]).
Proof. intros. apply Forall2_app; auto. Qed.

Hint Resolve fits_indexn all_set_nth all_snoc : fits.

(** One solver fits another. *)
Record solver_fits (SS TT : StatefulSolver) (r : ss_state SS -> ss_state TT -> Prop) : Prop := {
  sim_new : forall h, r (ss_new SS h) (ss_new TT h);
  sim_add : forall x y f, r x y -> fits r (ss_add_cnf SS x f) (ss_add_cnf TT y f);
  sim_solve : forall x y q c, r x y ->
    fits (answered r) (ss_solve SS x q c) (ss_solve TT y q c) }.

(** Steps of the proofs below. *)
Ltac fit_pairs :=
  repeat match goal with
  | H : with_result _ ?p ?q |- _ =>
      let H1 := fresh in let H2 := fresh in
      destruct p, q; destruct H as [H1 H2]; cbn [fst snd] in H1, H2; subst
  | H : answered _ ?p ?q |- _ =>
      let H1 := fresh in let H2 := fresh in
      destruct p, q; destruct H as [H1 H2]; cbn [fst snd] in H1, H2
  | H : ?x = ?y |- _ => first [subst x|subst y]
  end.
Ltac same_sat :=
  repeat match goal with H : response_fits ?x ?y |- context [is_sat_response ?x] =>
    rewrite (response_sat x y H) end.
Ltac fit_step :=
  match goal with
  | H : response_fits ?x ?y |- fits _ (match ?x with _ => _ end) (match ?y with _ => _ end) =>
      destruct H
  | |- fits _ (bind ?x _) (bind ?x _) =>
      apply fits_bind_same; intros; repeat match goal with p : _ * _ |- _ => destruct p end
  | |- fits _ (bind _ _) (bind _ _) =>
      eapply fits_bind_eq; [solve [eauto with fits]|intros]
  | |- fits _ (bind _ _) (bind _ _) =>
      eapply fits_bind; [solve [eauto with fits]|intros; fit_pairs; cbv beta iota]
  | |- fits _ (Ok _) (Ok _) => constructor
  | |- fits _ Panic _ => constructor
  | |- fits _ OutOfFuel OutOfFuel => constructor
  | |- fits _ (if ?c then _ else _) (if ?c then _ else _) => destruct c
  | |- fits _ (match ?c with _ => _ end) (match ?c with _ => _ end) => destruct c
  end.

(* ---------------------------------------------------------------------- builds *)

(** The same build, or a debug build on the left and a release build on the right. *)
Variables b b' : build.
Hypothesis BF : b = b' \/ (b = Debug /\ b' = Release /\ K).

Lemma fit_debug_assert c : fits eq (debug_assert b c) (debug_assert b' c).
Proof. destruct BF as [<-|(-> & -> & _)]; [apply fits_refl|]. destruct c; constructor; auto. Qed.
Hint Resolve fit_debug_assert : fits.

Lemma fit_u32_add x y : fits eq (u32_add b x y) (u32_add b' x y).
Proof.
  destruct BF as [<-|(-> & -> & _)]; [apply fits_refl|]. unfold u32_add. cbn zeta.
  destruct (_ <? _)%N eqn:E; constructor; auto.
Qed.
Lemma fit_u32_mul x y : fits eq (u32_mul b x y) (u32_mul b' x y).
Proof.
  destruct BF as [<-|(-> & -> & _)]; [apply fits_refl|]. unfold u32_mul. cbn zeta.
  destruct (_ <? _)%N eqn:E; constructor; auto.
Qed.
Lemma fit_i32_wrap z : fits eq (i32_wrap b z) (i32_wrap b' z).
Proof.
  destruct BF as [<-|(-> & -> & _)]; [apply fits_refl|].
  unfold i32_wrap. destruct (_ && _); constructor; auto.
Qed.
Hint Resolve fit_u32_add fit_u32_mul fit_i32_wrap fits_refl : fits.

Lemma fit_literal_new n : fits eq (literal_new b n) (literal_new b' n).
Proof. unfold literal_new. repeat fit_step; auto. Qed.
Hint Resolve fit_literal_new : fits.

Lemma fit_extract_state s a a' : extends a a' ->
  fits eq (extract_state_from_assignment b s a) (extract_state_from_assignment b' s a').
Proof.
  intros H. unfold extract_state_from_assignment. apply fits_bind_eq; [|intros; constructor; auto].
  apply fits_mapM. intros n. unfold extract_literal. fit_step.
  destruct (get_value a n) as [v|] eqn:E; [|constructor]. rewrite (H _ _ E). apply fits_refl.
Qed.

Lemma fit_bump_clause c n : fits eq (bump_clause b c n) (bump_clause b' c n).
Proof.
  unfold bump_clause. apply fits_bind_eq; [|intros; constructor; auto].
  apply fits_mapM. intros l. unfold bump_literal. repeat fit_step; auto.
Qed.
Hint Resolve fit_extract_state fit_bump_clause : fits.

Lemma fit_bump_cnf f n : fits eq (bump_cnf b f n) (bump_cnf b' f n).
Proof.
  unfold bump_cnf. fit_step; [constructor; auto|]. apply fits_foldM_eq. intros. repeat fit_step; auto.
Qed.
Hint Resolve fit_bump_cnf : fits.

Lemma fit_tags_relation s f n : fits eq (add_tags_to_relation b s f n) (add_tags_to_relation b' s f n).
Proof. unfold add_tags_to_relation. fit_step. auto with fits. Qed.
Lemma fit_tags_cube s q n : fits eq (add_tags_to_cube b s q n) (add_tags_to_cube b' s q n).
Proof. unfold add_tags_to_cube. repeat fit_step; auto. Qed.
Lemma fit_tags_clause s c n : fits eq (add_tags_to_clause b s c n) (add_tags_to_clause b' s c n).
Proof. unfold add_tags_to_clause. repeat fit_step; auto with fits. Qed.
Hint Resolve fit_tags_relation fit_tags_cube fit_tags_clause : fits.

(* --------------------------------------------------------------- formula logic *)

Section Queries.
Variable T T' : StatelessSolver.
Hypothesis TF : forall n f, fits response_fits (T n f) (T' n f).

Lemma fit_implies order f g : fits eq (does_a_imply_b T order f g) (does_a_imply_b T' order f g).
Proof.
  unfold does_a_imply_b. generalize (order (cnf_clauses g)) as cs, 0%nat as n.
  induction cs as [|c cs IH]; intros n; cbn [implies_loop]; [constructor; auto|]. cbv zeta.
  eapply fits_bind; [apply TF|]. intros. fit_step; auto. constructor; auto.
Qed.

Lemma fit_both f g : fits eq (is_a_and_b_satisfiable T f g) (is_a_and_b_satisfiable T' f g).
Proof.
  unfold is_a_and_b_satisfiable. eapply fits_bind; [apply TF|]. intros. fit_step; constructor; auto.
Qed.
End Queries.

Theorem check_invariant_fits T1 T1' T2 T2' T3 T3' o1 o2 s inv :
  (forall n f, fits response_fits (T1 n f) (T1' n f)) ->
  (forall n f, fits response_fits (T2 n f) (T2' n f)) ->
  (forall n f, fits response_fits (T3 n f) (T3' n f)) ->
  fits eq (check_invariant b T1 T2 T3 o1 o2 s inv) (check_invariant b' T1' T2' T3' o1 o2 s inv).
Proof.
  intros H1 H2 H3. unfold check_invariant. cbv zeta.
  apply fits_bind_eq; [apply fit_implies; auto|]. intros. fit_step. fit_step. fit_step.
  apply fits_bind_eq; [apply fit_implies; auto|]. intros. fit_step.
  apply fits_bind_eq; [apply fit_both; auto|]. intros. apply fits_refl.
Qed.

(* ------------------------------------------------------------------------- IC3 *)

(** The operations of one instance of IC3 fit those of another. *)
Record ops_fit (O P : Ic3Ops) (r : ox O -> ox P -> Prop) : Prop := {
  of_clauses : forall x y, r x y -> o_clauses O x = o_clauses P y;
  of_push_frame : forall x y, r x y -> fits r (o_push_frame O x) (o_push_frame P y);
  of_add_clause : forall x y, r x y -> forall j c,
    fits r (o_add_clause O x j c) (o_add_clause P y j c);
  of_bad_in_0 : forall x y, r x y -> fits (answered r) (o_bad_in_0 O x) (o_bad_in_0 P y);
  of_bad_in_1 : forall x y, r x y -> fits (answered r) (o_bad_in_1 O x) (o_bad_in_1 P y);
  of_bad_from_fi : forall x y, r x y -> forall k,
    fits (answered r) (o_bad_from_fi O x k) (o_bad_from_fi P y k);
  of_reach : forall x y, r x y -> forall k q,
    fits (answered r) (o_reach_from_fi O x k q) (o_reach_from_fi P y k q);
  of_propagate : forall x y, r x y -> forall k c,
    fits (answered r) (o_propagate_query O x k c) (o_propagate_query P y k c);
  of_not_s : forall x y, r x y -> forall k q,
    fits (with_result r) (o_not_s_and_s_tag O x k q) (o_not_s_and_s_tag P y k q);
  of_inductive : forall x y, r x y -> forall c k,
    fits (with_result r) (o_clause_inductive O x c k) (o_clause_inductive P y c k);
  of_get_fk : forall x y, r x y -> forall k, fits eq (o_get_fk O x k) (o_get_fk P y k);
  of_loop_check : forall x y, r x y -> fits eq (o_loop_check O x) (o_loop_check P y) }.

Section Algorithm.
Variable (R : Random) (O P : Ic3Ops) (r : ox O -> ox P -> Prop).
Hypothesis OF : ops_fit O P r.
Variable s : FSTS.

Definition run_rel (x : Ic3State O) (y : Ic3State P) : Prop :=
  r (st_ops x) (st_ops y) /\ st_draws x = st_draws y.

Lemma fit_op {A} f g x y :
  run_rel x y -> fits (with_result (A := A) r) (f (st_ops x)) (g (st_ops y)) ->
  fits (with_result run_rel) (op O f x) (op P g y).
Proof.
  intros [Hr Hd] G. unfold op. eapply fits_bind; [exact G|]. intros [a x'] [a' y'] [Ha Hx].
  cbn [fst snd] in *. subst. constructor. split; cbn [fst snd]; auto. split; auto.
Qed.

Lemma fit_ask f g x y :
  run_rel x y -> fits (answered r) (f (st_ops x)) (g (st_ops y)) ->
  fits (answered run_rel) (op O f x) (op P g y).
Proof.
  intros [Hr Hd] G. unfold op. eapply fits_bind; [exact G|]. intros [a x'] [a' y'] [Ha Hx].
  cbn [fst snd] in *. constructor. split; cbn [fst snd]; auto. split; auto.
Qed.

Lemma fit_op_ f g x y :
  run_rel x y -> fits r (f (st_ops x)) (g (st_ops y)) -> fits run_rel (op_ O f x) (op_ P g y).
Proof.
  intros [Hr Hd] G. unfold op_. eapply fits_bind; [exact G|]. intros x' y' Hx.
  constructor. split; auto.
Qed.

Lemma fit_subclause_loop fuel : forall i ls j x y, run_rel x y ->
  fits (with_result run_rel) (subclause_loop O fuel i ls j x) (subclause_loop P fuel i ls j y).
Proof.
  induction fuel as [|fuel IH]; intros i ls j x y H; cbn [subclause_loop];
    (destruct (j <? length ls); [|constructor; split; auto]); [constructor|].
  fit_step. eapply fits_bind; [apply fit_op; auto; apply (of_inductive O P r OF); apply H|].
  intros; fit_pairs; cbv beta iota. fit_step; auto. fit_step; auto.
Qed.

Lemma fit_get_subclause q i x y : run_rel x y ->
  fits (with_result run_rel) (get_subclause R O q i x) (get_subclause R P q i y).
Proof.
  intros [Hr Hd]. unfold get_subclause, draw. cbv zeta beta iota. rewrite Hd.
  eapply fits_bind; [apply fit_subclause_loop; split; auto|].
  intros; fit_pairs; cbv beta iota. constructor. split; auto.
Qed.

Lemma fit_generate_clause q i x y : run_rel x y ->
  fits run_rel (generate_clause R O q i x) (generate_clause R P q i y).
Proof.
  intros H. unfold generate_clause. eapply fits_bind; [apply fit_get_subclause; eauto|].
  intros; fit_pairs; cbv beta iota. apply fits_foldM; auto. intros x' y' j G.
  apply fit_op_; auto. apply (of_add_clause O P r OF). apply G.
Qed.

Lemma fit_generalize_loop q k frames : forall x y, run_rel x y ->
  fits (with_result run_rel) (generalize_loop R O q k frames x) (generalize_loop R P q k frames y).
Proof.
  induction frames as [|i rest IH]; intros x y H; cbn [generalize_loop].
  - eapply fits_bind; [apply fit_generate_clause; eauto|]. intros. constructor. split; auto.
  - eapply fits_bind; [apply fit_op; auto; apply (of_not_s O P r OF); apply H|].
    intros; fit_pairs; cbv beta iota. fit_step; auto.
    eapply fits_bind; [apply fit_generate_clause; eauto|]. intros. constructor. split; auto.
Qed.

Lemma fit_inductively_generalize q m k x y : run_rel x y ->
  fits (with_result run_rel) (inductively_generalize R O q m k x)
    (inductively_generalize R P q m k y).
Proof.
  intros H. unfold inductively_generalize.
  eapply fits_bind with (r := with_result run_rel).
  - fit_step; [apply fit_op; auto; apply (of_not_s O P r OF); apply H|].
    constructor. split; auto.
  - intros; fit_pairs; cbv beta iota zeta. fit_step; [constructor; split; auto|].
    apply fit_generalize_loop; auto.
Qed.

Lemma fit_push_generalization fuel : forall q k x y, run_rel x y ->
  fits (with_result run_rel) (push_generalization b R O s fuel q k x)
    (push_generalization b' R P s fuel q k y).
Proof.
  induction fuel as [|fuel IH]; intros q k x y H; cbn [push_generalization]; [constructor|].
  cbv zeta. destruct H as [Hr Hd]. rewrite Hd.
  set (x1 := mkIc3State (st_ops x) _). set (y1 := mkIc3State (st_ops y) _).
  assert (H1 : run_rel x1 y1) by (split; auto). clearbody x1 y1.
  apply fits_bind_same. intros [[cube n] states]. fit_step; [constructor; split; auto|].
  eapply fits_bind; [apply fit_ask; auto; apply (of_reach O P r OF); apply H1|].
  intros; fit_pairs; cbv beta iota. fit_step.
  - eapply fits_bind; [apply fit_inductively_generalize; eauto|].
    intros; fit_pairs; cbv beta iota zeta. fit_step; auto. constructor; split; auto.
  - fit_step. eapply fits_bind; [apply fit_inductively_generalize; eauto|].
    intros; fit_pairs; cbv beta iota zeta. fit_step; auto. constructor; split; auto.
Qed.

Lemma fit_strengthen inner fuel : forall k x y, run_rel x y ->
  fits (with_result run_rel) (strengthen b R O s inner fuel k x) (strengthen b' R P s inner fuel k y).
Proof.
  induction fuel as [|fuel IH]; intros k x y H; cbn [strengthen]; [constructor|].
  eapply fits_bind; [apply fit_ask; auto; apply (of_bad_from_fi O P r OF); apply H|].
  intros; fit_pairs; cbv beta iota. fit_step; [constructor; split; auto|].
  fit_step. eapply fits_bind; [apply fit_inductively_generalize; eauto|].
  intros; fit_pairs; cbv beta iota zeta. fit_step; [|constructor; split; auto].
  eapply fits_bind; [apply fit_push_generalization; eauto|].
  intros; fit_pairs; cbv beta iota zeta. fit_step; auto. constructor; split; auto.
Qed.

Lemma fit_propagate_frame x y i : run_rel x y ->
  fits run_rel (propagate_frame R O x i) (propagate_frame R P y i).
Proof.
  intros [Hr Hd]. unfold propagate_frame, draw. rewrite (of_clauses O P r OF _ _ Hr), Hd.
  fit_step. cbv beta iota zeta. apply fits_foldM; [|split; auto].
  intros x' y' c G.
  eapply fits_bind; [apply fit_ask; auto; apply (of_propagate O P r OF); apply G|].
  intros; fit_pairs; cbv beta iota. fit_step; [|constructor; auto].
  match goal with H : run_rel _ _ |- _ =>
    apply fit_op_; auto; apply (of_add_clause O P r OF); apply H end.
Qed.

Lemma fit_propagate_clauses k x y : run_rel x y ->
  fits run_rel (propagate_clauses R O k x) (propagate_clauses R P k y).
Proof.
  intros H. unfold propagate_clauses. apply fits_foldM; auto.
  intros. apply fit_propagate_frame; auto.
Qed.

Lemma fit_find_fixpoint frames x y : r x y ->
  fits eq (find_fixpoint b O frames x) (find_fixpoint b' P frames y).
Proof.
  intros H. induction frames as [|i rest IH]; cbn [find_fixpoint]; [constructor; auto|].
  rewrite (of_clauses O P r OF _ _ H). fit_step. fit_step. fit_step. fit_step; auto.
  eapply fits_bind; [apply (of_get_fk O P r OF); eauto|]. intros; subst. constructor. auto.
Qed.

Lemma fit_prove_loop inner outer : forall k x y, run_rel x y ->
  fits (with_result run_rel) (prove_loop b R O s inner outer k x)
    (prove_loop b' R P s inner outer k y).
Proof.
  induction outer as [|outer IH]; intros k x y H; cbn [prove_loop]; [constructor|].
  eapply fits_bind; [apply fit_op_; auto; apply (of_push_frame O P r OF); apply H|].
  intros x1 y1 H1. rewrite (of_clauses O P r OF _ _ (proj1 H1)). fit_step.
  eapply fits_bind; [apply (of_loop_check O P r OF); apply H1|]. intros ? ? <-.
  eapply fits_bind; [apply fit_strengthen; eauto|].
  intros; fit_pairs; cbv beta iota. fit_step.
  - eapply fits_bind; [apply fit_propagate_clauses; eauto|]. intros x2 y2 H2.
    eapply fits_bind; [apply fit_find_fixpoint; apply H2|]. intros ? ? <-.
    fit_step; auto. constructor; split; auto.
  - fit_step. constructor; split; auto.
Qed.

Lemma fit_ic3_prove fuel x y : run_rel x y ->
  fits (with_result run_rel) (ic3_prove b R O s fuel x) (ic3_prove b' R P s fuel y).
Proof.
  intros H. unfold ic3_prove.
  eapply fits_bind; [apply fit_ask; auto; apply (of_bad_in_0 O P r OF); apply H|].
  intros; fit_pairs; cbv beta iota. fit_step; [|constructor; split; auto].
  match goal with H : run_rel _ _ |- _ =>
  eapply fits_bind; [apply fit_ask; auto; apply (of_bad_in_1 O P r OF); apply H|] end.
  intros; fit_pairs; cbv beta iota. fit_step; [|constructor; split; auto].
  match goal with H : run_rel ?x ?y |- fits _ (bind (op_ _ _ ?x) _) _ =>
  eapply fits_bind; [apply fit_op_; auto; apply (of_push_frame O P r OF); apply H|] end.
  intros x1 y1 H1.
  eapply fits_bind; [apply fit_op_; auto; apply (of_push_frame O P r OF); apply H1|].
  intros. apply fit_prove_loop; auto.
Qed.

End Algorithm.

(* ---------------------------------------------------------------- stateful IC3 *)

Lemma fit_ic3_cache s : fits eq (ic3_cache b s) (ic3_cache b' s).
Proof. unfold ic3_cache. repeat fit_step; auto. Qed.
Hint Resolve fit_ic3_cache : fits.

Section Stateless.
Variable T T' : StatelessSolver.
Hypothesis TF : forall n f, fits response_fits (T n f) (T' n f).
Variable (s : FSTS) (C : Ic3Cache).

Lemma fit_sat_call x f : fits (answered eq) (sl_sat_call T x f) (sl_sat_call T' x f).
Proof.
  unfold sl_sat_call. eapply fits_bind; [apply TF|]. intros. constructor. split; auto.
Qed.
Hint Resolve fit_sat_call : fits.

Lemma sl_ops_fit : ops_fit (sl_ops b T s C) (sl_ops b' T' s C) eq.
Proof.
  constructor; cbn [ox o_clauses o_push_frame o_add_clause o_bad_in_0 o_bad_in_1 o_bad_from_fi
    o_reach_from_fi o_propagate_query o_not_s_and_s_tag o_clause_inductive o_get_fk o_loop_check
    sl_ops]; intros x y <-; intros; try apply fits_refl; auto with fits.
  - unfold sl_bad_in_0. auto with fits.
  - unfold sl_bad_in_1. auto with fits.
  - unfold sl_bad_from_fi. fit_step. auto with fits.
  - unfold sl_reach_from_fi. fit_step. fit_step. auto with fits.
  - unfold sl_propagate_query. fit_step. fit_step. auto with fits.
  - unfold sl_not_s_and_s_tag. fit_step. cbv zeta. fit_step.
    eapply fits_bind; [apply fit_sat_call|]. intros; fit_pairs; cbv beta iota. same_sat.
    constructor. split; auto.
  - unfold sl_clause_inductive. cbv zeta.
    eapply fits_bind; [apply fit_sat_call|]. intros; fit_pairs; cbv beta iota.
    fit_step; [|constructor; split; auto]. fit_step. fit_step.
    eapply fits_bind; [apply fit_sat_call|]. intros; fit_pairs; cbv beta iota. same_sat.
    constructor. split; auto.
Qed.

End Stateless.

Theorem ic3_stateless_fits R T T' fuel s :
  (forall n f, fits response_fits (T n f) (T' n f)) ->
  fits eq (stateless_plain b R T fuel s) (stateless_plain b' R T' fuel s).
Proof.
  intros TF. unfold stateless_plain. fit_step.
  eapply fits_bind; [apply (fit_ic3_prove R _ _ _ (sl_ops_fit T T' TF s _)); split; auto|].
  intros; fit_pairs; cbv beta iota. constructor; auto.
Qed.

Theorem ic3_stateless_twice_fits R T T' fuel s :
  (forall n f, fits response_fits (T n f) (T' n f)) ->
  fits eq (stateless_twice_plain b R T fuel s) (stateless_twice_plain b' R T' fuel s).
Proof.
  intros TF. unfold stateless_twice_plain. fit_step.
  eapply fits_bind; [apply (fit_ic3_prove R _ _ _ (sl_ops_fit T T' TF s _)); split; auto|].
  intros; fit_pairs; cbv beta iota.
  eapply fits_bind; [apply (fit_ic3_prove R _ _ _ (sl_ops_fit T T' TF s _)); eassumption|].
  intros; fit_pairs; cbv beta iota. constructor; auto.
Qed.

Section Stateful.
Variable (SS TT : StatefulSolver) (r : ss_state SS -> ss_state TT -> Prop).
Hypothesis SF : solver_fits SS TT r.
Variable (s : FSTS) (C : Ic3Cache).

Definition sf_rel (x : SFState SS) (y : SFState TT) : Prop :=
  sf_clauses x = sf_clauses y /\ Forall2 r (sf_fi_t x) (sf_fi_t y) /\
  (b = b' -> r (sf_initial x) (sf_initial y)) /\ Forall2 r (sf_fi_t_notp x) (sf_fi_t_notp y).

Lemma fit_solve_fi_t x y j q c : sf_rel x y ->
  fits (answered sf_rel) (sf_solve_fi_t SS x j q c) (sf_solve_fi_t TT y j q c).
Proof.
  intros (H1 & H2 & H3 & H4). unfold sf_solve_fi_t. fit_step.
  eapply fits_bind; [apply (sim_solve _ _ _ SF); eauto|]. intros; fit_pairs; cbv beta iota.
  constructor; split; auto. split; [|split; [|split]]; cbn [fst snd sf_clauses sf_fi_t sf_initial sf_fi_t_notp]; auto with fits.
Qed.

Lemma fit_solve_fi_t_notp x y j : sf_rel x y ->
  fits (answered sf_rel) (sf_solve_fi_t_notp SS x j) (sf_solve_fi_t_notp TT y j).
Proof.
  intros (H1 & H2 & H3 & H4). unfold sf_solve_fi_t_notp. fit_step.
  eapply fits_bind; [apply (sim_solve _ _ _ SF); eauto|]. intros; fit_pairs; cbv beta iota.
  constructor; split; auto. split; [|split; [|split]]; cbn [fst snd sf_clauses sf_fi_t sf_initial sf_fi_t_notp]; auto with fits.
Qed.

Lemma fit_solve_initial x y q c : sf_rel x y -> b = b' ->
  fits (answered sf_rel) (sf_solve_initial SS x q c) (sf_solve_initial TT y q c).
Proof.
  intros (H1 & H2 & H3 & H4) E. unfold sf_solve_initial.
  eapply fits_bind; [apply (sim_solve _ _ _ SF); eauto|]. intros; fit_pairs; cbv beta iota.
  constructor; split; auto. split; [|split; [|split]]; cbn [fst snd sf_clauses sf_fi_t sf_initial sf_fi_t_notp]; auto with fits.
Qed.

Lemma fit_custom x y f : sf_rel x y ->
  fits (answered sf_rel) (sf_custom SS x f) (sf_custom TT y f).
Proof.
  intros H. unfold sf_custom.
  eapply fits_bind; [apply (sim_add _ _ _ SF); apply (sim_new _ _ _ SF)|]. intros.
  eapply fits_bind; [apply (sim_solve _ _ _ SF); eauto|]. intros; fit_pairs; cbv beta iota.
  constructor; split; auto.
Qed.

Lemma fit_add_cnfs fs x y : r x y -> fits r (add_cnfs SS x fs) (add_cnfs TT y fs).
Proof.
  intros H. unfold add_cnfs. apply fits_foldM; auto. intros. apply (sim_add _ _ _ SF); auto.
Qed.

Lemma fit_same_lengths x y :
  sf_rel x y -> fits eq (sf_same_lengths b SS x) (sf_same_lengths b' TT y).
Proof.
  intros (H1 & H2 & H3 & H4). unfold sf_same_lengths.
  rewrite H1, (all_length _ _ _ H2), (all_length _ _ _ H4). repeat (fit_step; try solve [auto with fits]).
Qed.

Lemma fit_debug_check x y q e : sf_rel x y ->
  fits sf_rel (sf_debug_check b SS x q e) (sf_debug_check b' TT y q e).
Proof.
  intros H. destruct BF as [E|(E & E' & k)].
  - unfold sf_debug_check, sf_intersects_initial.
    assert (D : (b = Debug /\ b' = Debug) \/ (b = Release /\ b' = Release)).
    { rewrite <- E. clear. destruct b; auto. }
    destruct D as [(D & D')|(D & D')]; rewrite D, D'; [|constructor; auto].
    eapply fits_bind with (r := with_result sf_rel).
    + eapply fits_bind; [apply fit_solve_initial; eauto|]. intros; fit_pairs; cbv beta iota.
      same_sat. constructor; split; auto.
    + intros; fit_pairs; cbv beta iota. fit_step. constructor; auto.
  - unfold sf_debug_check. rewrite E, E'.
    destruct (sf_intersects_initial SS x q) as [[w z]| |] eqn:Ez; cbn [bind]; try (constructor; auto; fail).
    destruct (assert_ _) as [?| |]; cbn [bind]; constructor; auto.
    unfold sf_intersects_initial, sf_solve_initial in Ez.
    repeat (binds; match goal with a : _ * _ |- _ => destruct a end). binds.
    destruct H as (H1 & H2 & H3 & H4). split; [|split; [|split]]; auto. intros X. rewrite E, E' in X. discriminate X.
Qed.

Lemma sf_ops_fit : ops_fit (sf_ops b SS s C) (sf_ops b' TT s C) sf_rel.
Proof.
  constructor; cbn [ox o_clauses o_push_frame o_add_clause o_bad_in_0 o_bad_in_1 o_bad_from_fi
    o_reach_from_fi o_propagate_query o_not_s_and_s_tag o_clause_inductive o_get_fk o_loop_check
    sf_ops].
  - intros x y H. apply H.
  - intros x y H. unfold sf_push_frame. eapply fits_bind_eq; [apply fit_same_lengths; auto|]. intros.
    destruct H as (H1 & H2 & H3 & H4).
    assert (E : match sf_fi_t x with [] => true | _ => false end =
                match sf_fi_t y with [] => true | _ => false end) by (destruct H2; auto).
    rewrite E. cbv zeta.
    eapply fits_bind; [apply fit_add_cnfs; apply (sim_new _ _ _ SF)|]. intros.
    eapply fits_bind; [apply fit_add_cnfs; apply (sim_new _ _ _ SF)|]. intros.
    constructor. split; [|split; [|split]]; cbn [fst snd sf_clauses sf_fi_t sf_initial sf_fi_t_notp]; auto with fits.
    rewrite H1; auto.
  - intros x y H j c. unfold sf_add_clause. eapply fits_bind_eq; [apply fit_same_lengths; auto|]. intros.
    destruct H as (H1 & H2 & H3 & H4). rewrite H1. fit_step. cbv zeta. fit_step.
    eapply fits_bind; [apply (sim_add _ _ _ SF); eauto|]. intros. fit_step.
    eapply fits_bind; [apply (sim_add _ _ _ SF); eauto|]. intros.
    constructor. split; [|split; [|split]]; cbn [fst snd sf_clauses sf_fi_t sf_initial sf_fi_t_notp]; auto with fits.
  - intros. apply fit_custom; auto.
  - intros. apply fit_custom; auto.
  - intros. apply fit_solve_fi_t_notp; auto.
  - intros. unfold sf_reach_from_fi. fit_step. apply fit_solve_fi_t; auto.
  - intros. unfold sf_propagate_query, sf_reach_from_fi. fit_step. apply fit_solve_fi_t; auto.
  - intros. unfold sf_not_s_and_s_tag. fit_step.
    eapply fits_bind; [apply fit_solve_fi_t; eauto|]. intros; fit_pairs; cbv beta iota.
    same_sat. constructor; split; auto.
  - intros x y H c k. unfold sf_clause_inductive, sf_clause_and_not_clause_tag. fit_step.
    + eapply fits_bind; [apply fit_debug_check; eauto|]. intros. constructor; split; auto.
    + eapply fits_bind; [apply fit_debug_check; eauto|]. intros.
      eapply fits_bind with (r := with_result sf_rel).
      * fit_step. eapply fits_bind; [apply fit_solve_fi_t; eauto|]. intros; fit_pairs; cbv beta iota.
        same_sat. constructor; split; auto.
      * intros; fit_pairs; cbv beta iota. constructor; split; auto.
  - intros x y (H & _) k. unfold sf_get_fk. rewrite H. apply fits_refl.
  - intros x y (H & _). unfold sf_loop_check. rewrite H. fit_step. auto with fits.
Qed.

Lemma fit_sf_new : fits sf_rel (sf_new SS C) (sf_new TT C).
Proof.
  unfold sf_new. eapply fits_bind; [apply (sim_add _ _ _ SF); apply (sim_new _ _ _ SF)|].
  intros. constructor. split; [|split; [|split]]; cbn [fst snd sf_clauses sf_fi_t sf_initial sf_fi_t_notp]; auto.
Qed.

End Stateful.

Theorem ic3_stateful_fits R SS TT r fuel s :
  solver_fits SS TT r -> fits eq (stateful_plain b R SS fuel s) (stateful_plain b' R TT fuel s).
Proof.
  intros SF. unfold stateful_plain. fit_step.
  eapply fits_bind; [apply (fit_sf_new SS TT r SF)|]. intros.
  eapply fits_bind; [apply (fit_ic3_prove R _ _ _ (sf_ops_fit SS TT r SF s _)); split; auto|].
  intros; fit_pairs; cbv beta iota. constructor; auto.
Qed.

Theorem ic3_stateful_twice_fits R SS TT r fuel s :
  solver_fits SS TT r ->
  fits eq (stateful_twice_plain b R SS fuel s) (stateful_twice_plain b' R TT fuel s).
Proof.
  intros SF. unfold stateful_twice_plain. fit_step.
  eapply fits_bind; [apply (fit_sf_new SS TT r SF)|]. intros.
  eapply fits_bind; [apply (fit_ic3_prove R _ _ _ (sf_ops_fit SS TT r SF s _)); split; auto|].
  intros; fit_pairs; cbv beta iota.
  eapply fits_bind; [apply (fit_ic3_prove R _ _ _ (sf_ops_fit SS TT r SF s _)); eassumption|].
  intros; fit_pairs; cbv beta iota. constructor; auto.
Qed.

(* ------------------------------------------------------------------------- PDR *)

Section Pdr.
Variable (R : Random) (SS TT : StatefulSolver) (r : ss_state SS -> ss_state TT -> Prop).
Hypothesis SF : solver_fits SS TT r.
Variable s : FSTS.

Record pdr_rel (x : PdrState SS) (y : PdrState TT) : Prop := {
  pr_f : pdr_f x = pdr_f y;
  pr_notp : Forall2 r (pdr_notp x) (pdr_notp y);
  pr_ri : Forall2 r (pdr_ri x) (pdr_ri y);
  pr_rit : Forall2 r (pdr_rit x) (pdr_rit y);
  pr_cut_pred : pdr_cut_pred x = pdr_cut_pred y;
  pr_cut_bad : pdr_cut_bad x = pdr_cut_bad y;
  pr_draws : pdr_draws x = pdr_draws y }.

Ltac rel :=
  constructor; cbn [fst snd with_f with_notp with_ri with_rit with_cut_pred with_cut_bad with_draws counted
    pdr_f pdr_notp pdr_ri pdr_rit pdr_cut_pred pdr_cut_bad pdr_draws]; auto with fits;
    try congruence.
Ltac res_ := constructor; split; cbn [fst snd]; auto.

Lemma fit_depth x y : pdr_rel x y -> pdr_depth SS x = pdr_depth TT y.
Proof. intros H. unfold pdr_depth. rewrite (pr_f _ _ H). auto. Qed.

Lemma fit_bad_cube x y : pdr_rel x y ->
  fits (with_result pdr_rel) (z_get_bad_cube b SS s x) (z_get_bad_cube b' TT s y).
Proof.
  intros H. unfold z_get_bad_cube. rewrite (fit_depth x y H). destruct H. fit_step.
  fit_step. eapply fits_bind; [apply (sim_solve _ _ _ SF); eauto|].
  intros; fit_pairs; cbv beta iota zeta. fit_step; [res_; rel|].
  fit_step. cbn [pdr_cut_bad with_notp counted]. rewrite pr_cut_bad0.
  destruct (pdr_cut_bad y) eqn:E; [|res_; rel].
  fit_step. res_. rel.
Qed.

Lemma fit_z_is_blocked t x y : pdr_rel x y ->
  fits (with_result pdr_rel) (z_is_blocked SS t x) (z_is_blocked TT t y).
Proof.
  intros H. unfold z_is_blocked. fit_step; try constructor. destruct H.
  fit_step. eapply fits_bind; [apply (sim_solve _ _ _ SF); eauto|].
  intros; fit_pairs; cbv beta iota zeta. same_sat. res_. rel.
Qed.

Lemma fit_solve_relative t p x y : pdr_rel x y ->
  fits (with_result pdr_rel) (z_solve_relative b SS s t p x) (z_solve_relative b' TT s t p y).
Proof.
  intros H. unfold z_solve_relative. fit_step; try constructor. destruct H.
  rewrite (all_length _ _ _ pr_rit0). fit_step. fit_step. cbv zeta. fit_step. fit_step.
  eapply fits_bind with (r := answered r).
  { destruct p; apply (sim_solve _ _ _ SF); auto. }
  intros; fit_pairs; cbv beta iota zeta. fit_step; [res_; rel|].
  fit_step; try (res_; rel). fit_step. cbn [pdr_cut_pred with_rit counted]. rewrite pr_cut_pred0.
  destruct (pdr_cut_pred y) eqn:E; [|res_; rel]. fit_step. res_. rel.
Qed.

Lemma fit_add_to_solvers f x y i : pdr_rel x y ->
  fits pdr_rel (add_to_solvers SS f x i) (add_to_solvers TT f y i).
Proof.
  intros []. unfold add_to_solvers. fit_step.
  eapply fits_bind; [apply (sim_add _ _ _ SF); eauto|]. intros. cbn [pdr_notp with_ri]. fit_step.
  eapply fits_bind; [apply (sim_add _ _ _ SF); eauto|]. intros. cbn [pdr_rit with_ri with_notp]. fit_step.
  eapply fits_bind; [apply (sim_add _ _ _ SF); eauto|]. intros. constructor. rel.
Qed.

Lemma fit_solver_lengths l x y : pdr_rel x y ->
  fits eq (solver_lengths b SS l x) (solver_lengths b' TT l y).
Proof.
  intros []. unfold solver_lengths.
  rewrite (all_length _ _ _ pr_notp0), (all_length _ _ _ pr_ri0), (all_length _ _ _ pr_rit0), pr_f0.
  repeat (fit_step; try solve [auto with fits]).
Qed.

Lemma fit_block_cube_in_solver t x y : pdr_rel x y ->
  fits pdr_rel (z_block_cube_in_solver b SS t x) (z_block_cube_in_solver b' TT t y).
Proof.
  intros H. unfold z_block_cube_in_solver. eapply fits_bind_eq; [apply fit_solver_lengths; auto|]. intros.
  cbv zeta. rewrite (all_length _ _ _ (pr_ri _ _ H)).
  destruct (t_frame t); [constructor| |].
  - apply fits_foldM; auto. intros. apply fit_add_to_solvers; auto.
  - fit_step. apply fits_foldM; auto. intros. apply fit_add_to_solvers; auto.
Qed.

Lemma fit_solver_with f : fits r (solver_with SS f) (solver_with TT f).
Proof. apply (sim_add _ _ _ SF). apply (sim_new _ _ _ SF). Qed.

Lemma fit_z_new_frame x y : pdr_rel x y ->
  fits pdr_rel (z_new_frame b SS s x) (z_new_frame b' TT s y).
Proof.
  intros H. unfold z_new_frame. eapply fits_bind_eq; [apply fit_solver_lengths; auto|]. intros.
  eapply fits_bind with (r := pdr_rel).
  - pose proof (sim_new _ _ _ SF HintNone) as Hn.
    destruct H; generalize pr_notp0; generalize (pdr_notp y); generalize (pdr_notp x);
    intros u v [|u1 v1 u2 v2 Huv Huv2];
    (eapply fits_bind; [apply fit_solver_with|]; intros);
    [eapply fits_bind; [apply fit_solver_with|]; intros|];
    (eapply fits_bind; [apply fit_solver_with|]; intros); constructor; rel.
  - intros x1 y1 H1. eapply fits_bind_eq; [apply fit_solver_lengths; auto|]. intros. constructor; auto.
Qed.

Lemma fit_new_frame x y : pdr_rel x y ->
  fits pdr_rel (new_frame b SS s x) (new_frame b' TT s y).
Proof.
  intros H. unfold new_frame. rewrite (pr_f _ _ H). fit_step. fit_step.
  apply fit_z_new_frame. destruct H; rel.
Qed.

Lemma fit_add_blocked_cube t x y : pdr_rel x y ->
  fits pdr_rel (add_blocked_cube b SS t x) (add_blocked_cube b' TT t y).
Proof.
  intros H. unfold add_blocked_cube. fit_step; try constructor.
  rewrite (fit_depth x y H), (pr_f _ _ H). fit_step. cbv zeta. fit_step. fit_step.
  apply fit_block_cube_in_solver. destruct H; rel.
Qed.

Lemma fit_is_blocked t x y : pdr_rel x y ->
  fits (with_result pdr_rel) (is_blocked SS t x) (is_blocked TT t y).
Proof.
  intros H. unfold is_blocked. fit_step; try constructor.
  rewrite (pr_f _ _ H). fit_step; [res_|]. apply fit_z_is_blocked; auto.
Qed.

Lemma fit_pdr_generalize_loop fuel : forall fr ls j x y, pdr_rel x y ->
  fits (with_result pdr_rel) (pdr_generalize_loop b SS s fuel fr ls j x)
    (pdr_generalize_loop b' TT s fuel fr ls j y).
Proof.
  induction fuel as [|fuel IH]; intros fr ls j x y H; cbn [pdr_generalize_loop];
    (destruct (j <? length ls); [|res_]); [constructor|].
  apply fits_bind_same. intros [removed shorter]. cbv zeta.
  eapply fits_bind with (r := with_result pdr_rel).
  - fit_step; [res_|]. eapply fits_bind; [apply fit_solve_relative; eauto|].
    intros; fit_pairs; cbv beta iota. res_.
  - intros; fit_pairs; cbv beta iota. fit_step; auto. fit_step; auto.
Qed.

Lemma fit_pdr_generalize t x y : pdr_rel x y ->
  fits (with_result pdr_rel) (pdr_generalize b R SS s t x) (pdr_generalize b' R TT s t y).
Proof.
  intros H. unfold pdr_generalize. cbv zeta. rewrite (pr_draws _ _ H).
  eapply fits_bind; [apply fit_pdr_generalize_loop; destruct H; rel|].
  intros; fit_pairs; cbv beta iota. res_.
Qed.

Lemma fit_propagate_cubes fuel : forall k i x y, pdr_rel x y ->
  fits pdr_rel (propagate_cubes b SS s fuel k i x) (propagate_cubes b' TT s fuel k i y).
Proof.
  induction fuel as [|fuel IH]; intros k i x y H; cbn [propagate_cubes];
    rewrite (pr_f _ _ H); fit_step; (fit_step; [|constructor; auto]); [constructor|].
  fit_step. eapply fits_bind; [apply fit_solve_relative; eauto|].
  intros; fit_pairs; cbv beta iota. fit_step; auto.
  eapply fits_bind; [apply fit_add_blocked_cube; eauto|]. intros; auto.
Qed.

Lemma fit_propagate_frames frames : forall x y, pdr_rel x y ->
  fits (with_result pdr_rel) (propagate_frames b SS s frames x) (propagate_frames b' TT s frames y).
Proof.
  induction frames as [|k rest IH]; intros x y H; cbn [propagate_frames]; [res_|].
  rewrite (pr_f _ _ H). fit_step. eapply fits_bind; [apply fit_propagate_cubes; eauto|].
  intros x1 y1 H1. rewrite (pr_f _ _ H1). fit_step. fit_step; auto. res_.
Qed.

Lemma fit_propagate_blocked_cubes x y : pdr_rel x y ->
  fits (with_result pdr_rel) (propagate_blocked_cubes b SS s x) (propagate_blocked_cubes b' TT s y).
Proof.
  intros H. unfold propagate_blocked_cubes. rewrite (fit_depth x y H). fit_step.
  apply fit_propagate_frames; auto.
Qed.

Lemma fit_get_r_i x y i : pdr_rel x y -> get_r_i SS s x i = get_r_i TT s y i.
Proof. intros H. unfold get_r_i. rewrite (pr_f _ _ H). auto. Qed.

Lemma fit_push_forward fuel : forall bound z fr x y, pdr_rel x y ->
  fits (with_result pdr_rel) (push_forward b SS s fuel bound z fr x)
    (push_forward b' TT s fuel bound z fr y).
Proof.
  induction fuel as [|fuel IH]; intros bound z fr x y H; cbn [push_forward];
    (fit_step; [|res_]); [constructor|].
  fit_step. eapply fits_bind; [apply fit_solve_relative; eauto|].
  intros; fit_pairs; cbv beta iota. fit_step; [|res_]. fit_step; try constructor. auto.
Qed.

Lemma fit_rec_block_loop fuel : forall q x y, pdr_rel x y ->
  fits (with_result pdr_rel) (rec_block_loop b R SS s fuel q x) (rec_block_loop b' R TT s fuel q y).
Proof.
  induction fuel as [|fuel IH]; intros q x y H; destruct q as [|e q]; cbn [rec_block_loop];
    [res_|constructor|res_|].
  cbv zeta. rewrite (pr_draws _ _ H).
  set (x1 := with_draws SS x _). set (y1 := with_draws TT y _).
  assert (H1 : pdr_rel x1 y1) by (destruct H; rel). clearbody x1 y1.
  apply fits_bind_same. intros [[t n] q'].
  destruct (t_frame t) as [| |[|fr]]; try constructor; [split; auto|].
  eapply fits_bind; [apply fit_is_blocked; eauto|].
  intros; fit_pairs; cbv beta iota. fit_step; auto. fit_step.
  eapply fits_bind; [apply fit_solve_relative; eauto|].
  intros; fit_pairs; cbv beta iota. fit_step; auto.
  eapply fits_bind; [apply fit_pdr_generalize; eauto|].
  intros; fit_pairs; cbv beta iota. fit_step; try constructor.
  match goal with H : pdr_rel ?x _ |- fits _ (bind (pdr_depth _ ?x) _) _ =>
    rewrite (fit_depth _ _ H) end. fit_step. fit_step.
  eapply fits_bind; [apply fit_push_forward; eauto|].
  intros; fit_pairs; cbv beta iota.
  eapply fits_bind; [apply fit_add_blocked_cube; eauto|].
  intros. fit_step; auto. fit_step; auto.
Qed.

Lemma fit_rec_block_cube fuel t x y : pdr_rel x y ->
  fits (with_result pdr_rel) (rec_block_cube b R SS s fuel t x) (rec_block_cube b' R TT s fuel t y).
Proof.
  intros H. unfold rec_block_cube. fit_step; try constructor. apply fit_rec_block_loop; auto.
Qed.

Lemma fit_pdr_loop inner outer : forall x y, pdr_rel x y ->
  fits (with_result pdr_rel) (pdr_loop b R SS s inner outer x) (pdr_loop b' R TT s inner outer y).
Proof.
  induction outer as [|outer IH]; intros x y H; cbn [pdr_loop]; [constructor|].
  eapply fits_bind; [apply fit_bad_cube; eauto|].
  intros; fit_pairs; cbv beta iota. fit_step.
  - match goal with H : pdr_rel ?x _ |- fits _ (bind (pdr_depth _ ?x) _) _ =>
      rewrite (fit_depth _ _ H) end. fit_step.
    eapply fits_bind; [apply fit_rec_block_cube; eauto|].
    intros; fit_pairs; cbv beta iota. fit_step; auto.
    match goal with H : pdr_rel ?x _ |- fits _ (bind (pdr_depth _ ?x) _) _ =>
      rewrite (fit_depth _ _ H) end. fit_step. fit_step. res_.
  - eapply fits_bind; [apply fit_new_frame; eauto|]. intros.
    eapply fits_bind; [apply fit_propagate_blocked_cubes; eauto|].
    intros; fit_pairs; cbv beta iota. fit_step; auto.
    match goal with H : pdr_rel ?x _ |- fits _ (bind (get_r_i _ _ ?x _) _) _ =>
      rewrite (fit_get_r_i _ _ _ H) end. fit_step. res_.
Qed.

Lemma fit_pdr_prove fuel x y : pdr_rel x y ->
  fits (with_result pdr_rel) (pdr_prove b R SS s fuel x) (pdr_prove b' R TT s fuel y).
Proof.
  intros H. unfold pdr_prove. cbv zeta.
  eapply fits_bind; [apply fit_new_frame|intros; apply fit_pdr_loop; auto].
  destruct H; rel.
Qed.

Lemma pdr_new_rel : pdr_rel (pdr_new SS) (pdr_new TT).
Proof. unfold pdr_new. rel. Qed.

End Pdr.

Theorem pdr_fits R SS TT r fuel s :
  solver_fits SS TT r -> fits eq (pdr_plain b R SS fuel s) (pdr_plain b' R TT fuel s).
Proof.
  intros SF. unfold pdr_plain.
  eapply fits_bind; [apply (fit_pdr_prove R SS TT r SF); apply pdr_new_rel|].
  intros; fit_pairs; cbv beta iota. constructor; auto.
Qed.

Theorem pdr_twice_fits R SS TT r fuel s :
  solver_fits SS TT r -> fits eq (pdr_twice_plain b R SS fuel s) (pdr_twice_plain b' R TT fuel s).
Proof.
  intros SF. unfold pdr_twice_plain.
  eapply fits_bind; [apply (fit_pdr_prove R SS TT r SF); apply pdr_new_rel|].
  intros; fit_pairs; cbv beta iota.
  eapply fits_bind; [apply (fit_pdr_prove R SS TT r SF); eassumption|].
  intros; fit_pairs; cbv beta iota. constructor; auto.
Qed.

End Replace.

(* ------------------------------------------------------------------ the rescue *)

(** Not part of the modelled code: give the value false to the variables up to [m] without a
    value. *)
Definition complete (m : N) (asg : Assignment) : Assignment :=
  mkAssignment (true_variables asg) (false_variables asg ++ map N.of_nat (seq 0 (S (N.to_nat m)))).
Definition complete_response (m : N) (a : SatResponse) : SatResponse :=
  match a with UnSat => UnSat | Sat asg => Sat (complete m asg) end.

Lemma complete_extends m asg : extends asg (complete m asg).
Proof.
  intros v [|]; rewrite ?get_value_true, ?get_value_false; cbn [complete true_variables false_variables];
    rewrite ?in_app_iff; intuition.
Qed.
Lemma complete_fits m a : response_fits a (complete_response m a).
Proof. destruct a; constructor. apply complete_extends. Qed.

Lemma complete_defined m asg : defined_upto (complete m asg) m.
Proof.
  intros v H. rewrite get_value_none. cbn [complete true_variables false_variables].
  rewrite in_app_iff. intros [_ X]. apply X. right. apply in_map_iff. exists (N.to_nat v).
  split; [apply N2Nat.id|]. apply in_seq. lia.
Qed.

Lemma complete_satisfies m asg cs : satisfies_clauses asg cs -> satisfies_clauses (complete m asg) cs.
Proof. intros H a Ha. apply H. intros v x E. apply Ha, complete_extends, E. Qed.

(** Not part of the modelled code: a solver that answers by brute force where [T] panics. *)
Definition rescue_stateless (T : StatelessSolver) : StatelessSolver := fun n f =>
  match T n f with
  | Ok a => Ok (complete_response (cnf_max f) a)
  | Panic => brute n f
  | OutOfFuel => OutOfFuel
  end.

Lemma rescue_stateless_fits T n f : fits False response_fits (T n f) (rescue_stateless T n f).
Proof. unfold rescue_stateless. destruct (T n f); constructor. apply complete_fits. Qed.

Theorem rescue_stateless_correct m T : solver_sound_below m T ->
  solver_correct_below m (rescue_stateless T) /\ solver_total_below m (rescue_stateless T).
Proof.
  intros H. split.
  - intros n f Ha Hl Hm. specialize (H n f Ha Hl Hm). unfold rescue_stateless.
    destruct (T n f) as [[|asg]| |]; cbn [complete_response]; auto.
    + left. exists (complete (cnf_max f) asg). split; [reflexivity|]. apply complete_satisfies. exact H.
    + apply brute_correct; auto.
    + contradiction.
  - intros n f asg Ha Hl Hm. specialize (H n f Ha Hl Hm). unfold rescue_stateless.
    destruct (T n f) as [[|asg']| |]; cbn [complete_response]; intros E; try discriminate E.
    + inv E. apply complete_defined.
    + apply (brute_total n f asg); auto.
Qed.

(** Not part of the modelled code: a solver that runs [SS] for as long as it does not panic
    and then goes on by brute force over the clauses it was given. *)
Definition rescue_add (SS : StatefulSolver) (st : CNF * option (ss_state SS)) (f : CNF)
  : res (CNF * option (ss_state SS)) :=
  match snd st with
  | None => Ok (cnf_append (fst st) f, None)
  | Some x => match ss_add_cnf SS x f with
              | Ok x' => Ok (cnf_append (fst st) f, Some x')
              | Panic => Ok (cnf_append (fst st) f, None)
              | OutOfFuel => OutOfFuel
              end
  end.

Definition rescue_solve (SS : StatefulSolver) (st : CNF * option (ss_state SS))
  (cube : option Cube) (clause : option Clause)
  : res (SatResponse * (CNF * option (ss_state SS))) :=
  let fallback := '(a, f) <- ss_solve brute_stateful (fst st) cube clause ;; Ok (a, (f, None)) in
  match snd st with
  | None => fallback
  | Some x => match ss_solve SS x cube clause with
              | Ok (a, x') =>
                  Ok (complete_response (max_var (cnf_clauses (fst st) ++ temp_clauses cube clause)) a,
                      (fst st, Some x'))
              | Panic => fallback
              | OutOfFuel => OutOfFuel
              end
  end.

Definition rescue (SS : StatefulSolver) : StatefulSolver :=
  mkStatefulSolver (CNF * option (ss_state SS)) (fun h => (cnf_new, Some (ss_new SS h)))
    (rescue_add SS) (rescue_solve SS).

Lemma rescue_fits SS : solver_fits False SS (rescue SS) (fun x y => snd y = Some x).
Proof.
  constructor.
  - reflexivity.
  - intros x y f H. cbn [ss_add_cnf rescue ss_state]. unfold rescue_add. rewrite H.
    destruct (ss_add_cnf SS x f); constructor. auto.
  - intros x y q c H. cbn [ss_solve rescue ss_state]. unfold rescue_solve. rewrite H.
    destruct (ss_solve SS x q c) as [[a x']| |]; constructor. split; auto. apply complete_fits.
Qed.

Lemma rescue_reaches SS st cs :
  reaches (rescue SS) st cs ->
  reaches brute_stateful (fst st) cs /\ (forall x, snd st = Some x -> reaches SS x cs).
Proof.
  induction 1 as [h|st cs f st' H [IH1 IH2] Ha Hl E|st cs q c a st' H [IH1 IH2] Hq Hc E].
  - split; [apply (reaches_new brute_stateful h)|]. intros x X. inv X. apply reaches_new.
  - cbn [ss_add_cnf rescue] in E. unfold rescue_add in E.
    assert (B : reaches brute_stateful (cnf_append (fst st) f) (cs ++ cnf_clauses f))
      by (eapply (reaches_add brute_stateful); eauto; reflexivity).
    destruct (snd st) as [x|] eqn:Ex.
    + destruct (ss_add_cnf SS x f) as [x'| |] eqn:Ea; inv E; cbn [fst snd]; split; auto;
        intros y Y; inv Y. eapply reaches_add; eauto.
    + inv E. cbn [fst snd]. split; auto. discriminate.
  - cbn [ss_solve rescue] in E. unfold rescue_solve in E.
    assert (F : forall a' f', ss_solve brute_stateful (fst st) q c = Ok (a', f') ->
                reaches brute_stateful f' cs) by (intros; eapply (reaches_solve brute_stateful); eauto).
    assert (G : forall r', ('(a, f) <- ss_solve brute_stateful (fst st) q c ;;
                  Ok (a, (f, @None (ss_state SS)))) = Ok r' ->
                reaches brute_stateful (fst (snd r')) cs /\ snd (snd r') = None).
    { intros r' X. apply bind_ok in X as ([a' f'] & X1 & X2). inv X2. cbn [fst snd]. split; eauto. }
    destruct (snd st) as [x|] eqn:Ex.
    + destruct (ss_solve SS x q c) as [[a' x']| |] eqn:Ea.
      * inv E. cbn [fst snd]. split; auto. intros y Y. inv Y. eapply reaches_solve; eauto.
      * apply G in E as [E1 E2]. cbn [fst snd] in *. split; [exact E1|intros y Y; discriminate (eq_trans (eq_sym E2) Y)]. 
      * discriminate.
    + apply G in E as [E1 E2]. cbn [fst snd] in *. split; [exact E1|intros y Y; discriminate (eq_trans (eq_sym E2) Y)].
Qed.

Theorem rescue_correct SS : stateful_sound SS -> stateful_correct (rescue SS).
Proof.
  intros S st cs H. apply rescue_reaches in H as [Hb Hs].
  assert (M : forall q c, max_var (cnf_clauses (fst st) ++ temp_clauses q c) = max_var (cs ++ temp_clauses q c)).
  { intros. apply max_var_same. intros d. rewrite !in_app_iff.
    rewrite (proj2 (proj2 (brute_reaches _ _ Hb)) d). reflexivity. }
  destruct (brute_stateful_correct _ _ Hb) as [Ba Bs]. split.
  - intros f Ha Hl. cbn [ss_add_cnf rescue]. unfold rescue_add.
    destruct (snd st) as [x|] eqn:Ex; [|eauto].
    destruct (S _ _ (Hs x eq_refl)) as [Sa _]. specialize (Sa f Ha Hl).
    destruct (ss_add_cnf SS x f); eauto. contradiction.
  - intros q c Hq Hc all. cbn [ss_solve rescue]. unfold rescue_solve. cbv zeta.
    assert (F : (exists asg st', ('(a, f) <- ss_solve brute_stateful (fst st) q c ;;
                   Ok (a, (f, @None (ss_state SS)))) = Ok (Sat asg, st') /\
                   satisfies_clauses asg all /\ defined_upto asg (max_var all)) \/
                (exists st', ('(a, f) <- ss_solve brute_stateful (fst st) q c ;;
                   Ok (a, (f, @None (ss_state SS)))) = Ok (UnSat, st') /\ ~ satisfiable all)).
    { destruct (Bs q c Hq Hc) as [(asg & st' & E & X & Y)|(st' & E & X)]; [left|right];
        rewrite E; cbn [bind]; eauto 6. }
    destruct (snd st) as [x|] eqn:Ex; [|exact F].
    destruct (S _ _ (Hs x eq_refl)) as [_ Ss]. specialize (Ss q c Hq Hc). cbv zeta in Ss.
    destruct (ss_solve SS x q c) as [[[|asg] x']| |].
    + right. eauto.
    + left. cbn [complete_response]. do 2 eexists. split; [reflexivity|].
      rewrite M. split; [apply complete_satisfies; exact Ss|apply complete_defined].
    + exact F.
    + contradiction.
Qed.
