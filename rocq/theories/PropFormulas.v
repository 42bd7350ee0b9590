(** Properties C01 - C10: literals, clauses, cubes, CNFs, assignments, formula queries. *)
From Coq Require Import Sorted.
From Verif Require Import Base Formulas FormulaLogic Solvers Brute Spec SpecText
  FormulasFacts TextFacts LogicFacts BruteFacts FormulaThms RescueThms.
Open Scope N_scope.

(* ------------------------------------------------------------------------ C01 *)

(** The code of a literal is determined by, and determines, number and polarity. *)
Theorem C01_literal_code :
  forall l, get_number l = lit_var l /\ is_negated l = lit_neg l.
Proof. exact literal_code. Qed.
Print Assumptions C01_literal_code.

Theorem C01_literal_roundtrip :
  forall b n, 1 <= n <= 2147483647 ->
  exists l, literal_new b n = Ok l /\ get_number l = n /\ is_negated l = false /\ lit_legal l.
Proof. exact literal_roundtrip. Qed.
Print Assumptions C01_literal_roundtrip.

Example C01_literal_roundtrip_case :
  literal_new Debug 2147483647 = Ok 4294967294 /\ get_number 4294967294 = 2147483647.
Proof. split; reflexivity. Qed.

Theorem C01_literal_negation :
  forall l,
  get_number (literal_not l) = get_number l /\
  is_negated (literal_not l) = negb (is_negated l) /\
  literal_not (literal_not l) = l /\
  forall b, get_number (negate_if_true l b) = get_number l /\
            is_negated (negate_if_true l b) = xorb (is_negated l) b.
Proof. exact literal_negation. Qed.
Print Assumptions C01_literal_negation.

Theorem C01_literal_equal :
  forall l l', l = l' <-> get_number l = get_number l' /\ is_negated l = is_negated l'.
Proof. exact literal_equal. Qed.
Print Assumptions C01_literal_equal.

Theorem C01_literal_debug_rejects :
  forall n, n = 0 \/ 2147483647 < n -> literal_new Debug n = Panic.
Proof. exact literal_debug_rejects. Qed.
Print Assumptions C01_literal_debug_rejects.

Theorem C01_literal_release_alias :
  forall n m, n < 4294967296 -> m < 4294967296 ->
  (exists l, literal_new Release n = Ok l) /\
  (literal_new Release n = literal_new Release m <-> n mod 2147483648 = m mod 2147483648).
Proof. exact literal_release_alias. Qed.
Print Assumptions C01_literal_release_alias.

Example C01_literal_release_alias_case :
  literal_new Release 5 = Ok 10 /\ literal_new Release 2147483653 = Ok 10.
Proof. split; reflexivity. Qed.

(* ------------------------------------------------------------------------ C02 *)

Theorem C02_clause_equality :
  forall l1 l2, clause_eqb (clause_new l1) (clause_new l2) = true <-> Permutation l1 l2.
Proof. exact clause_eqb_new. Qed.
Print Assumptions C02_clause_equality.

Theorem C02_cube_equality :
  forall l1 l2, cube_eqb (cube_new l1) (cube_new l2) = true <-> Permutation l1 l2.
Proof. exact cube_eqb_new. Qed.
Print Assumptions C02_cube_equality.

Theorem C02_clause_observers :
  forall ls,
  Permutation (clause_iter (clause_new ls)) ls /\
  StronglySorted N.le (clause_iter (clause_new ls)) /\
  clause_len (clause_new ls) = N.of_nat (length ls) /\
  (clause_is_empty (clause_new ls) = true <-> ls = []).
Proof. exact clause_observers. Qed.
Print Assumptions C02_clause_observers.

Theorem C02_cube_observers :
  forall ls,
  Permutation (cube_iter (cube_new ls)) ls /\
  StronglySorted N.le (cube_iter (cube_new ls)) /\
  cube_len (cube_new ls) = N.of_nat (length ls) /\
  (cube_is_empty (cube_new ls) = true <-> ls = []).
Proof. exact cube_observers. Qed.
Print Assumptions C02_cube_observers.

Theorem C02_clause_highest :
  forall ls,
  (forall l, In l ls -> get_number l <= clause_highest (clause_new ls)) /\
  (clause_highest (clause_new ls) = 0 \/
   exists l, In l ls /\ clause_highest (clause_new ls) = get_number l).
Proof. exact clause_highest_spec. Qed.
Print Assumptions C02_clause_highest.

Example C02_case :
  clause_eqb (clause_new [7; 2; 4; 2]) (clause_new [2; 2; 7; 4]) = true /\
  clause_eqb (clause_new [7; 2; 4; 2]) (clause_new [2; 7; 4]) = false /\
  clause_iter (clause_new [7; 2; 4; 2]) = [2; 2; 4; 7] /\
  clause_highest (clause_new [7; 2; 4; 2]) = 3.
Proof. repeat split. Qed.

(* ------------------------------------------------------------------------ C03 *)

Theorem C03_clause_negation :
  forall a c, cube_true a (clause_not c) <-> ~ clause_true a c.
Proof. exact clause_not_true. Qed.
Print Assumptions C03_clause_negation.

Theorem C03_cube_negation :
  forall a q, clause_true a (cube_not q) <-> ~ cube_true a q.
Proof. exact cube_not_true. Qed.
Print Assumptions C03_cube_negation.

Theorem C03_clause_double_negation :
  forall c, api_clause c -> cube_not (clause_not c) = c.
Proof. exact clause_not_not. Qed.
Print Assumptions C03_clause_double_negation.

Theorem C03_cube_double_negation :
  forall q, api_cube q -> clause_not (cube_not q) = q.
Proof. exact cube_not_not. Qed.
Print Assumptions C03_cube_double_negation.

Example C03_case :
  api_clause (clause_new [3; 4]) /\ api_cube (cube_new [2; 5]) /\
  clause_not (clause_new [3; 4]) = cube_new [2; 5] /\ cube_not (cube_new [2; 5]) = clause_new [4; 3].
Proof. split; [eexists; reflexivity|]. split; [eexists; reflexivity|]. split; reflexivity. Qed.

(* ------------------------------------------------------------------------ C04 *)

Theorem C04_contains :
  forall h ls,
  cnf_contains (run_history h) (clause_new ls) = true <->
  exists ls', In ls' (added h) /\ Permutation ls ls'.
Proof. exact history_contains. Qed.
Print Assumptions C04_contains.

(** [D]: one representative of each distinct clause added. *)
Theorem C04_len :
  forall h, exists D : list (list N),
    (forall d, In d D -> In d (added h)) /\
    (forall ls, In ls (added h) -> exists d, In d D /\ Permutation ls d) /\
    ForallOrdPairs (fun d d' => ~ Permutation d d') D /\
    cnf_len (run_history h) = N.of_nat (length D).
Proof. exact history_len. Qed.
Print Assumptions C04_len.

Theorem C04_max_variable :
  forall h,
  (forall ls l, In ls (added h) -> In l ls -> get_number l <= cnf_get_max (run_history h)) /\
  (cnf_get_max (run_history h) = 0 \/
   exists ls l, In ls (added h) /\ In l ls /\ cnf_get_max (run_history h) = get_number l).
Proof. exact history_max. Qed.
Print Assumptions C04_max_variable.

Theorem C04_equality :
  forall h h',
  (cnf_eqb (run_history h) (run_history h') = true <->
   forall ls, cnf_contains (run_history h) (clause_new ls) =
              cnf_contains (run_history h') (clause_new ls)) /\
  (cnf_eqb (run_history h) (run_history h') = true ->
   cnf_len (run_history h) = cnf_len (run_history h') /\
   cnf_get_max (run_history h) = cnf_get_max (run_history h')).
Proof. exact history_eq. Qed.
Print Assumptions C04_equality.

Theorem C04_is_empty :
  forall h, cnf_is_empty (run_history h) = true <-> added h = [].
Proof. exact history_empty. Qed.
Print Assumptions C04_is_empty.

Example C04_case :
  let h1 := H_append (H_add H_new [2; 5]) (H_add (H_add H_new [5; 2]) [9]) in
  let h2 := H_add (H_add H_new [9]) [5; 2] in
  cnf_len (run_history h1) = 2 /\ cnf_get_max (run_history h1) = 4 /\
  cnf_eqb (run_history h1) (run_history h2) = true /\
  cnf_eqb (run_history h1) (run_history (H_add h2 [])) = false.
Proof. repeat split. Qed.

(* ------------------------------------------------------------------------ C05 *)

Theorem C05_clause_to_cnf :
  forall a c, cnf_true a (clause_to_cnf c) <-> clause_true a c.
Proof. exact clause_to_cnf_true. Qed.
Print Assumptions C05_clause_to_cnf.

Theorem C05_cube_to_cnf :
  forall a q, cnf_true a (cube_to_cnf q) <-> cube_true a q.
Proof. exact cube_to_cnf_true. Qed.
Print Assumptions C05_cube_to_cnf.

Theorem C05_append_is_and :
  forall a f g, cnf_true a (cnf_append f g) <-> cnf_true a f /\ cnf_true a g.
Proof. exact cnf_append_true. Qed.
Print Assumptions C05_append_is_and.

Example C05_case :
  cnf_clauses (cube_to_cnf (cube_new [5; 2])) = [clause_new [2]; clause_new [5]].
Proof. reflexivity. Qed.

(* ------------------------------------------------------------------------ C06 *)

Theorem C06_display_order_independent :
  forall o1 o2 f, order_ok o1 -> order_ok o2 -> cnf_display o1 f = cnf_display o2 f.
Proof. exact cnf_display_order. Qed.
Print Assumptions C06_display_order_independent.

Theorem C06_display_readable :
  forall order f, order_ok order -> api_cnf f -> cnf_legal f ->
  exists cs, read_dimacs (cnf_display order f) = Some (cnf_max f, cnf_len f, cs) /\
    Permutation cs (map (fun c => map dimacs_int (clause_lits c)) (cnf_clauses f)).
Proof. exact read_dimacs_display. Qed.
Print Assumptions C06_display_readable.

Theorem C06_display_injective :
  forall o1 o2 f g, order_ok o1 -> order_ok o2 ->
  api_cnf f -> api_cnf g -> cnf_legal f -> cnf_legal g ->
  (cnf_display o1 f = cnf_display o2 g <-> cnf_eqb f g = true).
Proof. exact cnf_display_eq. Qed.
Print Assumptions C06_display_injective.

Example C06_case :
  let f := run_history (H_add (H_add (H_add H_new [24; 7]) []) [9]) in
  api_cnf f /\ cnf_legal f /\ order_ok (@rev Clause) /\
  read_dimacs (cnf_display (@rev Clause) f) = Some (12, 3, [[]; [-4]; [-3; 12]]%Z).
Proof.
  split; [eexists; reflexivity|]. split; [|split].
  - repeat constructor; vm_compute; congruence.
  - intros l. apply Permutation_sym, Permutation_rev.
  - vm_compute. reflexivity.
Qed.

(* ------------------------------------------------------------------------ C07 *)

Theorem C07_assignment :
  forall b v, Forall (fun z => z <> 0 /\ -2147483648 < z <= 2147483647)%Z v ->
  exists asg, from_dimacs_assignment b v = Ok asg /\
    forall x, 1 <= x ->
      (get_value asg x = Some true <-> In (Z.of_N x) v) /\
      (get_value asg x = Some false <-> ~ In (Z.of_N x) v /\ In (- Z.of_N x)%Z v) /\
      (get_value asg x = None <-> ~ In (Z.of_N x) v /\ ~ In (- Z.of_N x)%Z v).
Proof. exact from_dimacs_get_value. Qed.
Print Assumptions C07_assignment.

(** The excluded integers are rejected: 0 in a debug build, i32::MIN in any build. *)
Theorem C07_assignment_rejects :
  forall b v asg, from_dimacs_assignment b v = Ok asg ->
  Forall (fun z => z <> (-2147483648)%Z) v /\ (b = Debug -> Forall (fun z => z <> 0%Z) v).
Proof.
  exact (fun b v asg E => conj (from_dimacs_min b v asg E)
    (fun Hb => from_dimacs_zero v asg (eq_ind b (fun b => from_dimacs_assignment b v = Ok asg) E Debug Hb))).
Qed.
Print Assumptions C07_assignment_rejects.

Example C07_case :
  Forall (fun z => z <> 0 /\ -2147483648 < z <= 2147483647)%Z [3; -5; 5; -2; -2147483647]%Z /\
  exists asg, from_dimacs_assignment Debug [3; -5; 5; -2; -2147483647]%Z = Ok asg /\
  map (get_value asg) [1; 2; 3; 5; 2147483647] =
    [None; Some false; Some true; Some true; Some false].
Proof. split; [repeat constructor; discriminate|]. eexists; split; reflexivity. Qed.

(* ------------------------------------------------------------------------ C08 *)

Theorem C08_evaluate_total :
  forall order f asg, order_ok order ->
  (forall c l, In c (cnf_clauses f) -> In l (clause_lits c) -> get_value asg (lit_var l) <> None) ->
  exists r, evaluate_cnf order f asg = Ok r /\
    forall a, agrees asg a -> (r = true <-> cnf_true a f).
Proof. exact evaluate_total. Qed.
Print Assumptions C08_evaluate_total.

Theorem C08_evaluate_clause_total :
  forall c asg,
  (forall l, In l (clause_lits c) -> get_value asg (lit_var l) <> None) ->
  exists r, evaluate_clause c asg = Ok r /\
    forall a, agrees asg a -> (r = true <-> clause_true a c).
Proof. exact evaluate_clause_total. Qed.
Print Assumptions C08_evaluate_clause_total.

Theorem C08_evaluate_literal_total :
  forall l asg, get_value asg (lit_var l) <> None ->
  exists r, evaluate_literal l asg = Ok r /\
    forall a, agrees asg a -> (r = true <-> lit_true a l).
Proof. exact evaluate_literal_total. Qed.
Print Assumptions C08_evaluate_literal_total.

(** With a partial assignment a returned value is the value under every completion. *)
Theorem C08_evaluate_partial_assignment :
  forall order f c l asg a, order_ok order -> agrees asg a ->
  (forall r, evaluate_literal l asg = Ok r -> (r = true <-> lit_true a l)) /\
  (forall r, evaluate_clause c asg = Ok r -> (r = true <-> clause_true a c)) /\
  (forall r, evaluate_cnf order f asg = Ok r -> (r = true <-> cnf_true a f)).
Proof. exact evaluate_partial_sound. Qed.
Print Assumptions C08_evaluate_partial_assignment.

Example C08_case :
  let f := run_history (H_add (H_add H_new [2; 4]) [3; 6]) in
  let asg := mkAssignment [1; 3] [2] in
  order_ok (fun l : list Clause => l) /\ agrees asg (fun v => negb (v =? 2)) /\
  (forall c l, In c (cnf_clauses f) -> In l (clause_lits c) -> get_value asg (lit_var l) <> None) /\
  evaluate_cnf (fun l => l) f asg = Ok true /\
  evaluate_cnf (fun l => l) f (mkAssignment [1] [3]) = Ok false /\
  evaluate_cnf (fun l => l) f (mkAssignment [] []) = Panic.
Proof.
  intros f asg. split; [intros l; reflexivity|]. split; [|split; [|repeat split]].
  - intros v x H. unfold get_value in H. cbn [asg true_variables false_variables set_mem existsb] in H.
    destruct (v =? 2) eqn:E; [apply N.eqb_eq in E; subst v; cbn in H; injection H as <-; reflexivity|].
    destruct ((v =? 1) || ((v =? 3) || false)); [injection H as <-; reflexivity|discriminate H].
  - intros c l Hc Hl. vm_compute in Hc. destruct Hc as [<-|[<-|[]]]; cbn in Hl;
      destruct Hl as [<-|[<-|[]]]; vm_compute; discriminate.
Qed.

(* ------------------------------------------------------------------------ C09, C10 *)

Theorem C09_does_a_imply_b :
  forall T order a b, solver_correct T -> order_ok order ->
  api_cnf a -> cnf_legal a -> api_cnf b -> cnf_legal b ->
  exists r, does_a_imply_b T order a b = Ok r /\
    (r = true <-> forall v, cnf_true v a -> cnf_true v b).
Proof. exact does_a_imply_b_correct. Qed.
Print Assumptions C09_does_a_imply_b.

(** With a solver that may also panic and is only right about formulas with variables below
    [m], every answer is right. *)
Theorem C09_does_a_imply_b_sound :
  forall m T order a b r, solver_sound_below m T -> order_ok order ->
  api_cnf a -> cnf_legal a -> api_cnf b -> cnf_legal b -> cnf_max a < m -> cnf_max b < m ->
  does_a_imply_b T order a b = Ok r -> (r = true <-> forall v, cnf_true v a -> cnf_true v b).
Proof. exact implies_sound. Qed.
Print Assumptions C09_does_a_imply_b_sound.

Theorem C10_is_a_and_b_satisfiable :
  forall T a b, solver_correct T ->
  api_cnf a -> cnf_legal a -> api_cnf b -> cnf_legal b ->
  exists r, is_a_and_b_satisfiable T a b = Ok r /\
    (r = true <-> exists v, cnf_true v a /\ cnf_true v b).
Proof. exact is_a_and_b_satisfiable_correct. Qed.
Print Assumptions C10_is_a_and_b_satisfiable.

Theorem C10_is_a_and_b_satisfiable_sound :
  forall m T a b r, solver_sound_below m T ->
  api_cnf a -> cnf_legal a -> api_cnf b -> cnf_legal b -> cnf_max a < m -> cnf_max b < m ->
  is_a_and_b_satisfiable T a b = Ok r -> (r = true <-> exists v, cnf_true v a /\ cnf_true v b).
Proof. exact both_sound. Qed.
Print Assumptions C10_is_a_and_b_satisfiable_sound.

(** A solver meeting the contract exists, and the two answers both occur. *)
Example C09_C10_case :
  (solver_correct brute /\ solver_sound_below 5 brute) /\ order_ok (fun l : list Clause => l) /\
  let a := run_history (H_add (H_add H_new [2]) [3; 4]) in
  let b := run_history (H_add H_new [4; 8]) in
  let c := run_history (H_add H_new [5]) in
  (api_cnf a /\ api_cnf b /\ api_cnf c) /\ (cnf_legal a /\ cnf_legal b /\ cnf_legal c) /\
  does_a_imply_b brute (fun l => l) a b = Ok true /\
  does_a_imply_b brute (fun l => l) b a = Ok false /\
  is_a_and_b_satisfiable brute a b = Ok true /\
  is_a_and_b_satisfiable brute a c = Ok false /\
  cnf_max a = 2 /\ cnf_max b = 4 /\ cnf_max c = 2.
Proof.
  split; [split; [exact brute_correct|apply correct_sound, correct_below, brute_correct]|]. split; [intros l; reflexivity|].
  intros a b c. split; [split; [|split]; eexists; reflexivity|].
  split; [split; [|split]; repeat constructor; vm_compute; congruence|]. repeat split.
Qed.

(* ------------------------------------------------------------------------ C48 *)

Theorem C48_variable_numbers :
  forall f,
  NoDup (variable_numbers f) /\
  forall v, In v (variable_numbers f) <->
    exists c l, In c (cnf_clauses f) /\ In l (clause_lits c) /\ lit_var l = v.
Proof. exact (fun f => conj (variable_numbers_nodup f) (in_variable_numbers f)). Qed.
Print Assumptions C48_variable_numbers.

Example C48_case :
  variable_numbers (run_history (H_add (H_add H_new [2; 9]) [8; 6])) = [1; 4; 3].
Proof. reflexivity. Qed.
