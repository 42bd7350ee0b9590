(** Properties C22 - C31: the finite state transition system built from a circuit. *)
From Verif Require Import Base Formulas FormulaLogic Aig AigParse Fsts Solvers Brute Spec SpecText
  SpecAig SpecAiger SpecFsts BruteFacts AigThms FstsThms LogicFacts ReplaceFacts RescueThms.
Open Scope N_scope.

(* ------------------------------------------------------------------------ C22 *)

Theorem C22_initial_relation_exact :
  forall b c flag s, system_of b c flag s ->
  forall w, cube_true w (get_initial_relation s) <-> initial_values c w.
Proof. exact initial_relation_exact. Qed.
Print Assumptions C22_initial_relation_exact.

Example C22_case :
  exists s, fsts_of Release shift_circuit false = Ok s /\
    system_of Release shift_circuit false s /\
    cube_lits (get_initial_relation s) = [5; 7].
Proof.
  destruct (shift_system Release) as (s & E & Hs & Hn). exists s. split; auto. split; auto.
  vm_compute in E. injection E as <-. reflexivity.
Qed.

(** A release system whose bad literal is a constant: its initial and transition relations are
    covered as well. *)
Example C22_case_constant :
  let c := mkCircuit 1 [(3, 0); (4, 1)] [] [1] [] [] in
  exists s, fsts_of Release c false = Ok s /\ system_of Release c false s /\
    next_fits Release c /\ ~ bad_fits Release c false /\ ~ well_numbered Release c false /\
    cube_lits (get_initial_relation s) = [5; 6] /\
    map clause_lits (cnf_clauses (get_transition_relation s)) = [[3; 11]; [2; 10]; [4; 13]; [5; 12]].
Proof.
  intros c. destruct (fsts_of Release c false) as [s| |] eqn:E; [|vm_compute in E; discriminate..].
  exists s. split; auto.
  assert (Hb : ~ bad_fits Release c false).
  { intros [H|H]; [discriminate|]. inversion H as [|l ls H1 H2]. apply H1. reflexivity. }
  split; [apply fsts_of_system; auto; vm_compute; repeat split|].
  split. { right. intros v Hv. pose proof (AigFacts.latch_le_max _ _ Hv) as L.
           change (c_max c) with 3 in *. Lia.lia. }
  split; auto. split. { intros H. apply Hb. apply (FstsSem.well_numbered_parts _ _ _ H). }
  vm_compute in E. injection E as <-. split; vm_compute; reflexivity.
Qed.

(* ------------------------------------------------------------------------ C23 *)

(** Any satisfying assignment describes a step: the next-frame latches have the values that the
    circuit computes from the latches and inputs of the assignment ([w1] is the circuit's full
    valuation for them). *)
Theorem C23_transition_sound :
  forall b c flag s, system_of b c flag s -> next_fits b c ->
  forall w w1, cnf_true w (get_transition_relation s) ->
  wires_ok c w1 -> same_inputs c w1 w -> same_latches c w1 w ->
  step_values c w1 (frame (get_max_literal_number s) 1 w).
Proof. exact transition_sound. Qed.
Print Assumptions C23_transition_sound.

Theorem C23_transition_complete :
  forall b c flag s, system_of b c flag s -> next_fits b c ->
  forall w w', wires_ok c w -> step_values c w w' ->
  exists a, cnf_true a (get_transition_relation s) /\
    (forall v, 1 <= v <= c_max c -> a v = w v) /\
    (forall v, 1 <= v <= c_max c -> frame (get_max_literal_number s) 1 a v = w' v).
Proof. exact transition_complete. Qed.
Print Assumptions C23_transition_complete.

Example C23_case :
  exists s, fsts_of Debug shift_circuit true = Ok s /\
    system_of Debug shift_circuit true s /\ next_fits Debug shift_circuit /\
    get_max_literal_number s = 5 /\
    length (cnf_clauses (get_transition_relation s)) = 6%nat /\
    (exists w, cnf_true w (get_transition_relation s) /\ w 1 = true /\ w 7 = true /\ w 8 = false) /\
    wires_ok shift_circuit (fun v => v =? 1) /\
    step_values shift_circuit (fun v => v =? 1) (fun v => v =? 2).
Proof.
  destruct (fsts_of Debug shift_circuit true) as [s| |] eqn:E; [|vm_compute in E; discriminate..].
  exists s. split; [reflexivity|]. split; [apply fsts_of_system; auto; vm_compute; repeat split|].
  split; [left; reflexivity|]. vm_compute in E. injection E as <-. split; [reflexivity|]. split; [reflexivity|].
  split; [|split].
  - exists (fun v => (v =? 1) || (v =? 7)). split; [|auto]. intros d Hd.
    vm_compute in Hd. decompose [or] Hd; subst; clear Hd; try contradiction;
      first [eexists; split; [left; reflexivity|reflexivity]
            |eexists; split; [right; left; reflexivity|reflexivity]].
  - split; [reflexivity|]. intros v r0 r1 (j & Hj & ->).
    destruct j as [|[|j]]; try discriminate. injection Hj as <- <-. reflexivity.
  - intros v nx r (j & Hj & ->). destruct j as [|[|[|[|j]]]]; try discriminate;
      injection Hj as <- <-; reflexivity.
Qed.

(* ------------------------------------------------------------------------ C24 *)

Theorem C24_safety_formulas_exact :
  forall b c flag s, system_of b c flag s -> bad_fits b c flag ->
  (forall w w1, cnf_true w (get_state_to_safety_translation s) ->
    wires_ok c w1 -> same_inputs c w1 w -> same_latches c w1 w ->
    (clause_true w (get_unsafety_property s) <-> is_bad c flag w1)) /\
  (forall w, wires_ok c w -> cnf_true w (get_state_to_safety_translation s)) /\
  (forall w, cube_true w (get_safety_property s) <-> ~ clause_true w (get_unsafety_property s)).
Proof. exact safety_translation_exact. Qed.
Print Assumptions C24_safety_formulas_exact.

Example C24_case :
  let c := mkCircuit 1 [(2, 0); (4, 0)] [8; 5] [9] [] [(6, 4)] in
  exists s, fsts_of Debug c true = Ok s /\ system_of Debug c true s /\ bad_fits Debug c true /\
    clause_lits (get_unsafety_property s) = [5; 8; 9] /\
    cube_lits (get_safety_property s) = [4; 8; 9] /\
    map clause_lits (cnf_clauses (get_state_to_safety_translation s)) = [[6; 9]; [4; 9]; [5; 7; 8]].
Proof.
  intros c. destruct (fsts_of Debug c true) as [s| |] eqn:E; [|vm_compute in E; discriminate..].
  exists s. split; [reflexivity|]. split; [apply fsts_of_system; auto; vm_compute; repeat split|].
  split; [left; reflexivity|]. vm_compute in E. injection E as <-. vm_compute. auto.
Qed.

(* ------------------------------------------------------------------------ C25 *)

(** Circuits without constraints whose variables fit twice into 31 bits and whose bad literals
    are not constants are accepted. *)
Theorem C25_from_aig_total_partial :
  forall b order a c flag, represents a c -> circuit_wf c -> circuit_fits c ->
  order_ok order -> c_constraints c = [] -> numbering_fits c flag ->
  exists s, from_aig b order a flag = Ok s.
Proof. exact from_aig_accepts. Qed.
Print Assumptions C25_from_aig_total_partial.

(** In a debug build these are, up to the exact bound, the accepted circuits. *)
Theorem C25_from_aig_debug_exact :
  forall order a c flag, represents a c -> circuit_wf c -> circuit_fits c -> order_ok order ->
  ((exists s, from_aig Debug order a flag = Ok s) <->
   c_constraints c = [] /\ c_max c < 2147483647 /\
   (forall v, is_latch c v -> v + c_max c <= 2147483647) /\
   Forall (fun l => lit_var l <> 0) (bad_literals c flag)).
Proof. exact from_aig_debug_exact. Qed.
Print Assumptions C25_from_aig_debug_exact.

(** A release build accepts every circuit without constraints of fewer than 2^31 - 1 variables; see
    [next_fits] and [bad_fits] for the circuits whose systems mean the right thing. *)
Theorem C25_from_aig_release_exact :
  forall order a c flag, represents a c -> circuit_wf c -> circuit_fits c -> order_ok order ->
  ((exists s, from_aig Release order a flag = Ok s) <->
   c_constraints c = [] /\ c_max c < 2147483647).
Proof. exact from_aig_release_exact. Qed.
Print Assumptions C25_from_aig_release_exact.

(** A constant bad literal panics in a debug build and gives a literal of variable 0, which is
    no variable of the solvers, in a release build. *)
Theorem C25_from_aig_total_refuted :
  exists c a, represents a c /\ circuit_wf c /\ circuit_fits c /\ c_constraints c = [] /\
    c_max c < 2147483647 /\
    from_aig Debug (fun l => l) a false = Panic /\
    exists s, from_aig Release (fun l => l) a false = Ok s /\
      exists l, In l (clause_lits (get_unsafety_property s)) /\ get_number l = 0.
Proof. exact from_aig_not_total. Qed.
Print Assumptions C25_from_aig_total_refuted.

(** A release build accepts a circuit for which the number of a next-state variable does not fit
    into 31 bits; the literal becomes that of an input, and a step of the circuit contradicts the
    transition relation.  A debug build rejects the circuit. *)
Theorem C25_release_misnumbers_refuted :
  exists c a, represents a c /\ circuit_wf c /\ circuit_fits c /\ c_constraints c = [] /\
    c_max c < 2147483647 /\ Forall (fun l => lit_var l <> 0) (bad_literals c false) /\
    (forall s, from_aig Debug (fun l => l) a false <> Ok s) /\
    exists s, from_aig Release (fun l => l) a false = Ok s /\
      exists w w', wires_ok c w /\ step_values c w w' /\
        forall x, (forall v, 1 <= v <= c_max c -> x v = w v) -> ~ cnf_true x (get_transition_relation s).
Proof. exact release_misnumbers. Qed.
Print Assumptions C25_release_misnumbers_refuted.

Example C25_case :
  exists a, represents a shift_circuit /\ circuit_wf shift_circuit /\ circuit_fits shift_circuit /\
    c_constraints shift_circuit = [] /\ numbering_fits shift_circuit true.
Proof.
  destruct (from_vector_of_bytes (encode ex_style shift_circuit)) as [a| |] eqn:E;
    [|vm_compute in E; discriminate..].
  destruct (graph_of shift_circuit a) as (Hr & Hwf & Hf); auto; [vm_compute; repeat split|].
  exists a. split; auto. split; auto. split; auto. split; auto.
  apply no_constants_ok. vm_compute. reflexivity.
Qed.

(* ------------------------------------------------------------------------ C26 *)

Theorem C26_tagging_relation :
  forall b s f k, api_cnf f -> k * get_max_literal_number s < 4294967296 ->
  cnf_vars (fits_frame s k) f ->
  exists f', add_tags_to_relation b s f k = Ok f' /\
    (forall a, cnf_true a f' <-> cnf_true (frame (get_max_literal_number s) k a) f) /\
    cnf_vars (fun x => exists v, In v (variable_numbers f) /\
                         x = v + k * get_max_literal_number s) f'.
Proof. exact tag_relation_meaning. Qed.
Print Assumptions C26_tagging_relation.

Theorem C26_tagging_clause :
  forall b s d k, api_clause d -> k * get_max_literal_number s < 4294967296 ->
  clause_vars (fits_frame s k) d ->
  exists d', add_tags_to_clause b s d k = Ok d' /\
    (forall a, clause_true a d' <-> clause_true (frame (get_max_literal_number s) k a) d) /\
    clause_vars (fun x => exists l, In l (clause_lits d) /\
                            x = lit_var l + k * get_max_literal_number s) d'.
Proof. exact tag_clause_meaning. Qed.
Print Assumptions C26_tagging_clause.

Theorem C26_tagging_cube :
  forall b s q k, api_cube q -> k * get_max_literal_number s < 4294967296 ->
  cube_vars (fits_frame s k) q ->
  exists q', add_tags_to_cube b s q k = Ok q' /\
    (forall a, cube_true a q' <-> cube_true (frame (get_max_literal_number s) k a) q) /\
    cube_vars (fun x => exists l, In l (cube_lits q) /\
                          x = lit_var l + k * get_max_literal_number s) q'.
Proof. exact tag_cube_meaning. Qed.
Print Assumptions C26_tagging_cube.

(** Tagging commutes with negation and with conversion to CNF ([cnf_eqb] is the [==] of CNFs). *)
Theorem C26_tagging_commutes :
  forall b s q k, api_cube q -> k * get_max_literal_number s < 4294967296 ->
  cube_vars (fits_frame s k) q ->
  exists q' d' f' g', add_tags_to_cube b s q k = Ok q' /\
    add_tags_to_clause b s (cube_not q) k = Ok d' /\ d' = cube_not q' /\ clause_not d' = q' /\
    add_tags_to_relation b s (cube_to_cnf q) k = Ok f' /\ cnf_eqb f' (cube_to_cnf q') = true /\
    add_tags_to_relation b s (clause_to_cnf (cube_not q)) k = Ok g' /\
    cnf_eqb g' (clause_to_cnf d') = true.
Proof. exact tag_commutes. Qed.
Print Assumptions C26_tagging_commutes.

Theorem C26_tagging_disjoint :
  forall b s f g k k' f' g', api_cnf f -> api_cnf g ->
  let m := get_max_literal_number s in
  cnf_vars (fun v => 1 <= v <= m) f -> cnf_vars (fun v => 1 <= v <= m) g ->
  (k + 1) * m <= 2147483647 -> (k' + 1) * m <= 2147483647 -> k <> k' ->
  add_tags_to_relation b s f k = Ok f' -> add_tags_to_relation b s g k' = Ok g' ->
  forall v, In v (variable_numbers f') -> ~ In v (variable_numbers g').
Proof. exact tag_disjoint. Qed.
Print Assumptions C26_tagging_disjoint.

(** A debug build never returns a wrongly renamed formula. *)
Theorem C26_tagging_debug :
  forall s k,
  (forall f f', api_cnf f -> add_tags_to_relation Debug s f k = Ok f' ->
    forall a, cnf_true a f' <-> cnf_true (frame (get_max_literal_number s) k a) f) /\
  (forall d d', api_clause d -> add_tags_to_clause Debug s d k = Ok d' ->
    forall a, clause_true a d' <-> clause_true (frame (get_max_literal_number s) k a) d) /\
  (forall q q', api_cube q -> add_tags_to_cube Debug s q k = Ok q' ->
    forall a, cube_true a q' <-> cube_true (frame (get_max_literal_number s) k a) q).
Proof. exact tag_debug_exact. Qed.
Print Assumptions C26_tagging_debug.

(** Ordinary tags; and a release build that silently drops a tag that does not fit. *)
Example C26_case :
  exists s, fsts_of Debug shift_circuit false = Ok s /\
    api_cube (cube_new [3; 8]) /\ cube_vars (fits_frame s 3) (cube_new [3; 8]) /\
    api_clause (clause_new [2; 9]) /\ clause_vars (fits_frame s 3) (clause_new [2; 9]) /\
    3 * get_max_literal_number s < 4294967296 /\
    add_tags_to_cube Debug s (cube_new [3; 8]) 3 = Ok (cube_new [33; 38]) /\
    add_tags_to_clause Debug s (clause_new [2; 9]) 3 = Ok (clause_new [32; 39]) /\
    (let big := mkFSTS [] (cube_new []) cnf_new cnf_new (clause_new []) 1073741824 [] [] [] [] in
     add_tags_to_clause Release big (clause_new [2; 9]) 2 = Ok (clause_new [2; 9]) /\
     add_tags_to_clause Debug big (clause_new [2; 9]) 2 = Panic).
Proof.
  eexists. split; [vm_compute; reflexivity|]. split; [eexists; reflexivity|].
  split; [intros l Hl; vm_compute in Hl; destruct Hl as [<-|[<-|[]]]; split; vm_compute; congruence|].
  split; [eexists; reflexivity|].
  split; [intros l Hl; vm_compute in Hl; destruct Hl as [<-|[<-|[]]]; split; vm_compute; congruence|].
  split; [reflexivity|].
  split; [vm_compute; reflexivity|]. split; [vm_compute; reflexivity|].
  split; vm_compute; reflexivity.
Qed.

(* ------------------------------------------------------------------------ C27 *)

Theorem C27_cube_initial :
  forall b c flag s q, system_of b c flag s -> consistent q ->
  (is_cube_initial s q = true <-> exists w, initial_values c w /\ cube_true w q).
Proof. exact cube_initial_correct. Qed.
Print Assumptions C27_cube_initial.

(** For cubes over latches and inputs: some initial state of the circuit satisfies the cube. *)
Theorem C27_cube_initial_state :
  forall b c flag s q, system_of b c flag s ->
  consistent q -> cube_vars (fun v => is_latch c v \/ is_input c v) q ->
  (is_cube_initial s q = true <-> exists w, wires_ok c w /\ initial_values c w /\ cube_true w q).
Proof. exact cube_initial_state. Qed.
Print Assumptions C27_cube_initial_state.

Example C27_case :
  exists s, fsts_of Debug shift_circuit false = Ok s /\ system_of Debug shift_circuit false s /\
    cube_vars (fun v => is_latch shift_circuit v \/ is_input shift_circuit v) (cube_new [2; 5; 8]) /\
    consistent (cube_new [2; 5; 8]) /\ is_cube_initial s (cube_new [2; 5; 8]) = true /\
    consistent (cube_new [2; 6]) /\ is_cube_initial s (cube_new [2; 6]) = false.
Proof.
  destruct (shift_system Debug) as (s & E & Hs & _). exists s. split; [exact E|]. split; [exact Hs|].
  vm_compute in E. injection E as <-.
  split. { intros l Hl. rewrite AigFacts.is_latch_iff. unfold is_input.
           vm_compute in Hl. destruct Hl as [<-|[<-|[<-|[]]]]; vm_compute; intuition congruence. }
  split. { exists (fun v => (v =? 1) || (v =? 4)). intros l Hl. vm_compute in Hl.
           decompose [or] Hl; subst; try contradiction; reflexivity. }
  split; [vm_compute; reflexivity|].
  split. { exists (fun v => true). intros l Hl. vm_compute in Hl.
           decompose [or] Hl; subst; try contradiction; reflexivity. }
  vm_compute; reflexivity.
Qed.

(* ------------------------------------------------------------------------ C28 *)

Theorem C28_extract_exact :
  forall b c flag s asg, system_of b c flag s ->
  (forall v, is_latch c v -> get_value asg v <> None) ->
  exists q, extract_state_from_assignment b s asg = Ok q /\
    (forall w, agrees asg w -> state_cube c w q) /\
    (forall w w', agrees asg w -> cube_true w' q -> same_latches c w' w).
Proof. exact extract_exact. Qed.
Print Assumptions C28_extract_exact.

Theorem C28_extract_undefined :
  forall b c flag s asg v, system_of b c flag s ->
  is_latch c v -> get_value asg v = None -> extract_state_from_assignment b s asg = Panic.
Proof. exact extract_undefined. Qed.
Print Assumptions C28_extract_undefined.

Example C28_case :
  exists s asg, fsts_of Debug shift_circuit false = Ok s /\ system_of Debug shift_circuit false s /\
    from_dimacs_assignment Debug [1; -2; 3; 4; -5; 6]%Z = Ok asg /\
    (forall v, is_latch shift_circuit v -> get_value asg v <> None) /\
    extract_state_from_assignment Debug s asg = Ok (cube_new [5; 6; 8]) /\
    (exists asg', from_dimacs_assignment Debug [1; -2; 3]%Z = Ok asg' /\
       is_latch shift_circuit 4 /\ get_value asg' 4 = None /\
       extract_state_from_assignment Debug s asg' = Panic).
Proof.
  destruct (shift_system Debug) as (s & E & Hs & _). exists s. eexists. split; [exact E|]. split; [exact Hs|].
  vm_compute in E. injection E as <-. split; [vm_compute; reflexivity|].
  split. { intros v. rewrite AigFacts.is_latch_iff. intros Hv. change (1 < v <= 4) in Hv.
           assert (X : v = 2 \/ v = 3 \/ v = 4) by Lia.lia. destruct X as [->|[->| ->]]; vm_compute; discriminate. }
  split; [vm_compute; reflexivity|]. eexists. split; [vm_compute; reflexivity|].
  split; [rewrite AigFacts.is_latch_iff; vm_compute; intuition congruence|]. split; vm_compute; reflexivity.
Qed.

(* ------------------------------------------------------------------------ C29 *)

Theorem C29_transition_cone :
  forall b c flag s q w w', system_of b c flag s -> next_fits b c ->
  wires_ok c w -> wires_ok c w' -> state_cube c w q ->
  cube_true w' (intersect_cube_with_cone_of_transition s q) -> same_inputs c w w' ->
  forall w1, step_values c w w1 -> step_values c w' w1.
Proof. exact transition_cone. Qed.
Print Assumptions C29_transition_cone.

(** The projection keeps exactly the latches that some next state reads. *)
Theorem C29_transition_cone_exact :
  forall b c flag s q l, system_of b c flag s -> next_fits b c ->
  (In l (cube_lits (intersect_cube_with_cone_of_transition s q)) <->
   In l (cube_lits q) /\ is_latch c (lit_var l) /\ read_by_next c (lit_var l)).
Proof. exact transition_cone_lits. Qed.
Print Assumptions C29_transition_cone_exact.

Example C29_case :
  exists s, fsts_of Debug shift_circuit false = Ok s /\
    system_of Debug shift_circuit false s /\ next_fits Debug shift_circuit /\
    intersect_cube_with_cone_of_transition s (cube_new [5; 6; 8]) = cube_new [5; 8] /\
    state_cube shift_circuit (fun v => (v =? 3) || (v =? 4)) (cube_new [5; 6; 8]) /\
    wires_ok shift_circuit (fun v => (v =? 3) || (v =? 4)) /\
    wires_ok shift_circuit (fun v => v =? 4) /\
    cube_true (fun v => v =? 4) (cube_new [5; 8]) /\
    same_inputs shift_circuit (fun v => (v =? 3) || (v =? 4)) (fun v => v =? 4).
Proof.
  destruct (shift_system Debug) as (s & E & Hs & _). exists s. split; [exact E|]. split; [exact Hs|].
  split; [left; reflexivity|]. vm_compute in E. injection E as <-. split; [vm_compute; reflexivity|].
  split; [|split; [|split; [|split]]].
  - split; [|split].
    + vm_compute. repeat constructor; simpl; intuition discriminate.
    + intros v. rewrite AigFacts.is_latch_iff. change (In v [2; 3; 4] <-> 1 < v <= 1 + 3).
      simpl. Lia.lia.
    + intros l Hl. vm_compute in Hl. decompose [or] Hl; subst; try contradiction; reflexivity.
  - split; [reflexivity|]. intros v r0 r1 (j & Hj & ->).
    destruct j as [|[|j]]; try discriminate. injection Hj as <- <-. reflexivity.
  - split; [reflexivity|]. intros v r0 r1 (j & Hj & ->).
    destruct j as [|[|j]]; try discriminate. injection Hj as <- <-. reflexivity.
  - intros l Hl. vm_compute in Hl. destruct Hl as [<-|[<-|[]]]; reflexivity.
  - intros v Hv. unfold is_input in Hv. change (1 <= v <= 1) in Hv. replace v with 1 by Lia.lia. reflexivity.
Qed.

(* ------------------------------------------------------------------------ C30 *)

(** Holds when every latch that is a bad literal is also read by a gate below the bad literals,
    for example when no bad literal is a latch. *)
Theorem C30_safety_cone_partial :
  forall b c flag s q w w', system_of b c flag s ->
  bad_latches_read c flag ->
  wires_ok c w -> wires_ok c w' -> state_cube c w q ->
  cube_true w' (intersect_cube_with_cone_of_safety s q) -> same_inputs c w w' ->
  is_bad c flag w -> is_bad c flag w'.
Proof. exact safety_cone. Qed.
Print Assumptions C30_safety_cone_partial.

(** The projection keeps exactly the latches read by gates below the bad literals. *)
Theorem C30_safety_cone_exact :
  forall b c flag s q l, system_of b c flag s ->
  (In l (cube_lits (intersect_cube_with_cone_of_safety s q)) <->
   In l (cube_lits q) /\ is_latch c (lit_var l) /\ read_below c (bad_literals c flag) (lit_var l)).
Proof. exact safety_cone_lits. Qed.
Print Assumptions C30_safety_cone_exact.

(** A bad literal that is a latch is forgotten by the projection. *)
Theorem C30_safety_cone_refuted :
  exists c s q w w', system_of Debug c false s /\ numbering_fits c false /\
    wires_ok c w /\ wires_ok c w' /\ state_cube c w q /\
    cube_true w' (intersect_cube_with_cone_of_safety s q) /\ same_inputs c w w' /\
    is_bad c false w /\ ~ is_bad c false w'.
Proof. exact safety_cone_fails. Qed.
Print Assumptions C30_safety_cone_refuted.

Example C30_case :
  exists s, fsts_of Debug shift_circuit false = Ok s /\ system_of Debug shift_circuit false s /\
    bad_latches_read shift_circuit false /\
    intersect_cube_with_cone_of_safety s (cube_new [4; 6; 8]) = cube_new [4; 6] /\
    wires_ok shift_circuit (fun v => (2 <=? v) && (v <=? 5)) /\
    state_cube shift_circuit (fun v => (2 <=? v) && (v <=? 5)) (cube_new [4; 6; 8]) /\
    is_bad shift_circuit false (fun v => (2 <=? v) && (v <=? 5)) /\
    (let w' := fun v => (v =? 2) || (v =? 3) || (v =? 5) in
     wires_ok shift_circuit w' /\ cube_true w' (cube_new [4; 6]) /\
     same_inputs shift_circuit (fun v => (2 <=? v) && (v <=? 5)) w').
Proof.
  destruct (shift_system Debug) as (s & E & Hs & _). exists s. split; [exact E|]. split; [exact Hs|].
  vm_compute in E. injection E as <-. split.
  { intros l [<-|[]]. rewrite AigFacts.is_latch_iff. vm_compute. intuition congruence. }
  split; [vm_compute; reflexivity|]. split; [|split; [|split; [|split; [|split]]]].
  - split; [reflexivity|]. intros v r0 r1 (j & Hj & ->).
    destruct j as [|[|j]]; try discriminate. injection Hj as <- <-. reflexivity.
  - split; [|split].
    + vm_compute. repeat constructor; simpl; intuition discriminate.
    + intros v. rewrite AigFacts.is_latch_iff. change (In v [2; 3; 4] <-> 1 < v <= 1 + 3).
      simpl. Lia.lia.
    + intros l Hl. vm_compute in Hl. decompose [or] Hl; subst; try contradiction; reflexivity.
  - exists 10. split; [left; reflexivity|reflexivity].
  - split; [reflexivity|]. intros v r0 r1 (j & Hj & ->).
    destruct j as [|[|j]]; try discriminate. injection Hj as <- <-. reflexivity.
  - intros l Hl. vm_compute in Hl. destruct Hl as [<-|[<-|[]]]; reflexivity.
  - intros v Hv. unfold is_input in Hv. change (1 <= v <= 1) in Hv. replace v with 1 by Lia.lia. reflexivity.
Qed.

(* ------------------------------------------------------------------------ C31 *)

Theorem C31_check_invariant_sound :
  forall m b c flag s T1 T2 T3 o1 o2 inv, system_of b c flag s -> numbering_fits c flag ->
  2 * c_max c < m <= 2147483648 ->
  solver_sound_below m T1 -> solver_sound_below m T2 -> solver_sound_below m T3 ->
  order_ok o1 -> order_ok o2 -> api_cnf inv -> cnf_legal inv ->
  b = Debug /\ m = 2147483648 \/ cnf_vars (fun v => v + c_max c < m) inv ->
  check_invariant b T1 T2 T3 o1 o2 s inv = Ok tt ->
  safe c flag /\
  (cnf_vars (fun v => v <= c_max c) inv -> forall w, run c w -> forall t, cnf_true (w t) inv).
Proof. exact check_sound. Qed.
Print Assumptions C31_check_invariant_sound.

Theorem C31_check_invariant_complete :
  forall b b' c flag s T1 T2 T3 o1 o2 inv, system_of b c flag s -> numbering_fits c flag ->
  solver_correct_below 2147483647 T1 -> solver_correct_below 2147483647 T2 ->
  solver_correct_below 2147483647 T3 -> order_ok o1 -> order_ok o2 ->
  api_cnf inv -> cnf_vars (is_latch c) inv ->
  inductive_safe c flag (fun w => cnf_true w inv) ->
  check_invariant b' T1 T2 T3 o1 o2 s inv = Ok tt.
Proof. exact check_invariant_complete. Qed.
Print Assumptions C31_check_invariant_complete.

Example C31_case :
  (solver_correct brute /\ solver_sound_below 2147483648 brute) /\
  (api_cnf (run_history (H_add H_new [5; 7])) /\
   cnf_vars (is_latch differ_circuit) (run_history (H_add H_new [5; 7])) /\
   inductive_safe differ_circuit false (fun w => cnf_true w (run_history (H_add H_new [5; 7])))) /\
  (order_ok (fun l : list Clause => l) /\ 2 * c_max differ_circuit < 2147483648 /\
   cnf_legal (run_history (H_add H_new [5; 7])) /\ numbering_fits differ_circuit false) /\
  (exists s, fsts_of Debug differ_circuit false = Ok s /\ system_of Debug differ_circuit false s /\
     check_invariant Debug brute brute brute (fun l => l) (fun l => l) s
       (run_history (H_add H_new [5; 7])) = Ok tt /\
     check_invariant Debug brute brute brute (fun l => l) (fun l => l) s
       (run_history (H_add H_new [5])) = Panic) /\
  (exists s, fsts_of Debug shift_circuit false = Ok s /\
     check_invariant Debug brute brute brute (fun l => l) (fun l => l) s
       (run_history (H_add H_new [5; 7])) = Panic).
Proof.
  split; [split; [exact brute_correct|apply correct_sound, correct_below, brute_correct]|].
  split; [exact differ_inductive|]. destruct (differ_system Debug) as (s & E & Hs & Hn). split; [|split].
  - split; [intros l; reflexivity|]. split; [reflexivity|]. split; [|exact Hn].
    repeat constructor; vm_compute; congruence.
  - exists s. split; [exact E|]. split; [exact Hs|]. vm_compute in E. injection E as <-. split; vm_compute; reflexivity.
  - eexists. split; [vm_compute; reflexivity|]. vm_compute; reflexivity.
Qed.
