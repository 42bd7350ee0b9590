(** Property C57: the formulas of a system, tagged clock by clock, describe simulations. *)
From Verif Require Import Base Formulas FormulaLogic Aig AigParse Fsts Bmc Solvers Spec SpecText SpecAig
  SpecAiger SpecFsts SpecAlg Tac AigThms FstsThms UnrollThms.
Open Scope N_scope.

(* ------------------------------------------------------------------------ C57 *)

(** The vectors of a simulation, read as values of the tagged variables, satisfy the initial
    relation, every tagged transition relation and every tagged translation; a tagged unsafety
    clause is true iff a bad literal is true in the vector of that clock. *)
Theorem C57_simulation_satisfies_frames :
  forall b c flag s g ins init r a,
  system_of b c flag s -> well_numbered b c flag -> represents g c -> circuit_fits c ->
  Forall (fun m => NoDup (keys m)) ins -> NoDup (keys init) -> simulate g ins init = Ok r ->
  lenN r * get_max_literal_number s <= 2147483647 ->
  (forall t v, (t < length r)%nat -> 1 <= v <= get_max_literal_number s ->
     a (v + N.of_nat t * get_max_literal_number s) = nth (N.to_nat v) (nth t r []) false) ->
  cube_true a (get_initial_relation s) /\
  (forall t, (S t < length r)%nat -> exists f,
     add_tags_to_relation b s (get_transition_relation s) (N.of_nat t) = Ok f /\ cnf_true a f) /\
  (forall t, (t < length r)%nat -> exists f d,
     add_tags_to_relation b s (get_state_to_safety_translation s) (N.of_nat t) = Ok f /\ cnf_true a f /\
     add_tags_to_clause b s (get_unsafety_property s) (N.of_nat t) = Ok d /\
     (clause_true a d <-> bad_in c flag (nth t r []))).
Proof. exact simulation_satisfies_frames. Qed.
Print Assumptions C57_simulation_satisfies_frames.

(** Conversely, any values that satisfy the initial relation and [n] tagged transition relations
    are, on inputs and latches, those of the simulation of [n + 1] clocks with these inputs and
    initial latches, and are bad when the simulation is. *)
Theorem C57_frames_are_simulated :
  forall b c flag s g a n,
  system_of b c flag s -> well_numbered b c flag -> represents g c -> circuit_fits c ->
  (n + 1) * get_max_literal_number s <= 2147483647 ->
  cube_true a (get_initial_relation s) ->
  (forall t f, N.of_nat t < n ->
     add_tags_to_relation b s (get_transition_relation s) (N.of_nat t) = Ok f -> cnf_true a f) ->
  exists r, simulate g (frame_inputs c a n) (frame_latches c a) = Ok r /\ length r = S (N.to_nat n) /\
    forall t, N.of_nat t <= n ->
      (forall v, is_input c v \/ is_latch c v ->
         nth (N.to_nat v) (nth t r []) false = a (v + N.of_nat t * get_max_literal_number s)) /\
      (forall f d, add_tags_to_relation b s (get_state_to_safety_translation s) (N.of_nat t) = Ok f ->
         add_tags_to_clause b s (get_unsafety_property s) (N.of_nat t) = Ok d ->
         cnf_true a f -> (clause_true a d <-> bad_in c flag (nth t r []))).
Proof. exact frames_are_simulated. Qed.
Print Assumptions C57_frames_are_simulated.

(** Three clocks of a shift register: the bad literal (variable 5) is false at clocks 0 and 1
    and true at clock 2; read as values of variables 1 .. 15 the vectors satisfy both tagged
    steps, and give the stimulus back. *)
Example C57_case :
  exists s g r, let a := fun v => nth (N.to_nat ((v - 1) mod 5 + 1)) (nth (N.to_nat ((v - 1) / 5)) r []) false in
    system_of Debug shift_circuit false s /\ well_numbered Debug shift_circuit false /\
    represents g shift_circuit /\ circuit_fits shift_circuit /\
    simulate g [[(1, true)]; [(1, true)]; [(1, false)]] [(4, false)] = Ok r /\
    get_max_literal_number s = 5 /\ lenN r * get_max_literal_number s <= 2147483647 /\
    (forall t v, (t < length r)%nat -> 1 <= v <= get_max_literal_number s ->
       a (v + N.of_nat t * get_max_literal_number s) = nth (N.to_nat v) (nth t r []) false) /\
    frame_inputs shift_circuit a 2 = [[(1, true)]; [(1, true)]; [(1, false)]] /\
    ~ bad_in shift_circuit false (nth 1 r []) /\ bad_in shift_circuit false (nth 2 r []).
Proof.
  destruct (shift_system Debug) as (s & E & Hs & Hn). exists s.
  destruct (from_vector_of_bytes (encode ex_style shift_circuit)) as [g| |] eqn:Eg;
    [|vm_compute in Eg; discriminate..]. exists g.
  destruct (graph_of shift_circuit g eq_refl) as (Hr & Hwf & Hf); [vm_compute; repeat split|exact Eg|].
  vm_compute in Eg. injection Eg as <-. eexists. cbv zeta.
  split; [exact Hs|]. split; [left; reflexivity|]. split; [exact Hr|]. split; [exact Hf|].
  split; [vm_compute; reflexivity|].
  vm_compute in E. injection E as <-. split; [reflexivity|]. split; [vm_compute; discriminate|].
  split; [|split; [vm_compute; reflexivity|split]].
  - intros t v Ht Hv. cbn [get_max_literal_number max_literal_number length] in *.
    assert (Cv : v = 1 \/ v = 2 \/ v = 3 \/ v = 4 \/ v = 5) by lia.
    destruct t as [|[|[|t]]]; [..|lia];
      destruct Cv as [->|[->|[->|[->| ->]]]]; vm_compute; reflexivity.
  - intros (l & [<-|[]] & X). vm_compute in X. discriminate.
  - exists 10. split; [left; reflexivity|vm_compute; reflexivity].
Qed.
