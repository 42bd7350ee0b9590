(** Property C51: from a file to an answer, with the solvers of the crate. *)
From Verif Require Import Base Formulas FormulaLogic Aig AigParse Fsts Bmc Solvers Ic3 Pdr Brute Spec
  SpecText SpecAig SpecAiger SpecFile SpecFsts SpecAlg SpecSolver SpecEnd Tac BruteFacts RefEngines
  AigThms TailFacts FstsThms BmcThms Ic3Thms EndThms ConstThms.
Open Scope N_scope.

(* ------------------------------------------------------------------------ C51 *)

(** Full claim: whatever file is read, whichever solver of the crate is used, the answers of BMC
    and of the three provers are right.  Missing: the stateful CaDiCaL adapter in release builds
    beyond its budget (C13), numbers that do not fit (C25), constant bad literals in release builds
    (refuted below), PDR on circuits with a latch as bad literal that no gate below the bad
    literals reads (C41, C42).

    Both IC3 provers. *)
Theorem C51_ic3_verdicts_partial :
  forall v c syms comment b order a flag s R fuel r,
  Forall (fun x => x < 256) v -> file v c syms comment -> order_ok order -> numbering_fits c flag ->
  from_vector_of_bytes v = Ok a -> from_aig b order a flag = Ok s -> random_ok R ->
  (exists T, shipped_stateless b T /\ ic3_stateless b R T fuel s = Ok r) \/
  (exists SS, shipped_stateful b SS /\ ic3_stateful b R SS fuel s = Ok r) ->
  right_verdict c flag r.
Proof. exact end_verdicts. Qed.
Print Assumptions C51_ic3_verdicts_partial.

(** PDR. *)
Theorem C51_pdr_verdicts_partial :
  forall v c syms comment b order a flag s R fuel SS r,
  Forall (fun x => x < 256) v -> file v c syms comment -> order_ok order -> numbering_fits c flag ->
  bad_latches_read c flag ->
  from_vector_of_bytes v = Ok a -> from_aig b order a flag = Ok s -> random_ok R ->
  shipped_stateful b SS -> pdr b R SS fuel s = Ok r -> right_verdict c flag r.
Proof. exact end_pdr_verdicts. Qed.
Print Assumptions C51_pdr_verdicts_partial.

(** The certificates pass [check_invariant] in either build, with any stateless solvers of the
    crate. *)
Theorem C51_certificates_partial :
  forall v c syms comment b order a flag s R fuel inv,
  Forall (fun x => x < 256) v -> file v c syms comment -> order_ok order -> numbering_fits c flag ->
  from_vector_of_bytes v = Ok a -> from_aig b order a flag = Ok s -> random_ok R ->
  (exists T, shipped_stateless b T /\ ic3_stateless b R T fuel s = Ok (Proof inv)) \/
  (exists SS, shipped_stateful b SS /\
     (ic3_stateful b R SS fuel s = Ok (Proof inv) \/
      (b = Debug \/ bad_latches_read c flag) /\ pdr b R SS fuel s = Ok (Proof inv))) ->
  forall b' T1 T2 T3 o1 o2, shipped_stateless b' T1 -> shipped_stateless b' T2 ->
    shipped_stateless b' T3 -> order_ok o1 -> order_ok o2 ->
    check_invariant b' T1 T2 T3 o1 o2 s inv = Ok tt.
Proof. exact end_certificates. Qed.
Print Assumptions C51_certificates_partial.

(** The stateful CaDiCaL adapter, in either build, for runs that keep every solver within the
    budget of C13. *)
Theorem C51_cadical_budget_partial :
  forall v c syms comment b order a flag s R fuel E o r,
  Forall (fun x => x < 256) v -> file v c syms comment -> order_ok order -> numbering_fits c flag ->
  from_vector_of_bytes v = Ok a -> from_aig b order a flag = Ok s -> random_ok R ->
  order_ok o -> cadical_ok E ->
  let SS := cadical_stateful b E o in
  ic3_stateful b R SS fuel s = Ok r /\ ic3_stateful b R (budgeted 2147483645 SS) fuel s <> Panic \/
  pdr b R SS fuel s = Ok r /\ pdr b R (budgeted 2147483645 SS) fuel s <> Panic /\
    bad_latches_read c flag ->
  right_verdict c flag r.
Proof. exact end_budget. Qed.
Print Assumptions C51_cadical_budget_partial.

(** Release runs within the budget; a budget of 7 is too small for the first one. *)
Example C51_cadical_budget_case :
  let SS := cadical_stateful Release ref_cadical (fun l => l) in
  exists s i1 i2, fsts_of Release differ_circuit false = Ok s /\
    ic3_stateful Release no_random SS 20 s = Ok (Proof i1) /\
    ic3_stateful Release no_random (budgeted 2147483645 SS) 20 s = Ok (Proof i1) /\
    ic3_stateful Release no_random (budgeted 7 SS) 20 s = Panic /\
    pdr Release no_random SS 100 s = Ok (Proof i2) /\
    pdr Release no_random (budgeted 2147483645 SS) 100 s = Ok (Proof i2).
Proof. cbv zeta. do 3 eexists. do 5 (split; [vm_compute; reflexivity|]). vm_compute; reflexivity. Qed.

(** BMC: a counterexample replays through [simulate] on the graph that was read and no run is
    bad earlier; otherwise no run is bad up to the depth reported. *)
Theorem C51_bmc_answers_partial :
  forall v c syms comment b order a flag s T clk limit,
  Forall (fun x => x < 256) v -> file v c syms comment -> order_ok order -> well_numbered b c flag ->
  from_vector_of_bytes v = Ok a -> from_aig b order a flag = Ok s ->
  shipped_stateless b T -> limit < 4294967296 ->
  b = Debug \/ (limit + 1) * c_max c < 2147483647 ->
  (forall asg d, bmc_search b T clk s limit = Ok (CTX asg d) ->
     d <= limit /\ unsafe c flag /\ safe_before c flag (N.to_nat d) /\
     exists r, simulate a (ctx_inputs c asg d) (ctx_latches c asg) = Ok r /\
       length r = S (N.to_nat d) /\
       bad_in c flag (nth (N.to_nat d) r []) /\
       forall t, (t < N.to_nat d)%nat -> ~ bad_in c flag (nth t r [])) /\
  (forall z, bmc_search b T clk s limit = Ok (NoCTX z) ->
     (-1 <= z <= Z.of_N limit)%Z /\
     forall w, run c w -> forall t, (Z.of_nat t <= z)%Z -> ~ is_bad c flag (w t)).
Proof. exact end_bmc. Qed.
Print Assumptions C51_bmc_answers_partial.

(** Reading the file and proving succeed, with the right verdict, for files without constraints,
    with the solvers known to give complete models; only a debug build panics, and only when it
    counted 2^32 SAT calls. *)
Theorem C51_answers_partial :
  forall v c syms comment b order flag R fuel,
  Forall (fun x => x < 256) v -> file v c syms comment -> order_ok order ->
  c_constraints c = [] -> numbering_fits c flag ->
  random_ok R -> enough_fuel c fuel -> depth_fits c flag ->
  exists a s, from_vector_of_bytes v = Ok a /\ from_aig b order a flag = Ok s /\
  (forall T, complete_stateless b T ->
     exists r n, ic3_stateless_run b R T fuel s = Ok (r, n) /\ (verdict_proof r <-> safe c flag) /\
       ic3_stateless b R T fuel s = counted_answer b (N.of_nat n) r) /\
  (forall SS, complete_stateful b SS ->
     exists r n, ic3_stateful_run b R SS fuel s = Ok (r, n) /\ (verdict_proof r <-> safe c flag) /\
       ic3_stateful b R SS fuel s = counted_answer b (N.of_nat n) r) /\
  (bad_latches_read c flag -> states_readable c flag -> enough_pdr_fuel c fuel ->
   forall SS, complete_stateful b SS ->
     exists r n, pdr_run b R SS fuel s = Ok (r, n) /\ (verdict_proof r <-> safe c flag) /\
       pdr b R SS fuel s = counted_answer b (most_calls n) r).
Proof. exact end_answers. Qed.
Print Assumptions C51_answers_partial.

(** A constant as bad literal, which a release build accepts (C25): both IC3 provers panic, with
    any solver. *)
Theorem C51_constant_bad_ic3 :
  forall c flag s, system_of Release c flag s -> 2 * c_max c <= 2147483645 ->
  (exists l, In l (bad_literals c flag) /\ lit_var l = 0) -> c_max c <> 0 ->
  (forall R fuel T, ic3_stateless Release R T fuel s = Panic) /\
  (forall R fuel SS, ic3_stateful Release R SS fuel s = Panic).
Proof. exact constant_bad_ic3. Qed.
Print Assumptions C51_constant_bad_ic3.

(** PDR reports a counterexample of depth 0 with either stateful adapter, be the circuit safe or
    not, when every latch has a reset value: variable 0 is an ordinary variable of the solvers. *)
Theorem C51_constant_bad_pdr :
  forall c flag s, system_of Release c flag s -> 2 * c_max c <= 2147483645 ->
  (exists l, In l (bad_literals c flag) /\ lit_var l = 0) ->
  (forall v nx r, latch c v nx r -> r = 0 \/ r = 1) ->
  (forall R fuel o E, random_ok R -> order_ok o -> minisat_ok E ->
     pdr Release R (minisat_stateful Release E o) (S fuel) s = Ok (ProofCTX 0)) /\
  (forall R fuel o E, random_ok R -> order_ok o -> cadical_ok E ->
     pdr Release R (cadical_stateful Release E o) (S fuel) s = Ok (ProofCTX 0)).
Proof. exact constant_bad_pdr. Qed.
Print Assumptions C51_constant_bad_pdr.

(** So the claim fails without the condition on constants: a file of a safe circuit from which a
    debug build makes no transition system, but a release build does. *)
Theorem C51_constant_bad_refuted :
  exists v c syms comment a s, Forall (fun x => x < 256) v /\ file v c syms comment /\
    2 * c_max c <= 2147483645 /\ safe c false /\
    from_vector_of_bytes v = Ok a /\ from_aig Debug (fun l => l) a false = Panic /\
    from_aig Release (fun l => l) a false = Ok s /\
    (forall R fuel o E, random_ok R -> order_ok o -> minisat_ok E ->
       pdr Release R (minisat_stateful Release E o) (S fuel) s = Ok (ProofCTX 0)) /\
    (forall R fuel o E, random_ok R -> order_ok o -> cadical_ok E ->
       pdr Release R (cadical_stateful Release E o) (S fuel) s = Ok (ProofCTX 0)) /\
    (forall R fuel T, ic3_stateless Release R T fuel s = Panic) /\
    (forall R fuel SS, ic3_stateful Release R SS fuel s = Panic).
Proof. exact constant_bad_refuted. Qed.
Print Assumptions C51_constant_bad_refuted.

(** A safe and an unsafe file, with all adapters over the reference engines. *)
Example C51_case :
  let cad := cadical_solve_cnf Debug ref_cadical (fun l => l) in
  let splr := splr_solve_cnf Debug ref_splr (fun l => l) in
  let vari := varisat_solve_cnf Debug ref_varisat (fun l => l) in
  let mini := minisat_stateful Debug ref_minisat (fun l => l) in
  let cads := cadical_stateful Debug ref_cadical (fun l => l) in
  complete_stateless Debug cad /\ complete_stateless Debug splr /\ shipped_stateless Debug vari /\
  complete_stateful Debug mini /\ shipped_stateful Debug cads /\
  (Forall (fun x => x < 256) (encode ex_style differ_circuit) /\
   (exists syms comment, file (encode ex_style differ_circuit) differ_circuit syms comment) /\
   numbering_fits differ_circuit false /\ bad_latches_read differ_circuit false /\
   exists a s i1 i2 i3 i4 i5, from_vector_of_bytes (encode ex_style differ_circuit) = Ok a /\
     from_aig Debug (fun l => l) a false = Ok s /\
     ic3_stateless Debug no_random cad 20 s = Ok (Proof i1) /\
     ic3_stateless Debug no_random vari 20 s = Ok (Proof i2) /\
     ic3_stateful Debug no_random mini 20 s = Ok (Proof i3) /\
     ic3_stateful Debug no_random cads 20 s = Ok (Proof i4) /\
     pdr Debug no_random cads 100 s = Ok (Proof i5) /\
     check_invariant Debug cad splr vari (fun l => l) (fun l => l) s i5 = Ok tt) /\
  (Forall (fun x => x < 256) (encode ex_style shift_circuit) /\
   (exists syms comment, file (encode ex_style shift_circuit) shift_circuit syms comment) /\
   well_numbered Debug shift_circuit false /\
   exists a s asg d1 d2, from_vector_of_bytes (encode ex_style shift_circuit) = Ok a /\
     from_aig Debug (fun l => l) a false = Ok s /\
     ic3_stateless Debug no_random splr 20 s = Ok (ProofCTX d1) /\
     ic3_stateful Debug no_random cads 20 s = Ok (ProofCTX d2) /\
     bmc_search Debug vari (mkClock (fun _ => false) (fun _ => false)) s 7 = Ok (CTX asg 2)).
Proof.
  cbv zeta.
  split; [apply with_cadical; [exact id_order|exact ref_cadical_ok]|].
  split; [apply with_splr; [exact id_order|exact ref_splr_ok]|].
  split; [apply with_varisat; [exact id_order|exact ref_varisat_ok]|].
  split; [apply with_minisat; [exact id_order|exact ref_minisat_ok]|].
  split; [apply with_cadical_stateful; [exact id_order|exact ref_cadical_ok]|].
  assert (B : forall l, forallb (fun x => x <? 256) l = true -> Forall (fun x => x < 256) l).
  { intros l H. apply Forall_forall. intros x Hx. apply N.ltb_lt.
    apply (proj1 (forallb_forall _ l) H x Hx). }
  assert (Bd : Forall (fun x => x < 256) (encode ex_style differ_circuit))
    by (apply B; vm_compute; reflexivity).
  assert (Bs : Forall (fun x => x < 256) (encode ex_style shift_circuit))
    by (apply B; vm_compute; reflexivity).
  split; (split; [assumption|]); (split; [apply encoded_file; [reflexivity|vm_compute; repeat split|assumption]|]);
    clear B Bd Bs.
  - split; [apply no_constants_ok; reflexivity|]. split.
    { intros l [<-|[]] (nx & r & j & Hj & Hv).
      destruct j as [|[|j]]; [discriminate Hv..|destruct j; discriminate Hj]. }
    do 7 eexists. do 7 (split; [vm_compute; reflexivity|]). vm_compute; reflexivity.
  - split; [right; apply no_constants_ok; reflexivity|].
    do 5 eexists. do 4 (split; [vm_compute; reflexivity|]). vm_compute; reflexivity.
Qed.
