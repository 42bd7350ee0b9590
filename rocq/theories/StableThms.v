(** Lemmas behind C54 - C56: what does not change when the flag for outputs, the search limit or the
    stimulus of a simulation changes. *)
From Verif Require Import Base Formulas FormulaLogic Aig AigParse Fsts Bmc Solvers Brute Spec SpecText
  SpecAig SpecAiger SpecFsts SpecAlg Tac FormulasFacts LogicFacts AigFacts SimFacts AigThms FstsFacts
  FstsSem FstsThms OrderThms BmcThms.
Open Scope N_scope.

(* ------------------------------------------------------------------------ C54 *)

Lemma literal_of_aig_code b l x : lit_var l <= 2147483647 -> literal_of_aig b l = Ok x -> x = l.
Proof.
  intros Hl H. destruct b.
  - destruct (N.eq_dec (lit_var l) 0) as [E|E].
    + unfold literal_of_aig in H. rewrite shiftr_var, E in H. discriminate H.
    + rewrite literal_of_aig_ok in H by auto. congruence.
  - rewrite literal_of_aig_ok in H by auto. congruence.
Qed.

Lemma unsafety_lits b a flag d :
  Forall (fun l => lit_var l <= 2147483647) (get_bad_information a ++ get_output_information a) ->
  create_unsafety_property b a flag = Ok d ->
  forall l, In l (clause_lits d) <->
    In l (get_bad_information a) \/ flag = true /\ In l (get_output_information a).
Proof.
  intros Hr H l. rewrite Forall_forall in Hr. unfold create_unsafety_property in H.
  set (info := get_bad_information a ++ (if flag then get_output_information a else [])) in *.
  assert (Hi : forall x, In x info <-> In x (get_bad_information a) \/ flag = true /\ In x (get_output_information a)).
  { intros x. unfold info. rewrite in_app_iff. destruct flag; cbn; intuition discriminate. }
  assert (Hd : forall x, In x (clause_lits d) <-> In x info).
  { intros x.
    assert (R : forall z, In z info -> lit_var z <= 2147483647).
    { intros z Hz. apply Hr. apply in_app_iff. apply Hi in Hz. tauto. }
    assert (C : exists ls, mapM (literal_of_aig b) info = Ok ls /\ d = clause_new ls).
    { destruct info as [|y info']; [exists []; split; [reflexivity|congruence]|]. binds. eauto. }
    clear H. destruct C as (a0 & E & ->). rewrite in_clause_new.
    assert (E' : a0 = info); [|rewrite E'; tauto].
    apply mapM_ok in E.
    clear Hi. clearbody info. induction E as [|z z' l1 l2 Hz _ IH]; auto.
    apply literal_of_aig_code in Hz; [|apply R; left; auto]. f_equal; auto.
    apply IH. intros u Hu. apply R. right; auto. }
  rewrite Hd. apply Hi.
Qed.

Lemma flag_fields b o a s1 s0 :
  Forall (fun l => lit_var l <= 2147483647) (get_bad_information a ++ get_output_information a) ->
  from_aig b o a true = Ok s1 -> from_aig b o a false = Ok s0 ->
  exists safe1 cone1,
    s1 = mkFSTS (initial_literals s0) (initial_states s0) (transition s0) safe1 (unsafety_property s1)
           (max_literal_number s0) (state_literals s0) (input_literals s0) cone1
           (cone_of_transition_only_latches s0) /\
  forall l, In l (clause_lits (get_unsafety_property s1)) <->
    In l (clause_lits (get_unsafety_property s0)) \/ In l (get_output_information a).
Proof.
  intros Hr H1 H0. unfold from_aig in H1, H0.
  destruct (assert_ (_ <? _)); cbn [bind] in *; try discriminate.
  destruct (assert_ _); cbn [bind] in *; try discriminate.
  destruct (u32_of_usize _) as [m| |]; cbn [bind] in *; try discriminate.
  destruct (create_input_and_state_literal_numbers b a) as [(ins, sts)| |]; cbn [bind] in *; try discriminate.
  destruct (create_initial_cnf b a) as [init| |]; cbn [bind] in *; try discriminate.
  destruct (create_transition_cnf b o a m) as [t| |]; cbn [bind] in *; try discriminate.
  apply bind_ok in H1. destruct H1 as (f1 & _ & H1). apply bind_ok in H1. destruct H1 as (u1 & U1 & H1).
  apply bind_ok in H0. destruct H0 as (f0 & _ & H0). apply bind_ok in H0. destruct H0 as (u0 & U0 & H0).
  injection H1 as <-. injection H0 as <-.
  cbn [get_unsafety_property unsafety_property].
  pose proof (unsafety_lits _ _ _ _ Hr U1) as L1. pose proof (unsafety_lits _ _ _ _ Hr U0) as L0.
  do 2 eexists. split; [reflexivity|].
  intros l. rewrite L1, L0. intuition discriminate.
Qed.

Lemma flag_dynamics b o1 o0 a c s1 s0 :
  represents a c -> circuit_wf c -> order_ok o1 -> order_ok o0 ->
  from_aig b o1 a true = Ok s1 -> from_aig b o0 a false = Ok s0 ->
  same_dynamics s1 s0 /\
  forall l, In l (clause_lits (get_unsafety_property s1)) <->
    In l (clause_lits (get_unsafety_property s0)) \/ In l (c_outputs c).
Proof.
  intros Hr Hwf O1 O0 H1 H0.
  assert (Eo : get_output_information a = c_outputs c /\ get_bad_information a = c_bad c /\
    get_highest_variable_number a = c_max c)
    by (unfold represents, get_output_information, get_bad_information, get_highest_variable_number in *; tauto).
  destruct Eo as (Eo & Eb & Em).
  assert (Hm : c_max c < 2147483647).
  { unfold from_aig in H1. rewrite Em in H1. binds. unfold u31_max in *. lia. }
  assert (Hl : Forall (fun l => lit_var l <= 2147483647) (get_bad_information a ++ get_output_information a)).
  { rewrite Eo, Eb. destruct Hwf as (_ & Ho & Hb & _). apply Forall_app.
    split; eapply Forall_impl; [|exact Hb| |exact Ho]; unfold lit_in_range; intros; lia. }
  pose proof (from_aig_order b o1 o0 a true O1 O0) as S. rewrite H1 in S.
  destruct (from_aig b o0 a true) as [s1'| |] eqn:H1'; cbn [same_outcome] in S; try contradiction.
  destruct (flag_fields b o0 a s1' s0 Hl H1' H0) as (safe1 & cone1 & E & L). rewrite Eo in L.
  destruct S as (S1 & S2 & _ & S3 & S4 & S5 & S6 & S7 & _ & _ & S8).
  split; [|rewrite S2; exact L]. unfold same_dynamics.
  rewrite S1, S3, S4, S5, S7.
  split; [rewrite E; reflexivity|]. split; [rewrite E; reflexivity|]. split; [rewrite E; reflexivity|].
  split; [rewrite E; reflexivity|].
  split; [assert (Et : get_transition_relation s1' = get_transition_relation s0) by (rewrite E; reflexivity); rewrite <- Et; exact S6|]. split; [rewrite E; reflexivity|].
  intros q. destruct (S8 q) as (Q1 & _ & Q2). rewrite Q1, Q2, E. split; reflexivity.
Qed.

(** The flag can only make [from_aig] reject more, and only because of constant outputs. *)
Lemma flag_accepts b o1 o0 a c : represents a c -> circuit_wf c -> circuit_fits c ->
  order_ok o1 -> order_ok o0 ->
  (exists s1, from_aig b o1 a true = Ok s1) <->
  (exists s0, from_aig b o0 a false = Ok s0) /\
  (b = Debug -> Forall (fun l => 2 <= l) (c_outputs c)).
Proof.
  intros Hr Hwf Hf O1 O0. destruct b.
  - rewrite (from_aig_debug_exact o1 a c true Hr Hwf Hf O1), (from_aig_debug_exact o0 a c false Hr Hwf Hf O0).
    unfold bad_literals. rewrite app_nil_r, Forall_app.
    assert (E : Forall (fun l => lit_var l <> 0) (c_outputs c) <-> Forall (fun l => 2 <= l) (c_outputs c)).
    { rewrite !Forall_forall. split; intros H l Hl; specialize (H l Hl); unfold lit_var in *; lia. }
    rewrite E. tauto.
  - rewrite (from_aig_release_exact o1 a c true Hr Hwf Hf O1), (from_aig_release_exact o0 a c false Hr Hwf Hf O0).
    intuition discriminate.
Qed.

(* ------------------------------------------------------------------------ C55 *)

(** With [k] more iterations the loop does the same unless the first [n] all find nothing. *)
Lemma bmc_loop_more b T clk s L L' k : forall n d,
  bmc_loop b T clk s L n d = (z <- i32_of_u32 L ;; Ok (NoCTX z)) /\
  bmc_loop b T clk s L' (n + k) d = bmc_loop b T clk s L' k (d + N.of_nat n) \/
  bmc_loop b T clk s L n d = bmc_loop b T clk s L' (n + k) d /\
  (forall asg j, bmc_loop b T clk s L n d = Ok (CTX asg j) -> j < d + N.of_nat n) /\
  (forall z, bmc_loop b T clk s L n d = Ok (NoCTX z) -> (z < Z.of_N (d + N.of_nat n) - 1)%Z).
Proof.
  assert (Z0 : forall d' z n, (d0 <- i32_of_u32 d' ;; Ok (NoCTX (d0 - 1))) = Ok (NoCTX z) ->
    (z < Z.of_N (d' + N.of_nat (S n)) - 1)%Z).
  { intros d' z n H. unfold i32_of_u32 in H. binds. lia. }
  assert (Z1 : forall d' asg j, (d0 <- i32_of_u32 d' ;; Ok (NoCTX (d0 - 1))) <> Ok (CTX asg j)).
  { intros d' asg j H. unfold i32_of_u32 in H. destruct (assert_ _); discriminate H. }
  induction n as [|n IH]; intros d.
  - left. split; [reflexivity|]. cbn [plus]. f_equal. lia.
  - cbn [bmc_loop plus]. destruct (expired_before clk d).
    { right. split; [reflexivity|]. split; [intros asg j H; elim (Z1 _ _ _ H)|eauto]. }
    destruct (bmc_formula b s d) as [f| |]; cbn [bind];
      [|right; split; [reflexivity|split; discriminate]|right; split; [reflexivity|split; discriminate]].
    destruct (timed_sat_call T clk d f) as [[|[|asg]]| |]; cbn [bind];
      try (right; split; [reflexivity|split; discriminate]).
    + right. split; [reflexivity|]. split; [intros asg j H; elim (Z1 _ _ _ H)|eauto].
    + specialize (IH (d + 1)). replace (d + N.of_nat (S n)) with (d + 1 + N.of_nat n) by lia. exact IH.
    + right. split; [reflexivity|]. split; [|discriminate]. intros asg' j H. injection H as _ <-. lia.
Qed.

Lemma bmc_ctx_range b T clk s L : forall n d asg j,
  bmc_loop b T clk s L n d = Ok (CTX asg j) -> d <= j.
Proof.
  assert (Z1 : forall d' asg j, (d0 <- i32_of_u32 d' ;; Ok (NoCTX (d0 - 1))) <> Ok (CTX asg j)).
  { intros d' asg j H. unfold i32_of_u32 in H. destruct (assert_ _); discriminate H. }
  induction n as [|n IH]; intros d asg j H; cbn [bmc_loop] in H.
  - unfold i32_of_u32 in H. destruct (assert_ _); discriminate H.
  - destruct (expired_before clk d); [elim (Z1 _ _ _ H)|].
    destruct (bmc_formula b s d) as [f| |]; cbn [bind] in H; try discriminate.
    destruct (timed_sat_call T clk d f) as [[|[|a]]| |]; cbn [bind] in H; try discriminate.
    + elim (Z1 _ _ _ H).
    + apply IH in H. lia.
    + injection H as _ <-. lia.
Qed.

Lemma bmc_limits b T clk s L L' : L <= L' -> L' < 4294967295 ->
  (forall asg d, bmc_search b T clk s L = Ok (CTX asg d) -> bmc_search b T clk s L' = Ok (CTX asg d)) /\
  (forall z, bmc_search b T clk s L = Ok (NoCTX z) -> (z < Z.of_N L)%Z ->
     bmc_search b T clk s L' = Ok (NoCTX z)) /\
  (forall asg d, bmc_search b T clk s L' = Ok (CTX asg d) -> d <= L ->
     bmc_search b T clk s L = Ok (CTX asg d)) /\
  (forall asg d, bmc_search b T clk s L' = Ok (CTX asg d) -> L < d -> L <= 2147483647 ->
     bmc_search b T clk s L = Ok (NoCTX (Z.of_N L))).
Proof.
  intros HL HL'.
  assert (B : forall l, l < 4294967295 -> bmc_search b T clk s l = bmc_loop b T clk s l (N.to_nat (l + 1)) 0).
  { intros l Hl. unfold bmc_search, u32_add. replace (l + 1 <? u32_mod) with true by (unfold u32_mod; lia).
    reflexivity. }
  rewrite !B by lia.
  replace (N.to_nat (L' + 1)) with (N.to_nat (L + 1) + N.to_nat (L' - L))%nat by lia.
  pose proof (bmc_loop_more b T clk s L L' (N.to_nat (L' - L)) (N.to_nat (L + 1)) 0) as M.
  replace (0 + N.of_nat (N.to_nat (L + 1))) with (L + 1) in M by lia.
  assert (Z1 : forall asg j, (z <- i32_of_u32 L ;; Ok (NoCTX z)) <> Ok (CTX asg j)).
  { intros asg j H. unfold i32_of_u32 in H. destruct (assert_ _); discriminate H. }
  destruct M as [(E & E')|(E & Hc & Hz)].
  - rewrite E, E'. split; [intros asg d H; elim (Z1 _ _ H)|].
    split; [intros z H Hz; unfold i32_of_u32 in H; binds; lia|].
    split; intros asg d H Hd.
    + apply bmc_ctx_range in H. lia.
    + intros HL2. unfold i32_of_u32. replace (L <=? 2147483647) with true by lia. reflexivity.
  - rewrite <- E. do 3 (split; [auto|]).
    intros asg d H Hd _. apply Hc in H. lia.
Qed.

(* ------------------------------------------------------------------------ C56 *)

Lemma simulate_prefix a pre post init r : pre <> [] -> simulate a (pre ++ post) init = Ok r ->
  simulate a pre init = Ok (firstn (length pre) r).
Proof.
  intros Hp H. destruct pre as [|m pre]; [contradiction|]. cbn [app simulate] in *.
  assert (MA : forall A B (f : A -> res B) l1 l2 x, mapM f (l1 ++ l2) = Ok x -> exists y, mapM f l1 = Ok y).
  { intros A B f l1. induction l1 as [|z l1 IH]; cbn; intros l2 x E; [eauto|]. binds.
    destruct (IH _ _ E1) as (y & Ey). rewrite E0, Ey. cbn. eauto. }
  assert (LP : forall l1 l2 s0 x, simulate_loop a s0 (l1 ++ l2) = Ok x ->
    simulate_loop a s0 l1 = Ok (firstn (length l1) x)).
  { induction l1 as [|z l1 IH]; cbn; intros l2 s0 x E; auto. binds. rewrite E0. cbn [bind].
    rewrite (IH _ _ _ E1). reflexivity. }
  apply bind_ok in H. destruct H as (u1 & E1 & H).
  change (m :: pre ++ post) with ((m :: pre) ++ post) in E1.
  destruct (MA _ _ _ _ _ _ E1) as (y & ->). cbn [bind].
  destruct (assert_ (_ <=? _)); cbn [bind] in *; try discriminate.
  destruct (assert_ (_ =? _)); cbn [bind] in *; try discriminate.
  destruct (mapM (check_initial_latch a init) (latches a)); cbn [bind] in *; try discriminate.
  destruct (get_initial_simulation_state a m init) as [s0| |]; cbn [bind] in *; try discriminate.
  apply bind_ok in H. destruct H as (tl & E2 & H). injection H as <-. rewrite (LP _ _ _ _ E2). reflexivity.
Qed.

Lemma simulate_memoryless a c : represents a c -> circuit_wf c -> circuit_fits c ->
  forall pre1 pre2 rest1 rest2 init1 init2 r1 r2,
  Forall (fun m => NoDup (keys m)) (pre1 ++ rest1) -> Forall (fun m => NoDup (keys m)) (pre2 ++ rest2) ->
  NoDup (keys init1) -> NoDup (keys init2) ->
  simulate a (pre1 ++ rest1) init1 = Ok r1 -> simulate a (pre2 ++ rest2) init2 = Ok r2 ->
  Forall2 same_map rest1 rest2 ->
  (forall v, is_latch c v -> nth (N.to_nat v) (nth (length pre1) r1 []) false =
                             nth (N.to_nat v) (nth (length pre2) r2 []) false) ->
  skipn (length pre1) r1 = skipn (length pre2) r2.
Proof.
  intros Hr Hwf Hf pre1 pre2 rest1 rest2 init1 init2 r1 r2 K1 K2 I1 I2 H1 H2 HR HL.
  destruct (simulate_full a c Hr Hwf Hf _ _ _ K1 I1 H1) as (L1 & V1 & T1 & _).
  destruct (simulate_full a c Hr Hwf Hf _ _ _ K2 I2 H2) as (L2 & V2 & T2 & _).
  rewrite app_length in L1, L2.
  assert (LR : length rest1 = length rest2) by (clear - HR; induction HR; cbn; auto).
  set (w1 := fun t v => if v <=? c_max c then nth (N.to_nat v) (nth t r1 []) false else false) in *.
  set (w2 := fun t v => if v <=? c_max c then nth (N.to_nat v) (nth t r2 []) false else false) in *.
  assert (HL' : same_latches c (w1 (length pre1)) (w2 (length pre2))).
  { intros v Hv. unfold w1, w2. pose proof (HL v Hv). destruct (v <=? c_max c); auto. }
  assert (A : forall k, (k < length rest1)%nat ->
    forall v, v <= c_max c -> w1 (length pre1 + k)%nat v = w2 (length pre2 + k)%nat v).
  { assert (IN : forall k, (k < length rest1)%nat ->
      same_inputs c (w1 (length pre1 + k)%nat) (w2 (length pre2 + k)%nat) /\
      wires_ok c (w1 (length pre1 + k)%nat) /\ wires_ok c (w2 (length pre2 + k)%nat)).
    { intros k Hk. destruct (nth_error rest1 k) as [m1|] eqn:E1; [|apply nth_error_None in E1; lia].
      assert (E2 : exists m2, nth_error rest2 k = Some m2 /\ same_map m1 m2).
      { clear - HR E1. revert k E1. induction HR as [|x y l l' Hxy _ IH]; intros [|k] E; cbn in *; try discriminate; eauto.
        injection E as ->. eauto. }
      destruct E2 as (m2 & E2 & Sm).
      assert (N1 : nth_error (pre1 ++ rest1) (length pre1 + k) = Some m1)
        by (rewrite nth_error_app2 by lia; rewrite <- E1; f_equal; lia).
      assert (N2 : nth_error (pre2 ++ rest2) (length pre2 + k) = Some m2)
        by (rewrite nth_error_app2 by lia; rewrite <- E2; f_equal; lia).
      destruct (T1 _ _ N1) as (W1 & J1 & _). destruct (T2 _ _ N2) as (W2 & J2 & _).
      split; [|auto]. intros v Hv. specialize (J1 v Hv). specialize (J2 v Hv). apply Sm in J1.
      rewrite Forall_forall in K2. pose proof (K2 _ (nth_error_In _ _ N2)) as Kn. cbv beta in Kn.
      apply map_get_in in J1, J2; auto. congruence. }
    induction k as [|k IH]; intros Hk v Hv.
    - destruct (IN _ Hk) as (J & W1 & W2). rewrite !Nat.add_0_r in *. apply (wires_same c); auto.
    - destruct (IN _ Hk) as (J & W1 & W2). apply (wires_same c); auto.
      intros u (nx & rs & Hu).
      destruct (nth_error (pre1 ++ rest1) (length pre1 + S k)) as [m1|] eqn:N1;
        [|apply nth_error_None in N1; rewrite app_length in N1; lia].
      destruct (nth_error (pre2 ++ rest2) (length pre2 + S k)) as [m2|] eqn:N2;
        [|apply nth_error_None in N2; rewrite app_length in N2; lia].
      destruct (T1 _ _ N1) as (_ & _ & _ & S1). destruct (T2 _ _ N2) as (_ & _ & _ & S2).
      rewrite (S1 (length pre1 + k)%nat ltac:(lia) _ _ _ Hu), (S2 (length pre2 + k)%nat ltac:(lia) _ _ _ Hu).
      apply lit_value_ext. apply IH; [lia|]. destruct Hwf as (Hw & _). destruct (Hw _ _ _ Hu) as (X & _). exact X. }
  apply (nth_ext _ _ [] []); rewrite !skipn_length; [lia|].
  intros k Hk. rewrite Forall_forall in V1, V2.
  assert (S1 : forall A (l : list A) d n k, nth k (skipn n l) d = nth (n + k) l d).
  { clear. intros A l d n. revert l. induction n as [|n IH]; intros l k; [reflexivity|].
    destruct l as [|x l]; [destruct k; reflexivity|]. cbn. apply IH. }
  rewrite !S1.
  assert (P1 : lenN (nth (length pre1 + k) r1 []) = c_max c + 1) by (apply V1, nth_In; lia).
  assert (P2 : lenN (nth (length pre2 + k) r2 []) = c_max c + 1) by (apply V2, nth_In; lia).
  unfold lenN in P1, P2.
  apply (nth_ext _ _ false false); [lia|]. intros j Hj.
  assert (Hv : N.of_nat j <= c_max c) by lia.
  specialize (A k ltac:(lia) (N.of_nat j) Hv). unfold w1, w2 in A.
  replace (N.of_nat j <=? c_max c) with true in A by lia. rewrite Nat2N.id in A. exact A.
Qed.

(** Only the initial values of uninitialised latches matter, and maps matter only as functions. *)
Lemma simulate_needs a c : represents a c -> circuit_wf c -> circuit_fits c ->
  forall ins1 ins2 init1 init2 r1 r2,
  Forall (fun m => NoDup (keys m)) ins1 -> Forall (fun m => NoDup (keys m)) ins2 ->
  NoDup (keys init1) -> NoDup (keys init2) ->
  simulate a ins1 init1 = Ok r1 -> simulate a ins2 init2 = Ok r2 ->
  Forall2 same_map ins1 ins2 ->
  (forall v next x, latch c v next (2 * v) -> (In (v, x) init1 <-> In (v, x) init2)) ->
  r1 = r2.
Proof.
  intros Hr Hwf Hf ins1 ins2 init1 init2 r1 r2 K1 K2 I1 I2 H1 H2 HR HI.
  apply (simulate_memoryless a c Hr Hwf Hf [] [] ins1 ins2 init1 init2 r1 r2 K1 K2 I1 I2 H1 H2 HR).
  cbn [length]. intros v (nx & rs & Hv).
  destruct (simulate_full a c Hr Hwf Hf _ _ _ K1 I1 H1) as (L1 & _ & T1 & _).
  destruct (simulate_full a c Hr Hwf Hf _ _ _ K2 I2 H2) as (L2 & _ & T2 & _).
  assert (Hm : v <= c_max c) by (pose proof (latch_range _ _ _ _ Hv); unfold c_max in *; lia).
  destruct ins1 as [|m1 ins1]; [discriminate H1|]. destruct ins2 as [|m2 ins2]; [discriminate H2|].
  destruct (T1 0%nat m1 eq_refl) as (_ & _ & Q1 & _). destruct (T2 0%nat m2 eq_refl) as (_ & _ & Q2 & _).
  destruct (Q1 eq_refl _ _ _ Hv) as (A0 & A1 & A2). destruct (Q2 eq_refl _ _ _ Hv) as (B0 & B1 & B2).
  cbv beta in A0, A1, A2, B0, B1, B2. replace (v <=? c_max c) with true in * by lia.
  destruct Hwf as (Hw & _). destruct (Hw _ _ _ Hv) as (_ & [E|[E|E]]).
  - rewrite A0, B0; auto.
  - rewrite A1, B1; auto.
  - specialize (A2 E). specialize (B2 E). subst rs. apply (HI _ _ _ Hv) in A2.
    apply map_get_in in A2, B2; auto. congruence.
Qed.

(* ---------------------------------------------------------------- C55, different solvers *)

Lemma bmc_two_searches c flag m1 b1 s1 T1 clk1 L1 r1 m2 b2 s2 T2 clk2 L2 r2 :
  system_of b1 c flag s1 -> well_numbered b1 c flag -> solver_sound_below m1 T1 ->
  L1 < 4294967296 -> b1 = Debug /\ m1 = 2147483648 \/ (L1 + 1) * c_max c < m1 <= 2147483648 ->
  system_of b2 c flag s2 -> well_numbered b2 c flag -> solver_sound_below m2 T2 ->
  L2 < 4294967296 -> b2 = Debug /\ m2 = 2147483648 \/ (L2 + 1) * c_max c < m2 <= 2147483648 ->
  bmc_search b1 T1 clk1 s1 L1 = Ok r1 -> bmc_search b2 T2 clk2 s2 L2 = Ok r2 ->
  match r1, r2 with
  | CTX _ d1, CTX _ d2 => d1 = d2
  | CTX _ d, NoCTX z | NoCTX z, CTX _ d => (z < Z.of_N d)%Z
  | NoCTX _, NoCTX _ => True
  end.
Proof.
  intros S1 W1 T1s Hl1 Hb1 S2 W2 T2s Hl2 Hb2 E1 E2.
  assert (X : forall asg : Assignment, exists a, agrees asg a).
  { intros asg. exists (fun v => match get_value asg v with Some x => x | None => false end).
    intros v x Hv. rewrite Hv. reflexivity. }
  destruct r1 as [z1|a1 d1], r2 as [z2|a2 d2]; auto.
  - destruct (bmc_noctx_sound _ _ _ _ _ _ _ _ _ S1 W1 T1s Hl1 Hb1 E1) as (_ & N1).
    destruct (bmc_ctx_sound _ _ _ _ _ _ _ _ _ _ S2 W2 T2s Hl2 Hb2 E2) as (_ & _ & C2).
    destruct (X a2) as (x & Hx). destruct (C2 x Hx) as (w & Hw & Hbad & _).
    destruct (Z.lt_ge_cases z1 (Z.of_N d2)) as [|H]; auto. elim (N1 w Hw (N.to_nat d2)); auto. lia.
  - destruct (bmc_noctx_sound _ _ _ _ _ _ _ _ _ S2 W2 T2s Hl2 Hb2 E2) as (_ & N1).
    destruct (bmc_ctx_sound _ _ _ _ _ _ _ _ _ _ S1 W1 T1s Hl1 Hb1 E1) as (_ & _ & C2).
    destruct (X a1) as (x & Hx). destruct (C2 x Hx) as (w & Hw & Hbad & _).
    destruct (Z.lt_ge_cases z2 (Z.of_N d1)) as [|H]; auto. elim (N1 w Hw (N.to_nat d1)); auto. lia.
  - destruct (bmc_ctx_sound _ _ _ _ _ _ _ _ _ _ S1 W1 T1s Hl1 Hb1 E1) as (_ & B1 & C1).
    destruct (bmc_ctx_sound _ _ _ _ _ _ _ _ _ _ S2 W2 T2s Hl2 Hb2 E2) as (_ & B2 & C2).
    destruct (X a1) as (x1 & Hx1). destruct (C1 x1 Hx1) as (w1 & Hw1 & Bad1 & _).
    destruct (X a2) as (x2 & Hx2). destruct (C2 x2 Hx2) as (w2 & Hw2 & Bad2 & _).
    destruct (N.lt_trichotomy d1 d2) as [H|[H|H]]; auto.
    + elim (B2 w1 Hw1 (N.to_nat d1)); auto. lia.
    + elim (B1 w2 Hw2 (N.to_nat d2)); auto. lia.
Qed.
