(** The provers and BMC on counters of any width. *)
From Verif Require Import Base Formulas FormulaLogic Aig AigParse Fsts Bmc Solvers Ic3 Pdr Spec SpecAig SpecAiger SpecFsts
  SpecAlg Tac LogicFacts AigFacts AigThms FstsThms BmcThms ConeThms Ic3Thms Plain SoundThms PdrThms CounterGen CounterThms
  PdrCalls.
Open Scope N_scope.

Lemma counter_read width : (0 < width)%nat -> bad_latches_read (counter width) false.
Proof.
  intros H l Hl (nx & r & L). exfalso. destruct (latch_of _ _ _ _ L) as (i & Hi & E & _).
  unfold bad_literals in Hl. cbn [app] in Hl. rewrite app_nil_r in Hl. destruct Hl as [<-|[]].
  unfold carry, lit_var in E. destruct (N.eqb_spec (N.of_nat width) 0); lia.
Qed.

Lemma exists_nat n : exists m, N.of_nat m = n.
Proof. exists (N.to_nat n). apply N2Nat.id. Qed.

Lemma exists_steps n : exists m, N.of_nat m + 1 = 2 ^ n.
Proof.
  destruct (exists_nat (2 ^ n - 1)) as (m & E). exists m. rewrite E. pose proof (N.pow_nonzero 2 n). lia.
Qed.

Lemma counter_bound n : exists c, circuit_wf c /\ lenN (c_latches c) = n /\
  forall m, N.of_nat m + 1 = 2 ^ n -> shortest c false m.
Proof.
  destruct (exists_nat n) as (w & <-). exists (counter w). split; [apply counter_wf|]. split; [apply counter_latches|].
  apply counter_shortest.
Qed.

Lemma counter_bmc b n limit : 0 < n -> limit + 2 = 2 ^ n -> (limit + 1) * (4 * n) < 2147483648 ->
  exists c s, lenN (c_latches c) = n /\ system_of b c false s /\ numbering_fits c false /\ unsafe c false /\
  forall T clk, solver_correct_below 2147483648 T -> never_times_out clk ->
  bmc_search b T clk s limit = Ok (NoCTX (Z.of_N limit)).
Proof.
  intros H0 Hl Hm. destruct (exists_nat n) as (w & <-).
  assert (Hn : 8 * N.of_nat w <= 2147483647).
  { destruct (N.eq_dec (N.of_nat w) 1) as [E|E]; [lia|].
    assert (2 ^ 2 <= 2 ^ N.of_nat w) by (apply N.pow_le_mono_r; lia). change (2 ^ 2) with 4 in *.
    assert (2 * (4 * N.of_nat w) <= (limit + 1) * (4 * N.of_nat w)) by (apply N.mul_le_mono_r; lia). lia. }
  destruct (counter_system w b ltac:(lia) Hn) as (s & Hs).
  pose proof (counter_numbering w ltac:(lia) Hn) as Hf.
  destruct (exists_steps (N.of_nat w)) as (m & Em). pose proof (counter_shortest w m Em) as Hsh.
  exists (counter w), s. split; [apply counter_latches|]. split; [exact Hs|]. split; [exact Hf|].
  destruct Hsh as (Hsh & v & Hr & Hb). split; [exists v, m; auto|]. intros T clk HT Hc.
  eapply (bmc_complete 2147483648 b (counter w) false s T clk limit Hs (or_intror Hf) HT); auto.
  - assert (2 * 2 ^ 31 = 4294967296) by reflexivity. 
    assert ((limit + 1) * 1 <= (limit + 1) * (4 * N.of_nat w)) by (apply N.mul_le_mono_l; lia). lia.
  - rewrite counter_max. lia.
  - intros v' t Hr' Ht. apply (Hsh v' Hr' t). lia.
Qed.

Lemma counter_calls b n : 0 < n -> 8 * n <= 2147483647 ->
  exists c s, lenN (c_latches c) = n /\ system_of b c false s /\ numbering_fits c false /\ bad_latches_read c false /\
  unsafe c false /\
  (forall R T fuel r k, random_ok R -> solver_correct_below 2147483647 T -> solver_total_below 2147483647 T ->
     ic3_stateless_run b R T fuel s = Ok (r, k) -> 2 ^ n <= N.of_nat k) /\
  (forall R SS fuel r k, random_ok R -> stateful_correct SS ->
     ic3_stateful_run b R SS fuel s = Ok (r, k) -> 2 ^ n <= N.of_nat k) /\
  (forall R SS fuel r k, random_ok R -> stateful_correct SS ->
     pdr_run b R SS fuel s = Ok (r, k) -> 2 ^ n <= N.of_nat (calls_extract_model k) + 1).
Proof.
  intros H0 Hn. destruct (exists_nat n) as (w & <-).
  destruct (counter_system w b ltac:(lia) Hn) as (s & Hs).
  pose proof (counter_numbering w ltac:(lia) Hn) as Hf. pose proof (counter_read w ltac:(lia)) as Hl.
  destruct (exists_steps (N.of_nat w)) as (m & Em). pose proof (counter_shortest w m Em) as Hsh.
  pose proof (shortest_unsafe _ _ _ Hsh) as Hun.
  exists (counter w), s. split; [apply counter_latches|]. split; [exact Hs|]. split; [exact Hf|]. split; [exact Hl|].
  split; [destruct Hsh as (_ & v & Hr & Hb); exists v, m; auto|].
  split; [|split].
  - intros R T fuel r k HR HT HTd E.
    destruct (ic3_stateless_ok b _ _ s R T fuel Hs Hf HR HT HTd) as (P1 & _).
    destruct r as [inv|d].
    + elim Hun. refine (proj1 (P1 inv _)). unfold stateless_plain, ic3_stateless_run in *.
      destruct (ic3_cache b s); cbn [bind] in *; try discriminate.
      destruct (ic3_prove _ _ _ _ _ _) as [(? & ?)| |]; cbn [bind] in *; try discriminate. congruence.
    + pose proof (stateless_calls_shortest _ _ _ _ _ _ _ _ _ _ Hs Hf HR HT HTd Hsh E). lia.
  - intros R SS fuel r k HR HS E.
    destruct (ic3_stateful_ok b _ _ s R SS fuel Hs Hf HR HS) as (P1 & _).
    destruct r as [inv|d].
    + elim Hun. refine (proj1 (P1 inv _)). unfold stateful_plain, ic3_stateful_run in *.
      destruct (ic3_cache b s); cbn [bind] in *; try discriminate.
      destruct (sf_new _ _); cbn [bind] in *; try discriminate.
      destruct (ic3_prove _ _ _ _ _ _) as [(? & ?)| |]; cbn [bind] in *; try discriminate. congruence.
    + pose proof (stateful_calls_shortest _ _ _ _ _ _ _ _ _ _ Hs Hf HR HS Hsh E). lia.
  - intros R SS fuel r k HR HS E. destruct r as [inv|d].
    + elim Hun. refine (proj1 (pdr_proof _ _ _ _ Hs Hf _ HS _ HR fuel inv (or_intror Hl) _)).
      unfold pdr_plain, pdr_run in *.
      destruct (pdr_prove _ _ _ _ _ _) as [(? & ?)| |]; cbn [bind] in *; try discriminate. congruence.
    + pose proof (pdr_calls_shortest _ _ _ _ _ _ _ _ _ _ Hs Hf HR HS Hl Hsh E). lia.
Qed.

Lemma pdr_overflows c flag s R SS fuel m : system_of Debug c flag s -> numbering_fits c flag ->
  random_ok R -> stateful_correct SS -> bad_latches_read c flag ->
  shortest c flag m -> 4294967296 <= N.of_nat m ->
  (forall r, pdr Debug R SS fuel s <> Ok r) /\
  (enough_pdr_fuel c fuel -> pdr Debug R SS fuel s = Panic).
Proof.
  intros Hs Hf HR HS Hb Hm Hl.
  assert (K : forall r, pdr Debug R SS fuel s <> Ok r).
  { intros r E. destruct (pdr_link Debug R SS fuel s) as (L1 & L2). pose proof (linked_ok _ _ _ _ L1 E) as Ep.
    destruct (L2 r Ep) as (n & En & Ec). rewrite Ec in E. apply counted_debug in E. unfold most_calls in E.
    destruct r as [inv|d].
    - exact (shortest_unsafe _ _ _ Hm (proj1 (pdr_proof _ _ _ _ Hs Hf _ HS _ HR fuel inv (or_intror Hb) Ep))).
    - pose proof (pdr_calls_shortest _ _ _ _ _ _ _ _ _ _ Hs Hf HR HS Hb Hm En). lia. }
  split; [exact K|]. intros Hfu.
  pose proof (sound_pdr_stops c flag s Debug Hs Hf SS (stateful_correct_sound _ HS) R HR fuel Hfu) as Q.
  destruct (pdr Debug R SS fuel s) as [r| |]; [elim (K r eq_refl)|reflexivity|congruence].
Qed.

Lemma counter_readable width : (0 < width)%nat -> states_readable (counter width) false.
Proof.
  intros H. right. right. left. exists (carry width (N.of_nat width)). split; [left; reflexivity|].
  eexists _, _. replace (lit_var (carry width (N.of_nat width))) with (N.of_nat width + 1 + 3 * (N.of_nat width - 1) + N.of_nat 0)
    by (unfold carry, lit_var; destruct (N.eqb_spec (N.of_nat width) 0); lia).
  apply counter_gate; [lia|lia|reflexivity].
Qed.

Lemma pdr_counter : exists s, system_of Debug (counter 33) false s /\
  numbering_fits (counter 33) false /\ bad_latches_read (counter 33) false /\ states_readable (counter 33) false /\
  forall R SS fuel, random_ok R -> stateful_correct SS ->
  (forall r, pdr Debug R SS fuel s <> Ok r) /\
  (enough_pdr_fuel (counter 33) fuel -> pdr Debug R SS fuel s = Panic).
Proof.
  destruct (counter_system 33 Debug) as (s & Hs); [lia|vm_compute; discriminate|]. exists s. split; [exact Hs|].
  assert (Hf : numbering_fits (counter 33) false) by (apply counter_numbering; [lia|vm_compute; discriminate]).
  split; [exact Hf|]. assert (Hl : bad_latches_read (counter 33) false) by (apply counter_read; lia).
  split; [exact Hl|]. split; [apply counter_readable; lia|]. intros R SS fuel HR HS.
  destruct (exists_steps 33) as (m & Em).
  apply (pdr_overflows (counter 33) false s R SS fuel m Hs Hf HR HS Hl); [apply counter_shortest; exact Em|].
  change (2 ^ 33) with 8589934592 in Em. lia.
Qed.
