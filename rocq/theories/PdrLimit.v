(** The largest possible number of SAT calls of PDR, and small circuits. *)
From Verif Require Import Base Formulas FormulaLogic Aig Fsts Solvers Ic3 Pdr Spec SpecAig SpecFsts SpecAlg Tac
  AigThms FstsSem FstsThms StateFacts BmcThms ConeThms Ic3Core Ic3Thms PdrThms Plain SoundThms CounterThms CallUpper CallLimit PdrUpper.
Open Scope N_scope.

Definition pdr_limit (l : N) : N :=
  (2 ^ l + 1) * (2 ^ l + 3) *
    (1 + (2 ^ l * (2 ^ l + 1) * ((2 ^ l + 2) * (2 ^ l + 3) + 1) + 2) * (2 ^ l + l + 3) + (2 ^ l + 1) * 3 ^ l).

Lemma pdr_bounded b c flag s R SS fuel r n : system_of b c flag s -> numbering_fits c flag ->
  random_ok R -> stateful_correct SS -> pdr_run b R SS fuel s = Ok (r, n) ->
  N.of_nat (calls_get_bad_cube n + calls_is_blocked n + calls_do_not_extract_model n + calls_no_ind n +
    calls_extract_model n) <= pdr_limit (lenN (c_latches c)).
Proof.
  intros Hs Hf HR HS E. destruct (system_encodes _ _ _ _ Hs (or_intror Hf)) as (Hwf & Hn & He).
  apply (pdr_run_bounded c flag s b Hs Hf Hwf Hn He SS HS R HR) in E. fold (all_calls n).
  unfold pdr_limit, lenN. set (l := length (c_latches c)) in *.
  assert (E2 : N.of_nat (states c) = 2 ^ N.of_nat l) by (unfold states; rewrite Nat2N.inj_pow; reflexivity).
  assert (E3 : N.of_nat (3 ^ l) = 3 ^ N.of_nat l) by (rewrite Nat2N.inj_pow; reflexivity).
  rewrite <- E2, <- E3. revert E. generalize (3 ^ l)%nat as t. generalize (states c) as S. clear E2 E3. intros S t H.
  match type of H with (_ <= ?x)%nat => apply (N.le_trans _ (N.of_nat x)); [lia|] end.
  repeat (rewrite Nat2N.inj_add || rewrite Nat2N.inj_mul).
  apply N.eq_le_incl. change (N.of_nat 1) with 1. change (N.of_nat 2) with 2. change (N.of_nat 3) with 3. ring.
Qed.

Lemma pdr_limit_small l : l <= 4 -> pdr_limit l < 4294967296.
Proof.
  intros H. assert (X : l = 0 \/ l = 1 \/ l = 2 \/ l = 3 \/ l = 4) by lia.
  destruct X as [->|[->|[->|[->| ->]]]]; vm_compute; reflexivity.
Qed.

Lemma pdr_small b c flag s R SS fuel : system_of b c flag s -> numbering_fits c flag ->
  random_ok R -> stateful_correct SS -> bad_latches_read c flag -> states_readable c flag ->
  enough_pdr_fuel c fuel -> lenN (c_latches c) <= 4 ->
  exists r, pdr b R SS fuel s = Ok r /\ (verdict_proof r <-> safe c flag).
Proof.
  intros Hs Hf HR HS Hl Hr Hfu Hle.
  assert (Hd : depth_fits c flag) by (apply few_latches_fit; lia).
  destruct (pdr_answers c flag s b Hs Hf SS HS R HR fuel Hl Hr Hfu Hd) as (r & n & E & Hv & Ec).
  exists r. split; auto. rewrite Ec. apply counted_few.
  pose proof (pdr_bounded b c flag s R SS fuel r n Hs Hf HR HS E) as X.
  pose proof (pdr_limit_small _ Hle). unfold most_calls. lia.
Qed.

Lemma small_agree b c flag s R1 R2 R3 T S2 S3 fuel : system_of b c flag s -> numbering_fits c flag ->
  random_ok R1 -> random_ok R2 -> random_ok R3 ->
  solver_correct_below 2147483647 T -> solver_total_below 2147483647 T -> stateful_correct S2 -> stateful_correct S3 ->
  bad_latches_read c flag -> states_readable c flag -> enough_fuel c fuel -> enough_pdr_fuel c fuel ->
  lenN (c_latches c) <= 4 ->
  exists r1 r2 r3, ic3_stateless b R1 T fuel s = Ok r1 /\ ic3_stateful b R2 S2 fuel s = Ok r2 /\
    pdr b R3 S3 fuel s = Ok r3 /\ (verdict_proof r1 <-> verdict_proof r2) /\ (verdict_proof r1 <-> verdict_proof r3).
Proof.
  intros Hs Hf HR1 HR2 HR3 HT HTd H2 H3 Hl Hr Hfu Hpf Hle. assert (Hle6 : lenN (c_latches c) <= 6) by lia.
  destruct (stateless_small b c flag s R1 T fuel Hs Hf HR1 HT HTd Hfu Hle6) as (r1 & E1 & V1).
  destruct (stateful_small b c flag s R2 S2 fuel Hs Hf HR2 H2 Hfu Hle6) as (r2 & E2 & V2).
  destruct (pdr_small b c flag s R3 S3 fuel Hs Hf HR3 H3 Hl Hr Hpf Hle) as (r3 & E3 & V3).
  exists r1, r2, r3. tauto.
Qed.
