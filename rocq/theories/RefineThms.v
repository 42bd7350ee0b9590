(** Lemmas behind C69. *)
From Verif Require Import Base Formulas FormulaLogic Aig AigParse Fsts Bmc Solvers Ic3 Pdr Brute Spec SpecText SpecAig SpecAiger SpecFsts SpecAlg
  SpecRename SpecRefine Tac FormulasFacts LogicFacts AigFacts SimFacts AigThms FstsFacts FstsSem TagFacts FstsThms BmcThms BruteFacts
  RenameThms PartsThms.
Open Scope N_scope.

Section Refine.
Variables (c1 : circuit) (flag1 : bool) (c2 : circuit) (flag2 : bool) (R : valuation -> valuation -> Prop).
Hypotheses (H : follows c1 flag1 c2 flag2 R) (Hwf : circuit_wf c2).

Lemma follow_path w1 n : run c1 w1 ->
  exists p, path c2 p n /\ initial_values c2 (p 0%nat) /\ R (w1 n) (p n).
Proof.
  destruct H as (H0 & H1 & _). intros (R1 & R2 & R3). induction n as [|n (p & (P1 & P2) & P0 & PR)].
  - destruct (H0 (w1 0%nat)) as (w2 & W & I & X); auto. exists (fun _ => w2).
    split; [split; [intros; exact W|intros t Ht; lia]|]. split; assumption.
  - destruct (H1 (w1 n) (w1 (S n)) (p n)) as (w2 & W & I & X); auto.
    exists (fun t => if Nat.leb t n then p t else w2). split; [split|split].
    + intros t Ht. destruct (Nat.leb t n) eqn:E; [apply Nat.leb_le in E; auto|exact W].
    + intros t Ht. destruct (Nat.leb t n) eqn:E; [|apply Nat.leb_gt in E; lia].
      destruct (Nat.leb (S t) n) eqn:E'; [apply Nat.leb_le in E'; apply P2; lia|apply Nat.leb_gt in E'].
      apply Nat.leb_le in E. replace t with n by lia. exact I.
    + exact P0.
    + destruct (Nat.leb (S n) n) eqn:E; [apply Nat.leb_le in E; lia|exact X].
Qed.

Lemma follow_bad w1 n : run c1 w1 -> is_bad c1 flag1 (w1 n) -> exists w2, run c2 w2 /\ is_bad c2 flag2 (w2 n).
Proof.
  intros Hr B. destruct (follow_path w1 n Hr) as (p & P & I & X).
  destruct (extend_path c2 p n Hwf P I) as (w2 & Hr2 & E). exists w2. split; [exact Hr2|]. rewrite E by lia.
  destruct H as (_ & _ & H2). apply (H2 (w1 n)); auto; [apply Hr|apply P; lia].
Qed.

Lemma follow_safe : safe c2 flag2 -> safe c1 flag1.
Proof. intros S2 w Hr t B. destruct (follow_bad w t Hr B) as (w2 & Hr2 & B2). exact (S2 w2 Hr2 t B2). Qed.
Lemma follow_before n : safe_before c2 flag2 n -> safe_before c1 flag1 n.
Proof. intros S2 w Hr t Ht B. destruct (follow_bad w t Hr B) as (w2 & Hr2 & B2). exact (S2 w2 Hr2 t Ht B2). Qed.
End Refine.

Lemma followed_proof c1 flag1 c2 flag2 R : follows c1 flag1 c2 flag2 R -> forall b2 s2 inv b1 s1 r,
  system_of b2 c2 flag2 s2 -> numbering_fits c2 flag2 -> gives_verdict b2 c2 flag2 s2 (Proof inv) ->
  system_of b1 c1 flag1 s1 -> numbering_fits c1 flag1 -> gives_verdict b1 c1 flag1 s1 r -> verdict_proof r.
Proof.
  intros H b2 s2 inv b1 s1 r Hs Hf V Hs' Hf' V'. apply (proj1 (verdict_right _ _ _ _ _ Hs' Hf' V')).
  apply (follow_safe c1 flag1 c2 flag2 R H (system_wf _ _ _ _ Hs)).
  apply (proj1 (verdict_right _ _ _ _ _ Hs Hf V)). exists inv. reflexivity.
Qed.

Lemma followed_counterexample c1 flag1 c2 flag2 R : follows c1 flag1 c2 flag2 R -> forall b2 s2 limit2 r b1 s1 limit1 asg d,
  system_of b2 c2 flag2 s2 -> well_numbered b2 c2 flag2 -> bmc_gives b2 c2 s2 limit2 r ->
  system_of b1 c1 flag1 s1 -> well_numbered b1 c1 flag1 -> bmc_gives b1 c1 s1 limit1 (CTX asg d) ->
  match r with CTX _ e => e <= d | NoCTX z => (z < Z.of_N d)%Z end.
Proof.
  intros H b2 s2 limit2 r b1 s1 limit1 asg d Hs Hw G Hs' Hw' G'.
  apply (bmc_gives_right _ _ flag2) in G; auto. apply (bmc_gives_right _ _ flag1) in G'; auto. destruct G' as (_ & K).
  assert (X : ~ safe_before c2 flag2 (S (N.to_nat d))).
  { intros X. apply K. apply (follow_before c1 flag1 c2 flag2 R H (system_wf _ _ _ _ Hs)). exact X. }
  destruct r as [z|a e]; cbn [bmc_right] in G.
  - destruct (Z.lt_ge_cases z (Z.of_N d)); auto. elim X. apply (before_less _ _ _ (Z.to_nat (z + 1))); auto; lia.
  - destruct (N.le_gt_cases e d); auto. elim X. apply (before_less _ _ _ (N.to_nat e)); [lia|apply G].
Qed.

Lemma followed_both c1 flag1 c2 flag2 R Q : follows c1 flag1 c2 flag2 R -> follows c2 flag2 c1 flag1 Q ->
  forall b1 s1 b2 s2, system_of b1 c1 flag1 s1 -> system_of b2 c2 flag2 s2 ->
  (numbering_fits c1 flag1 -> numbering_fits c2 flag2 -> forall r1 r2, gives_verdict b1 c1 flag1 s1 r1 ->
     gives_verdict b2 c2 flag2 s2 r2 -> (verdict_proof r1 <-> verdict_proof r2)) /\
  (well_numbered b1 c1 flag1 -> well_numbered b2 c2 flag2 -> forall limit1 limit2 r1 r2,
     bmc_gives b1 c1 s1 limit1 r1 -> bmc_gives b2 c2 s2 limit2 r2 -> compatible r1 r2).
Proof.
  intros H K b1 s1 b2 s2 S1 S2. split.
  - intros N1 N2 r1 r2 V1 V2.
    rewrite (proj1 (verdict_right _ _ _ _ _ S1 N1 V1)), (proj1 (verdict_right _ _ _ _ _ S2 N2 V2)).
    split; [apply (follow_safe _ _ _ _ Q K)|apply (follow_safe _ _ _ _ R H)]; eapply system_wf; eauto.
  - intros N1 N2 limit1 limit2 r1 r2 G1 G2. destruct r1 as [z1|a1 d1], r2 as [z2|a2 d2]; cbn [compatible]; auto.
    + apply (followed_counterexample _ _ _ _ Q K b1 s1 limit1 (NoCTX z1) b2 s2 limit2 a2 d2); auto.
    + apply (followed_counterexample _ _ _ _ R H b2 s2 limit2 (NoCTX z2) b1 s1 limit1 a1 d1); auto.
    + apply N.le_antisymm.
      * apply (followed_counterexample _ _ _ _ Q K b1 s1 limit1 (CTX a1 d1) b2 s2 limit2 a2 d2); auto.
      * apply (followed_counterexample _ _ _ _ R H b2 s2 limit2 (CTX a2 d2) b1 s1 limit1 a1 d1); auto.
Qed.

(** Two latches that both take the input, and one latch.  The bad gate is the conjunction of the two, negated or not. *)
Definition two_latches (k : bool) : circuit := mkCircuit 1 [(2, 0); (2, 0)] [] [8] [] [(if k then 7 else 6, 4)].
Definition one_latch (k : bool) : circuit := mkCircuit 1 [(2, 0)] [] [6] [] [(if k then 5 else 4, 4)].

Definition same_latches (w1 w2 : valuation) : Prop := w1 1 = w2 1 /\ w1 2 = w2 2 /\ w1 3 = w2 2.

Definition merged (k : bool) (w : valuation) : valuation := fun v =>
  if v =? 1 then w 1 else if v =? 2 then w 2 else if v =? 3 then xorb (w 2) k && w 2 else false.
Definition doubled (k : bool) (w : valuation) : valuation := fun v =>
  if v =? 1 then w 1 else if v =? 2 then w 2 else if v =? 3 then w 2 else if v =? 4 then xorb (w 2) k && w 2 else false.

Ltac one_gate := match goal with X : gate _ _ _ _ |- _ =>
  destruct X as (j & Hj & ->); destruct j as [|j]; [injection Hj as <- <-|destruct j; discriminate Hj] end.
Lemma merged_wires k w : wires_ok (one_latch k) (merged k w).
Proof. split; [reflexivity|]. intros v r0 r1 G. one_gate. destruct k; vm_compute; destruct (w 2); reflexivity. Qed.
Lemma doubled_wires k w : wires_ok (two_latches k) (doubled k w).
Proof. split; [reflexivity|]. intros v r0 r1 G. one_gate. destruct k; vm_compute; destruct (w 2); reflexivity. Qed.

Lemma two_latch k v nx r : latch (two_latches k) v nx r -> (v = 2 \/ v = 3) /\ nx = 2 /\ r = 0.
Proof. intros (j & Hj & ->). destruct j as [|[|j]]; [| |destruct j; discriminate Hj]; injection Hj as <- <-; auto. Qed.
Lemma one_latch_is k v nx r : latch (one_latch k) v nx r -> v = 2 /\ nx = 2 /\ r = 0.
Proof. intros (j & Hj & ->). destruct j as [|j]; [|destruct j; discriminate Hj]; injection Hj as <- <-; auto. Qed.
Lemma two_is k : latch (two_latches k) 2 2 0 /\ latch (two_latches k) 3 2 0.
Proof. split; [exists 0%nat|exists 1%nat]; split; reflexivity. Qed.
Lemma one_is k : latch (one_latch k) 2 2 0.
Proof. exists 0%nat; split; reflexivity. Qed.

Lemma two_bad k w : wires_ok (two_latches k) w -> (is_bad (two_latches k) false w <-> xorb (w 3) k && w 2 = true).
Proof.
  intros (_ & W). assert (G : gate (two_latches k) 4 (if k then 7 else 6) 4) by (exists 0%nat; split; reflexivity).
  apply W in G. unfold is_bad. cbn [bad_literals c_bad two_latches app In].
  replace (lit_value w (if k then 7 else 6) && lit_value w 4) with (xorb (w 3) k && w 2) in G
    by (destruct k; vm_compute; destruct (w 3), (w 2); reflexivity).
  rewrite <- G. split.
  - intros (l & [<-|[]] & X). vm_compute in X. destruct (w 4); auto.
  - intros X. exists 8. split; auto. change (lit_value w 8) with (xorb (w 4) false). rewrite X. reflexivity.
Qed.
Lemma one_bad k w : wires_ok (one_latch k) w -> (is_bad (one_latch k) false w <-> xorb (w 2) k && w 2 = true).
Proof.
  intros (_ & W). assert (G : gate (one_latch k) 3 (if k then 5 else 4) 4) by (exists 0%nat; split; reflexivity).
  apply W in G. unfold is_bad. cbn [bad_literals c_bad one_latch app In].
  replace (lit_value w (if k then 5 else 4) && lit_value w 4) with (xorb (w 2) k && w 2) in G
    by (destruct k; vm_compute; destruct (w 2); reflexivity).
  rewrite <- G. split.
  - intros (l & [<-|[]] & X). vm_compute in X. destruct (w 3); auto.
  - intros X. exists 6. split; auto. change (lit_value w 6) with (xorb (w 3) false). rewrite X. reflexivity.
Qed.

Lemma two_follows_one k : follows (two_latches k) false (one_latch k) false same_latches.
Proof.
  pose proof (two_is k) as (L2 & L3). split; [|split].
  - intros w W I. exists (merged k w). split; [apply merged_wires|]. split.
    + intros v nx r L. apply one_latch_is in L. destruct L as (-> & -> & ->). split; [|discriminate].
      intros _. exact (proj1 (I 2 2 0 L2) eq_refl).
    + split; [reflexivity|]. split; [reflexivity|]. change (merged k w 2) with (w 2).
      rewrite (proj1 (I 2 2 0 L2) eq_refl). exact (proj1 (I 3 2 0 L3) eq_refl).
  - intros w w' u W W' S1 U (E1 & E2 & E3). exists (merged k w'). split; [apply merged_wires|]. split.
    + intros v nx r L. apply one_latch_is in L. destruct L as (-> & -> & ->). change (merged k w' 2) with (w' 2).
      rewrite (S1 2 2 0 L2). unfold lit_value. change (lit_var 2) with 1. rewrite E1. reflexivity.
    + split; [reflexivity|]. split; [reflexivity|]. change (merged k w' 2) with (w' 2).
      rewrite (S1 2 2 0 L2), (S1 3 2 0 L3). reflexivity.
  - intros w u W U (E1 & E2 & E3) B. apply two_bad in B; auto. apply one_bad; auto. rewrite E3, E2 in B. exact B.
Qed.
Lemma one_follows_two k : follows (one_latch k) false (two_latches k) false (fun w u => same_latches u w).
Proof.
  pose proof (one_is k) as L2. split; [|split].
  - intros w W I. exists (doubled k w). split; [apply doubled_wires|]. split; [|split; [|split]; reflexivity].
    intros v nx r L. apply two_latch in L. destruct L as ([->| ->] & -> & ->); (split; [|discriminate]);
      intros _; exact (proj1 (I 2 2 0 L2) eq_refl).
  - intros w w' u W W' S1 U (E1 & E2 & E3). exists (doubled k w'). split; [apply doubled_wires|].
    split; [|split; [|split]; reflexivity].
    intros v nx r L. apply two_latch in L. destruct L as ([->| ->] & -> & ->);
      change (w' 2 = lit_value u 2); rewrite (S1 2 2 0 L2); unfold lit_value; change (lit_var 2) with 1; rewrite E1; reflexivity.
  - intros w u W U (E1 & E2 & E3) B. apply one_bad in B; auto. apply two_bad; auto. rewrite E3, E2. exact B.
Qed.

Lemma two_system b k : exists s, fsts_of b (two_latches k) false = Ok s /\
  system_of b (two_latches k) false s /\ numbering_fits (two_latches k) false.
Proof. destruct k; part_system. Qed.
Lemma one_latch_system b k : exists s, fsts_of b (one_latch k) false = Ok s /\
  system_of b (one_latch k) false s /\ numbering_fits (one_latch k) false.
Proof. destruct k; part_system. Qed.
