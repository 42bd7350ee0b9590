(** Lemmas behind C67: simulations and runs. *)
From Verif Require Import Base Formulas FormulaLogic Aig Fsts Bmc Solvers Ic3 Pdr Brute Spec SpecText SpecAig SpecAiger SpecFsts SpecAlg SpecRename
  SpecInv SpecSim Tac BruteFacts FormulasFacts LogicFacts AigFacts SimFacts AigThms FstsFacts FstsSem TagFacts FstsThms BmcThms UnrollThms
  RenameThms InvThms InvComb.
Open Scope N_scope.

Section Sim.
Variables (c : circuit) (flag : bool) (g : AIG).
Hypotheses (Hwf : circuit_wf c) (Hf : circuit_fits c) (Hg : represents g c).

Lemma bad_in_range l : In l (bad_literals c flag) -> lit_var l <= c_max c.
Proof.
  destruct Hwf as (_ & Ho & Hb & _). intros Hl. apply in_app_or in Hl. destruct Hl as [Hl|Hl].
  - rewrite Forall_forall in Hb. apply Hb in Hl. exact Hl.
  - destruct flag; [|elim Hl]. rewrite Forall_forall in Ho. apply Ho in Hl. exact Hl.
Qed.

Lemma bad_same (w : valuation) vec : (forall v, v <= c_max c -> w v = vector_values vec v) ->
  (is_bad c flag w <-> bad_in c flag vec).
Proof.
  intros H. split; intros (l & Hl & Hv); exists l; (split; [exact Hl|]); rewrite <- Hv; unfold lit_value;
    (rewrite H by (apply bad_in_range; auto)); reflexivity.
Qed.

Lemma simulated_run r : simulated g r -> exists w, run c w /\
  forall t vec, nth_error r t = Some vec -> forall v, v <= c_max c -> w t v = vector_values vec v.
Proof.
  intros (ins & init & Hk & Hki & E).
  destruct (simulate_full g c Hg Hwf Hf ins init r Hk Hki E) as (Hlen & _ & Htr & _).
  set (w := fun (t : nat) (v : N) => if v <=? c_max c then nth (N.to_nat v) (nth t r []) false else false) in *.
  assert (Tr : forall t, (t < length r)%nat -> exists m, nth_error ins t = Some m).
  { intros t Ht. destruct (nth_error ins t) as [m|] eqn:X; eauto. apply nth_error_None in X. lia. }
  assert (N0 : (0 < length r)%nat).
  { rewrite Hlen. destruct ins as [|m ins]; [|simpl; lia].
    exfalso. destruct r as [|x r]; [|discriminate Hlen]. clear - E. unfold simulate in E. simpl in E. discriminate E. }
  assert (P : path c w (length r - 1)).
  { split.
    - intros t Ht. destruct (Tr t) as (m & Hm); [lia|]. apply (Htr t m Hm).
    - intros t Ht. destruct (Tr (S t)) as (m & Hm); [lia|]. destruct (Htr _ _ Hm) as (_ & _ & _ & Hst). apply Hst. reflexivity. }
  assert (I : initial_values c (w 0%nat)).
  { destruct (Tr 0%nat N0) as (m & Hm). destruct (Htr 0%nat m Hm) as (_ & _ & Hi & _).
    intros v nx rs L. destruct (Hi eq_refl _ _ _ L) as (I0 & I1 & _). auto. }
  destruct (extend_path c w (length r - 1) Hwf P I) as (w' & Hr & Hx). exists w'. split; [exact Hr|].
  intros t vec Et v Hv. assert (Lt : (t < length r)%nat) by (apply nth_error_Some; congruence).
  rewrite Hx by lia. unfold w. destruct (v <=? c_max c) eqn:X; [|lia]. unfold vector_values.
  rewrite (nth_error_nth r t [] Et). reflexivity.
Qed.

Lemma run_simulated w n : run c w -> exists r, simulated g r /\ length r = S n /\
  forall t vec, nth_error r t = Some vec -> forall v, v <= c_max c -> w t v = vector_values vec v.
Proof.
  intros (R1 & R2 & R3).
  destruct (simulate_path g c (unroll (c_max c) w) w (N.of_nat n) Hg Hwf Hf) as (r & E & Hlen & Hv); auto.
  - split; intros; auto.
  - intros t v Ht Hsrc. rewrite unroll_at; [rewrite Nnat.Nat2N.id; reflexivity|].
    destruct Hsrc as [Hi|Hl].
    + unfold is_input in Hi. unfold c_max. lia.
    + destruct Hl as (nx & rs & L). pose proof (latch_range _ _ _ _ L). assert (is_latch c v) by (exists nx, rs; auto).
      pose proof (latch_le_max c v). intuition lia.
  - exists r. split.
    + eexists _, _. split; [|split; [|exact E]].
      * apply Forall_forall. intros m Hm. apply in_map_iff in Hm. destruct Hm as (t & <- & _).
        unfold keys. rewrite keys_map. apply numbers_nodup.
      * unfold frame_latches, keys. rewrite keys_map. apply numbers_nodup.
    + rewrite Nnat.Nat2N.id in Hlen. split; [exact Hlen|]. intros t vec Et v Hx. assert (Lt : (t < length r)%nat) by (apply nth_error_Some; congruence).
      rewrite <- Hv by lia. unfold vector_values. rewrite (nth_error_nth r t [] Et). reflexivity.
Qed.

Lemma shows_iff t : shows_bad c flag g t <-> exists w, run c w /\ is_bad c flag (w t).
Proof.
  split.
  - intros (r & vec & S1 & E & B). destruct (simulated_run r S1) as (w & Hr & Hx). exists w. split; [exact Hr|].
    apply (bad_same (w t) vec); [intros v Hv; apply (Hx t vec E v Hv)|exact B].
  - intros (w & Hr & B). destruct (run_simulated w t Hr) as (r & S1 & L & Hx).
    destruct (nth_error r t) as [vec|] eqn:E; [|apply nth_error_None in E; lia].
    exists r, vec. split; [exact S1|]. split; [exact E|]. apply (bad_same (w t) vec); [|exact B]. intros v Hv. apply (Hx t vec E v Hv).
Qed.

Lemma safe_shows : safe c flag <-> forall t, ~ shows_bad c flag g t.
Proof.
  split.
  - intros H t X. apply shows_iff in X. destruct X as (w & Hr & B). exact (H w Hr t B).
  - intros H w Hr t B. apply (H t), shows_iff. exists w. auto.
Qed.

Lemma before_shows n : safe_before c flag n <-> forall t, (t < n)%nat -> ~ shows_bad c flag g t.
Proof.
  split.
  - intros H t Ht X. apply shows_iff in X. destruct X as (w & Hr & B). exact (H w Hr t Ht B).
  - intros H w Hr t Ht B. apply (H t Ht), shows_iff. exists w. auto.
Qed.

Lemma invariant_simulated inv : inductive_safe c flag (fun w => cnf_true w inv) -> cnf_vars (fun v => 1 <= v <= c_max c) inv ->
  forall r t vec, simulated g r -> nth_error r t = Some vec -> cnf_true (vector_values vec) inv.
Proof.
  intros (H1 & H2 & _) V r t vec S1 E. destruct (simulated_run r S1) as (w & (R1 & R2 & R3) & Hx).
  assert (X : forall i, cnf_true (w i) inv) by (induction i; [apply H1; auto|apply (H2 (w i)); auto]).
  apply (cnf_true_ext _ (w t) (vector_values vec) _ V); [|apply X]. intros v Hv. apply (Hx t vec E). cbv beta in Hv. lia.
Qed.
End Sim.

Lemma verdict_simulated b c flag s g r : system_of b c flag s -> numbering_fits c flag -> represents g c ->
  gives_verdict b c flag s r ->
  (verdict_proof r <-> forall t, ~ shows_bad c flag g t) /\
  forall d, r = ProofCTX d -> forall t, (t < N.to_nat d)%nat -> ~ shows_bad c flag g t.
Proof.
  intros Hs Hn Hg V. destruct (verdict_right b c flag s r Hs Hn V) as (H1 & H2). destruct Hs as (o & a & _ & Hwf & Hf & _).
  split; [rewrite H1; apply safe_shows; auto|]. intros d E. apply before_shows; auto.
Qed.

Lemma bmc_simulated b c flag s g limit r : system_of b c flag s -> well_numbered b c flag -> represents g c ->
  bmc_gives b c s limit r ->
  match r with
  | CTX _ d => shows_bad c flag g (N.to_nat d) /\ forall t, (t < N.to_nat d)%nat -> ~ shows_bad c flag g t
  | NoCTX z => forall t, (Z.of_nat t <= z)%Z -> ~ shows_bad c flag g t
  end.
Proof.
  intros Hs Hn Hg V. pose proof Hs as (o & a & _ & Hwf & Hf & _). destruct V as (m & T & clk & HT & Hl & Hm & E). destruct r as [z|asg d].
  - destruct (bmc_noctx_sound m b c flag s T clk limit z Hs Hn HT Hl Hm E) as (_ & H).
    intros t Ht X. apply (shows_iff c flag g Hwf Hf Hg) in X. destruct X as (w & Hr & B). exact (H w Hr t Ht B).
  - destruct (bmc_ctx_sound m b c flag s T clk limit asg d Hs Hn HT Hl Hm E) as (_ & H & K).
    split; [|apply before_shows; auto]. apply shows_iff; auto.
    destruct (K (complete asg)) as (w & Hr & Hb & _); [apply complete_agrees|]. exists w. auto.
Qed.

Lemma accepted_simulated b c flag s g inv : system_of b c flag s -> numbering_fits c flag -> represents g c ->
  api_cnf inv -> cnf_vars (fun v => 1 <= v <= c_max c) inv -> accepted_once s inv ->
  forall r t vec, simulated g r -> nth_error r t = Some vec -> cnf_true (vector_values vec) inv.
Proof.
  intros Hs Hn Hg A V HA. pose proof Hs as (o & a & _ & Hwf & Hf & _).
  apply (invariant_simulated c flag); auto. apply (accepted_inductive b c flag s); auto.
Qed.
