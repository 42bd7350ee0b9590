(** Circuits on which the IC3 provers panic in every build for some random choices. *)
From Verif Require Import Base Formulas FormulaLogic Aig Fsts Solvers Ic3 Spec SpecAig SpecFsts
  SpecAlg Tac FstsSem FstsThms BmcThms StateFacts Ic3Core Ic3Thms Plain SoundThms CallBound CounterGen FuelFacts SlowGen SlowOrder SlowRun.
Open Scope nat_scope.

Lemma slow_deep : (u32_mod + 2 <= top 33)%N.
Proof. vm_compute. discriminate. Qed.

Lemma slow_fits : numbering_fits (slow 33) false.
Proof. apply slow_numbering. vm_compute. discriminate. Qed.

Lemma slow_not_safe : ~ safe (slow 33) false.
Proof. intros H. destruct (slow_unsafe 33) as (w & t & Hw & Hb). exact (H w Hw t Hb). Qed.

Lemma settled (m : nat -> res ProofResult) : (forall fuel fuel' r, fuel <= fuel' -> m fuel = Ok r -> m fuel' = Ok r) ->
  (forall fuel r, 2 <= fuel -> m fuel <> Ok r) -> forall fuel r, m fuel <> Ok r.
Proof. intros H1 H2 fuel r E. apply (H2 (fuel + 2) r); [lia|]. apply (H1 fuel); auto. lia. Qed.

Lemma stateless_slow b s T fuel : system_of b (slow 33) false s ->
  solver_correct_below 2147483647 T -> solver_total_below 2147483647 T ->
  (forall r, ic3_stateless b (slow_random 33) T fuel s <> Ok r) /\
  (enough_fuel (slow 33) fuel -> ic3_stateless b (slow_random 33) T fuel s = Panic).
Proof.
  intros Hs HT HTd. pose proof slow_fits as Hf. pose proof (slow_random_ok 33) as HR.
  destruct (system_encodes _ _ _ _ Hs (or_intror Hf)) as (Hwf & Hn & He).
  assert (K : forall fuel r, ic3_stateless b (slow_random 33) T fuel s <> Ok r).
  { apply settled.
    - intros f f' r Hff E. rewrite <- E. apply (stateless_any_fuel b (slow_random 33) T f f' s Hff). congruence.
    - intros f r Hff E. destruct (stateless_link b (slow_random 33) T f s) as (L & _).
      assert (Ep : stateless_plain b (slow_random 33) T f s = Ok r).
      { destruct (stateless_plain b (slow_random 33) T f s) as [r'| |]; cbn [linked] in L; try congruence.
        destruct L as [L|(_ & L)]; congruence. }
      pose proof (ic3_stateless_ok b (slow 33) false s (slow_random 33) T f Hs Hf HR HT HTd) as (P1 & _).
      assert (X : exists inv, r = Proof inv).
      { unfold stateless_plain in Ep. rewrite (cache_ok (slow 33) false s b Hf Hwf He) in Ep. cbn [bind] in Ep.
        destruct (ic3_prove _ _ _ _ _ _) as [(r' & st')| |] eqn:E'; try discriminate. injection Ep as ->.
        apply (slow_prove 33 s b _ _ ltac:(lia) Hn He (sl_ops_ok (slow 33) false s b Hf Hwf He T HT HTd) slow_deep) in E'; auto.
        constructor. }
      destruct X as (inv & ->). apply slow_not_safe. apply (P1 inv Ep). }
  split; [apply K|]. intros Hfu.
  pose proof (ic3_stateless_ok b (slow 33) false s (slow_random 33) T fuel Hs Hf HR HT HTd) as (_ & _ & P3 & _).
  specialize (P3 Hfu). destruct (stateless_link b (slow_random 33) T fuel s) as (L1 & _).
  destruct (ic3_stateless b (slow_random 33) T fuel s) as [r| |] eqn:E; [elim (K fuel r E)|reflexivity|].
  destruct (stateless_plain b (slow_random 33) T fuel s) as [r'| |]; cbn [linked] in L1; try congruence.
  destruct L1 as [L1|(_ & L1)]; discriminate.
Qed.

Lemma stateful_slow b s SS fuel : system_of b (slow 33) false s -> stateful_correct SS ->
  (forall r, ic3_stateful b (slow_random 33) SS fuel s <> Ok r) /\
  (enough_fuel (slow 33) fuel -> ic3_stateful b (slow_random 33) SS fuel s = Panic).
Proof.
  intros Hs HS. pose proof slow_fits as Hf. pose proof (slow_random_ok 33) as HR.
  destruct (system_encodes _ _ _ _ Hs (or_intror Hf)) as (Hwf & Hn & He).
  assert (K : forall fuel r, ic3_stateful b (slow_random 33) SS fuel s <> Ok r).
  { apply settled.
    - intros f f' r Hff E. rewrite <- E. apply (stateful_any_fuel b (slow_random 33) SS f f' s Hff). congruence.
    - intros f r Hff E. destruct (stateful_link b (slow_random 33) SS f s) as (L & _).
      assert (Ep : stateful_plain b (slow_random 33) SS f s = Ok r).
      { destruct (stateful_plain b (slow_random 33) SS f s) as [r'| |]; cbn [linked] in L; try congruence.
        destruct L as [L|(_ & L)]; congruence. }
      pose proof (ic3_stateful_ok b (slow 33) false s (slow_random 33) SS f Hs Hf HR HS) as (P1 & _).
      assert (X : exists inv, r = Proof inv).
      { unfold stateful_plain in Ep. rewrite (cache_ok (slow 33) false s b Hf Hwf He) in Ep. cbn [bind] in Ep.
        destruct (sf_new_ok (slow 33) false s Hn He SS HS) as (x & Ex & Hx & Ec). rewrite Ex in Ep. cbn [bind] in Ep.
        destruct (ic3_prove _ _ _ _ _ _) as [(r' & st')| |] eqn:E'; try discriminate. injection Ep as ->.
        apply (slow_prove 33 s b _ _ ltac:(lia) Hn He (sf_ops_ok (slow 33) false s b Hs Hf Hwf Hn He SS HS) slow_deep) in E'; auto. }
      destruct X as (inv & ->). apply slow_not_safe. apply (P1 inv Ep). }
  split; [apply K|]. intros Hfu.
  pose proof (ic3_stateful_ok b (slow 33) false s (slow_random 33) SS fuel Hs Hf HR HS) as (_ & _ & P3 & _).
  specialize (P3 Hfu). destruct (stateful_link b (slow_random 33) SS fuel s) as (L1 & _).
  destruct (ic3_stateful b (slow_random 33) SS fuel s) as [r| |] eqn:E; [elim (K fuel r E)|reflexivity|].
  destruct (stateful_plain b (slow_random 33) SS fuel s) as [r'| |]; cbn [linked] in L1; try congruence.
  destruct L1 as [L1|(_ & L1)]; discriminate.
Qed.

Lemma stateless_too_deep : exists c R, numbering_fits c false /\ random_ok R /\ ~ safe c false /\
  forall b, exists s, system_of b c false s /\
  forall T fuel, solver_correct_below 2147483647 T -> solver_total_below 2147483647 T ->
  (forall r, ic3_stateless b R T fuel s <> Ok r) /\
  (enough_fuel c fuel -> ic3_stateless b R T fuel s = Panic).
Proof.
  exists (slow 33), (slow_random 33). split; [exact slow_fits|]. split; [apply slow_random_ok|].
  split; [exact slow_not_safe|]. intros b. destruct (slow_system 33 b) as (s & Hs); [vm_compute; discriminate|].
  exists s. split; [exact Hs|]. intros T fuel HT HTd. apply stateless_slow; auto.
Qed.

Lemma stateful_too_deep : exists c R, numbering_fits c false /\ random_ok R /\ ~ safe c false /\
  forall b, exists s, system_of b c false s /\
  forall SS fuel, stateful_correct SS ->
  (forall r, ic3_stateful b R SS fuel s <> Ok r) /\
  (enough_fuel c fuel -> ic3_stateful b R SS fuel s = Panic).
Proof.
  exists (slow 33), (slow_random 33). split; [exact slow_fits|]. split; [apply slow_random_ok|].
  split; [exact slow_not_safe|]. intros b. destruct (slow_system 33 b) as (s & Hs); [vm_compute; discriminate|].
  exists s. split; [exact Hs|]. intros SS fuel HS. apply stateful_slow; auto.
Qed.
