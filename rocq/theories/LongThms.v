(** A circuit on which PDR panics in every build for some random choices. *)
From Verif Require Import Base Formulas FormulaLogic Aig Fsts Solvers Ic3 Pdr Spec SpecAig SpecFsts
  SpecAlg Tac FstsSem FstsThms BmcThms StateFacts PdrCore PdrQuery PdrSteps PdrThms Plain SoundThms CallBound CounterGen FuelFacts
  SlowGen SlowThms LongGen LongOrder LongRun.
Open Scope nat_scope.

Lemma long_deep : (u32_mod + 2 < 2 ^ N.of_nat 33)%N.
Proof. vm_compute. reflexivity. Qed.

Lemma long_fits : numbering_fits (long 34) false.
Proof. apply long_numbering. vm_compute. discriminate. Qed.

Lemma long_not_safe : ~ safe (long 34) false.
Proof. intros H. destruct (long_unsafe 34) as (w & t & Hw & Hb). exact (H w Hw t Hb). Qed.

Lemma pdr_long b s SS fuel : system_of b (long 34) false s -> stateful_correct SS ->
  (forall r, pdr b (long_random 33) SS fuel s <> Ok r) /\
  (enough_pdr_fuel (long 34) fuel -> pdr b (long_random 33) SS fuel s = Panic).
Proof.
  intros Hs HS. pose proof long_fits as Hf. pose proof (long_random_ok 33) as HR.
  destruct (system_encodes _ _ _ _ Hs (or_intror Hf)) as (Hwf & Hn & He).
  assert (K : forall fuel r, pdr b (long_random 33) SS fuel s <> Ok r).
  { apply settled.
    - intros f f' r Hff E. rewrite <- E. apply (pdr_any_fuel b (long_random 33) SS f f' s Hff). congruence.
    - intros f r Hff E. destruct (pdr_link b (long_random 33) SS f s) as (L & _).
      pose proof (linked_ok _ _ _ _ L E) as Ep.
      assert (X : exists inv, r = Proof inv).
      { pose proof Ep as Eq. unfold pdr_plain in Eq.
        destruct (pdr_prove _ _ _ _ _ _) as [(r' & st')| |] eqn:E'; try discriminate. injection Eq as ->.
        apply (long_prove 33 s b Hs Hf Hwf Hn He SS HS long_deep f r st'); auto. lia. }
      destruct X as (inv & ->). apply long_not_safe.
      exact (proj1 (pdr_proof _ _ _ _ Hs Hf _ HS _ HR f inv (or_intror (long_read 34)) Ep)). }
  split; [apply K|]. intros Hfu.
  pose proof (sound_pdr_stops (long 34) false s b Hs Hf SS (stateful_correct_sound _ HS) (long_random 33) HR fuel Hfu) as Q.
  destruct (pdr b (long_random 33) SS fuel s) as [r| |] eqn:E; [elim (K fuel r E)|reflexivity|congruence].
Qed.

Lemma pdr_too_deep : exists c R, numbering_fits c false /\ bad_latches_read c false /\ states_readable c false /\
  random_ok R /\ ~ safe c false /\
  forall b, exists s, system_of b c false s /\
  forall SS fuel, stateful_correct SS ->
  (forall r, pdr b R SS fuel s <> Ok r) /\
  (enough_pdr_fuel c fuel -> pdr b R SS fuel s = Panic).
Proof.
  exists (long 34), (long_random 33). split; [exact long_fits|]. split; [apply long_read|]. split; [apply long_readable|].
  split; [apply long_random_ok|]. split; [exact long_not_safe|]. intros b.
  destruct (long_system 34 b) as (s & Hs); [vm_compute; discriminate|].
  exists s. split; [exact Hs|]. intros SS fuel HS. apply pdr_long; auto.
Qed.
