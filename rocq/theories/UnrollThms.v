(** Lemmas behind C57: the formulas of a system, tagged clock by clock, describe simulations. *)
From Verif Require Import Base Formulas FormulaLogic Aig AigParse Fsts Bmc Solvers Spec SpecText SpecAig
  SpecAiger SpecFsts SpecAlg Tac FormulasFacts LogicFacts AigFacts SimFacts AigThms FstsFacts FstsSem
  TagFacts FstsThms BmcThms.
Open Scope N_scope.

(** The literals of the unsafety clause in a vector of values. *)
Lemma bad_in_is_bad c flag s values w : circuit_wf c -> numbered c flag -> encodes c flag s ->
  (forall v, 1 <= v <= c_max c -> nth (N.to_nat v) values false = w v) ->
  (bad_in c flag values <-> is_bad c flag w).
Proof.
  intros Hwf Hn He H.
  apply (is_bad_ext c flag s Hwf Hn He (fun v => nth (N.to_nat v) values false)). auto.
Qed.

Section Frames.
Variables (b : build) (c : circuit) (flag : bool) (s : FSTS).
Hypothesis Hwf : circuit_wf c.
Hypothesis Hn : numbered c flag.
Hypothesis He : encodes c flag s.
Notation M := (c_max c).

Lemma tagged_step n t : N.of_nat (S t) <= n -> (n + 1) * M <= 2147483647 ->
  add_tags_to_relation b s (get_transition_relation s) (N.of_nat t) = Ok (tagged_cnf (M * N.of_nat t) (transition s)).
Proof.
  intros Ht Hr. pose proof (t_vars c flag s He) as V. pose proof (e_t_api _ _ _ He) as A.
  assert (X : (N.of_nat t + 2) * M <= (n + 1) * M) by (apply N.mul_le_mono_r; lia).
  rewrite (add_tags_relation_ok b s (get_transition_relation s)); rewrite ?(e_max _ _ _ He); auto; [lia|].
  right. eapply cnf_vars_impl; [|exact V]. intros v Hv. cbv beta in Hv. unfold bumpable. lia.
Qed.

Lemma tagged_safety n t : N.of_nat t <= n -> (n + 1) * M <= 2147483647 ->
  add_tags_to_relation b s (get_state_to_safety_translation s) (N.of_nat t) =
    Ok (tagged_cnf (M * N.of_nat t) (state_to_safety_translation s)) /\
  add_tags_to_clause b s (get_unsafety_property s) (N.of_nat t) =
    Ok (bumped (M * N.of_nat t) (unsafety_property s)).
Proof.
  intros Ht Hr. assert (X : (N.of_nat t + 1) * M <= (n + 1) * M) by (apply N.mul_le_mono_r; lia).
  split.
  - pose proof (e_s_vars _ _ _ He) as V. pose proof (e_s_api _ _ _ He) as A.
    rewrite (add_tags_relation_ok b s (get_state_to_safety_translation s)); rewrite ?(e_max _ _ _ He); auto; [lia|].
    right. eapply cnf_vars_impl; [|exact V]. intros v Hv. cbv beta in Hv. unfold bumpable. lia.
  - pose proof (unsafe_vars c flag s Hwf Hn He) as V. pose proof (unsafe_api c flag s He) as A.
    rewrite (add_tags_clause_ok b s (get_unsafety_property s)); rewrite ?(e_max _ _ _ He); auto; [lia|].
    right. eapply clause_vars_impl; [|exact V]. intros v Hv. cbv beta in Hv. unfold bumpable. lia.
Qed.

Lemma frames_of_simulation g ins init r a : represents g c -> circuit_fits c ->
  Forall (fun m => NoDup (keys m)) ins -> NoDup (keys init) -> simulate g ins init = Ok r ->
  lenN r * M <= 2147483647 ->
  (forall t v, (t < length r)%nat -> 1 <= v <= M -> a (v + N.of_nat t * M) = nth (N.to_nat v) (nth t r []) false) ->
  cube_true a (get_initial_relation s) /\
  (forall t, (S t < length r)%nat -> exists f,
     add_tags_to_relation b s (get_transition_relation s) (N.of_nat t) = Ok f /\ cnf_true a f) /\
  (forall t, (t < length r)%nat -> exists f d,
     add_tags_to_relation b s (get_state_to_safety_translation s) (N.of_nat t) = Ok f /\ cnf_true a f /\
     add_tags_to_clause b s (get_unsafety_property s) (N.of_nat t) = Ok d /\
     (clause_true a d <-> bad_in c flag (nth t r []))).
Proof.
  intros Hg Hf Hk Hki E HR Ha.
  destruct (simulate_full g c Hg Hwf Hf ins init r Hk Hki E) as (Hlen & _ & Htr & _).
  set (w := fun (t : nat) (v : N) => if v <=? M then nth (N.to_nat v) (nth t r []) false else false) in *.
  assert (Wv : forall t v, v <= M -> w t v = nth (N.to_nat v) (nth t r []) false).
  { intros t v Hv. unfold w. destruct (v <=? M) eqn:X; auto. lia. }
  assert (At : forall t v, (t < length r)%nat -> 1 <= v <= M -> shift (M * N.of_nat t) a v = w t v).
  { intros t v Ht Hv. rewrite Wv by lia. unfold shift. rewrite N.mul_comm. apply Ha; auto. }
  assert (Tr : forall t, (t < length r)%nat -> exists m, nth_error ins t = Some m).
  { intros t Ht. destruct (nth_error ins t) as [m|] eqn:X; eauto. apply nth_error_None in X. lia. }
  assert (HR' : forall n, (n < length r)%nat -> (N.of_nat n + 1) * M <= 2147483647).
  { intros n Hlt. assert ((N.of_nat n + 1) * M <= lenN r * M) by (apply N.mul_le_mono_r; unfold lenN; lia). lia. }
  split; [|split].
  - assert (N0 : (0 < length r)%nat).
    { rewrite Hlen. destruct ins as [|m ins]; [|simpl; lia].
      exfalso. destruct r as [|x r]; [|discriminate Hlen]. clear - E. unfold simulate in E. simpl in E. discriminate E. }
    destruct (Tr 0%nat N0) as (m & Hm). destruct (Htr 0%nat m Hm) as (_ & _ & Hi & _).
    apply (init_true c flag s He). intros v nx rs L.
    assert (Lv : is_latch c v) by (exists nx, rs; auto). pose proof (latch_range _ _ _ _ L) as Rg.
    apply latch_le_max in Lv.
    destruct (Hi eq_refl _ _ _ L) as (I0 & I1 & _).
    pose proof (At 0%nat v N0) as A0. unfold shift in A0. simpl N.of_nat in A0. rewrite N.mul_0_r, N.add_0_r in A0.
    rewrite A0 by lia. split; auto.
  - intros t Ht. pose proof (tagged_step (N.of_nat (S t)) t) as X. eexists. split; [apply X; [lia|apply HR'; auto]|].
    apply tagged_cnf_true.
    destruct (Tr t) as (m & Hm); [lia|]. destruct (Htr t m Hm) as (Hw & _ & _ & _).
    destruct (Tr (S t) Ht) as (m' & Hm'). destruct (Htr _ _ Hm') as (_ & _ & _ & Hst).
    apply (cnf_true_ext _ (pair c (w t) (w (S t))) _ _ (e_t_vars _ _ _ He)).
    + intros v [Hv|Hv].
      * rewrite pair_lo by lia. symmetry. apply At; lia.
      * pose proof (latch_le_max _ _ Hv) as Le. pose proof (proj1 (is_latch_iff _ _) Hv) as Li.
        replace v with (v - M + M) by lia. rewrite pair_hi by lia.
        rewrite <- (At (S t) (v - M)) by (auto; lia). unfold shift. f_equal. lia.
    + apply (trans_complete c flag s Hwf He); auto.
  - intros t Ht. destruct (tagged_safety (N.of_nat t) t) as (X1 & X2); [lia|apply HR'; auto|].
    do 2 eexists. split; [exact X1|]. destruct (Tr t Ht) as (m & Hm). destruct (Htr t m Hm) as (Hw & _).
    split; [|split; [exact X2|]].
    + apply tagged_cnf_true. apply (cnf_true_ext _ (w t) _ _ (e_s_vars _ _ _ He)).
      * intros v Hv. symmetry. apply At; auto.
      * apply (safety_complete c flag s); auto.
    + rewrite bumped_true, (unsafe_true c flag s He).
      rewrite (bad_in_is_bad c flag s (nth t r []) (w t)); auto.
      * apply (is_bad_ext c flag s Hwf Hn He). intros v Hv. apply At; auto.
      * intros v Hv. symmetry. apply Wv. lia.
Qed.

Lemma simulation_of_frames g a n : represents g c -> circuit_fits c -> (n + 1) * M <= 2147483647 ->
  cube_true a (get_initial_relation s) ->
  (forall t f, N.of_nat t < n ->
     add_tags_to_relation b s (get_transition_relation s) (N.of_nat t) = Ok f -> cnf_true a f) ->
  exists r, simulate g (frame_inputs c a n) (frame_latches c a) = Ok r /\ length r = S (N.to_nat n) /\
    forall t, N.of_nat t <= n ->
      (forall v, is_input c v \/ is_latch c v -> nth (N.to_nat v) (nth t r []) false = a (v + N.of_nat t * M)) /\
      (forall f d, add_tags_to_relation b s (get_state_to_safety_translation s) (N.of_nat t) = Ok f ->
         add_tags_to_clause b s (get_unsafety_property s) (N.of_nat t) = Ok d ->
         cnf_true a f -> (clause_true a d <-> bad_in c flag (nth t r []))).
Proof.
  intros Hg Hf HR Hi HT. apply (init_true c flag s He) in Hi.
  destruct (simulate_path g c a (decoded c a) n Hg Hwf Hf) as (r & Er & Hlen & Hv).
  - split.
    + intros t _. apply ev_wires_ok; auto.
    + intros t Ht v nx rs L. rewrite decoded_src by (right; exists nx, rs; auto).
      assert (Tt : cnf_true (shift (M * N.of_nat t) a) (transition s)).
      { apply tagged_cnf_true. apply (HT t); [lia|]. apply tagged_step with (n := n); auto. lia. }
      pose proof (trans_sound c flag s Hwf Hn He _ Tt v nx rs L) as X.
      unfold decoded. rewrite <- X. unfold shift. f_equal. lia.
  - intros v nx rs L. rewrite decoded_src by (right; exists nx, rs; auto).
    simpl N.of_nat. rewrite N.mul_0_l, N.add_0_r. apply (Hi _ _ _ L).
  - intros t v _ Hv. apply decoded_src; auto.
  - exists r. split; auto. split; auto. intros t Ht. split.
    + intros v Hs. rewrite Hv; auto.
      * apply decoded_src; auto.
      * destruct Hs as [Hs|Hs]; [|apply latch_le_max; auto]. red in Hs. unfold c_max. lia.
    + intros f d E1 E2 Hc. destruct (tagged_safety n t Ht HR) as (X1 & X2).
      rewrite X1 in E1. injection E1 as <-. rewrite X2 in E2. injection E2 as <-.
      rewrite bumped_true. apply tagged_cnf_true in Hc.
      rewrite (bad_in_is_bad c flag s (nth t r []) (decoded c a t)); auto.
      * apply (unsafe_bad c flag s Hwf Hn He); auto.
      * intros v Hx. apply Hv; auto. lia.
Qed.
End Frames.

Lemma simulation_satisfies_frames b c flag s g ins init r a :
  system_of b c flag s -> well_numbered b c flag -> represents g c -> circuit_fits c ->
  Forall (fun m => NoDup (keys m)) ins -> NoDup (keys init) -> simulate g ins init = Ok r ->
  lenN r * get_max_literal_number s <= 2147483647 ->
  (forall t v, (t < length r)%nat -> 1 <= v <= get_max_literal_number s ->
     a (v + N.of_nat t * get_max_literal_number s) = nth (N.to_nat v) (nth t r []) false) ->
  cube_true a (get_initial_relation s) /\
  (forall t, (S t < length r)%nat -> exists f,
     add_tags_to_relation b s (get_transition_relation s) (N.of_nat t) = Ok f /\ cnf_true a f) /\
  (forall t, (t < length r)%nat -> exists f d,
     add_tags_to_relation b s (get_state_to_safety_translation s) (N.of_nat t) = Ok f /\ cnf_true a f /\
     add_tags_to_clause b s (get_unsafety_property s) (N.of_nat t) = Ok d /\
     (clause_true a d <-> bad_in c flag (nth t r []))).
Proof.
  intros Hs Hw. destruct (system_encodes _ _ _ _ Hs Hw) as (Hwf & Hn & He).
  unfold get_max_literal_number. rewrite (e_max _ _ _ He). apply frames_of_simulation; auto.
Qed.

Lemma frames_are_simulated b c flag s g a n :
  system_of b c flag s -> well_numbered b c flag -> represents g c -> circuit_fits c ->
  (n + 1) * get_max_literal_number s <= 2147483647 ->
  cube_true a (get_initial_relation s) ->
  (forall t f, N.of_nat t < n ->
     add_tags_to_relation b s (get_transition_relation s) (N.of_nat t) = Ok f -> cnf_true a f) ->
  exists r, simulate g (frame_inputs c a n) (frame_latches c a) = Ok r /\ length r = S (N.to_nat n) /\
    forall t, N.of_nat t <= n ->
      (forall v, is_input c v \/ is_latch c v ->
         nth (N.to_nat v) (nth t r []) false = a (v + N.of_nat t * get_max_literal_number s)) /\
      (forall f d, add_tags_to_relation b s (get_state_to_safety_translation s) (N.of_nat t) = Ok f ->
         add_tags_to_clause b s (get_unsafety_property s) (N.of_nat t) = Ok d ->
         cnf_true a f -> (clause_true a d <-> bad_in c flag (nth t r []))).
Proof.
  intros Hs Hw. destruct (system_encodes _ _ _ _ Hs Hw) as (Hwf & Hn & He).
  unfold get_max_literal_number. rewrite (e_max _ _ _ He). apply simulation_of_frames; auto.
Qed.
