(** With the random choices of SlowOrder.v, IC3 adds a frame for every number the circuit counts to. *)
From Coq Require Import Permutation Sorted.
From Verif Require Import Base Formulas FormulaLogic Aig Fsts Solvers Ic3 Spec SpecAig SpecFsts Tac
  FormulasFacts LogicFacts AigFacts SimFacts AigThms FstsFacts FstsSem TagFacts FstsThms BmcThms StateFacts Ic3Core
  CounterGen SlowGen SlowOrder.
Open Scope nat_scope.

Section Run.
Variables (width : nat) (s : FSTS) (b : build) (O : Ic3Ops) (good : ox O -> Prop).
Notation c := (slow width).
Notation W := (N.of_nat width).
Notation R := (slow_random width).
Notation cl := (fun st : Ic3State O => o_clauses O (st_ops st)).
Hypothesis Hwidth : 1 < width.
Hypothesis Hn : numbered c false.
Hypothesis He : encodes c false s.
Hypothesis HO : ops_ok c false s O good.

Notation steps := (Ic3Core.steps c).
Notation in_frame := (Ic3Core.in_frame c false).
Notation sinv := (Ic3Core.sinv c false O good).
Notation finv := (Ic3Core.finv c false).
Notation rel_inductive := (Ic3Core.rel_inductive c false).
Notation sub_of := (Ic3Core.sub_of c).

Lemma not_bad_0 w : wires_ok c w -> initial_values c w -> ~ is_bad c false w.
Proof. intros _ H. apply slow_initial in H; auto. rewrite slow_bad by auto. destruct H as (_ & _ & E). congruence. Qed.

Lemma top_pos : (1 <= top width)%N.
Proof.
  unfold top. assert (X : (2 ^ 1 <= 2 ^ W)%N) by (apply N.pow_le_mono_r; lia). change (2 ^ 1)%N with 2%N in X. lia.
Qed.

Lemma within_top m : (m <= top width)%N -> within m (top width).
Proof.
  intros Hm i Hi. unfold top in *. pose proof (pow_pos W) as P.
  assert (L : (i < W)%N) by (apply (testbit_small m W i); auto; lia).
  replace (2 ^ W - 1)%N with (N.ones W) by (rewrite N.ones_equiv; lia). apply N.ones_spec_low. exact L.
Qed.

(** The clause "not all bits of [m] are set". *)
Definition cut (m : nat) : Clause := clause_new (ones width (N.of_nat m)).

Lemma off_true w i : lit_true w (off i) <-> w (i + 1)%N = false.
Proof. rewrite lit_true_value. unfold off. rewrite lit_value_odd. destruct (w (i + 1)%N); cbn; split; congruence. Qed.

Lemma ones_true w m : (m <= top width)%N ->
  clause_true w (clause_new (ones width m)) <-> ~ within m (count_of width w).
Proof.
  intros Hm. rewrite clause_new_true. split.
  - intros (l & Hl & Ht) Hin. apply in_ones in Hl. destruct Hl as (i & Hi & Hb & ->).
    apply off_true in Ht. specialize (Hin i Hb). rewrite count_bits in Hin by exact Hi. congruence.
  - intros H. destruct (existsb (fun l => lit_value w l) (ones width m)) eqn:E.
    + apply existsb_exists in E. exact E.
    + elim H. intros i Hi. 
      assert (L : (i < W)%N).
      { apply (testbit_small m W i); auto. unfold top in Hm. pose proof (pow_pos W). lia. }
      rewrite count_bits by exact L. destruct (w (i + 1)%N) eqn:Ew; auto.
      assert (X : existsb (fun l => lit_value w l) (ones width m) = true); [|congruence].
      apply existsb_exists. exists (off i). split; [apply in_ones; eauto|].
      apply off_true in Ew. rewrite lit_true_value in Ew. exact Ew.
Qed.

(* ------------------------------------------------------------- states of the frames *)

Lemma counted_in_frame k cls : finv k cls -> forall t, (N.of_nat t <= top width)%N -> forall i w, t <= i ->
  count_of width w = N.of_nat t -> w (W + 1)%N = false -> w (W + 2)%N = false -> in_frame cls i w.
Proof.
  intros H.
  assert (X : forall t, (N.of_nat t <= top width)%N -> in_frame cls t (state width (N.of_nat t) false false)).
  { induction t as [|t IH]; intros Ht.
    - assert (I : initial_values c (state width (N.of_nat 0) false false)).
      { apply slow_initial; auto. rewrite state_count, state_full, state_late by (auto; lia). auto. }
      split; [apply (f_init _ _ _ _ H); exact I|exact I].
    - pose proof (slow_succ width (N.of_nat t) false false ltac:(lia)) as S1.
      destruct (N.eqb_spec (N.of_nat t) (top width)); [lia|]. cbn [andb] in S1.
      replace (N.of_nat t + 1)%N with (N.of_nat (S t)) in S1 by lia.
      split.
      + apply (f_step _ _ _ _ H) with (state width (N.of_nat t) false false); [|apply IH; lia].
        split; [apply state_wires; auto|exact S1].
      + cbn. rewrite slow_bad, state_late by auto. discriminate. }
  intros t Ht i w Hi E1 E2 E3. specialize (X t Ht). destruct X as (X1 & X2).
  assert (Sm : same_latches c (state width (N.of_nat t) false false) w).
  { apply slow_same; auto. rewrite state_count, state_full, state_late by auto. auto. }
  split.
  - apply (latch_cnf_same c (state width (N.of_nat t) false false)); [apply (f_cnf _ _ _ _ H)|exact Sm|].
    destruct t as [|t]; [apply (f_init _ _ _ _ H); exact X2|].
    apply (mono_le c false k cls (S t) i); auto. lia.
  - destruct i as [|i].
    + replace t with 0 in E1 by lia. cbn. apply slow_initial; auto.
    + cbn. rewrite slow_bad by auto. congruence.
Qed.

(** Frame [i] leaves out the states that have all bits of [i + 1]. *)
Definition trimmed (cls : list CNF) (i : nat) : Prop := i = 0 \/ In (cut (i + 1)) (cnf_clauses (fr cls i)).

Lemma trimmed_not cls i w : trimmed cls i -> (N.of_nat (i + 1) <= top width)%N -> in_frame cls i w ->
  ~ within (N.of_nat (i + 1)) (count_of width w).
Proof.
  intros [->|H] Hi (H1 & H2).
  - apply slow_initial in H2; auto. destruct H2 as (-> & _). intros X. apply within_le in X. lia.
  - apply ones_true; [exact Hi|]. apply H1. exact H.
Qed.

Lemma trimmed_top cls i w : trimmed cls i -> (N.of_nat (i + 1) <= top width)%N -> in_frame cls i w ->
  count_of width w <> top width.
Proof. intros H1 H2 H3 E. apply (trimmed_not cls i w); auto. rewrite E. apply within_top; auto. Qed.

(* --------------------------------------------------------------- inductive clauses *)

Lemma signal_true w : lit_true w (2 * (W + 1) + 1)%N <-> w (W + 1)%N = false.
Proof. apply (off_true w W). Qed.

Lemma rel_signal cls i lits : trimmed cls i -> (N.of_nat (i + 1) <= top width)%N -> In (2 * (W + 1) + 1)%N lits ->
  rel_inductive cls i (clause_new lits).
Proof.
  intros Ht Hi Hl. split.
  - intros w Hw. apply clause_new_true. exists (2 * (W + 1) + 1)%N. split; auto. apply signal_true.
    apply slow_initial in Hw; auto. apply Hw.
  - intros w w' (Hw & Hs) Hin _. apply clause_new_true. exists (2 * (W + 1) + 1)%N. split; auto. apply signal_true.
    rewrite (slow_full width w w' Hw Hs). apply N.eqb_neq. eapply trimmed_top; eauto.
Qed.

Lemma rel_ones cls i lits : trimmed cls i -> (N.of_nat (i + 2) <= top width)%N ->
  Permutation lits (ones width (N.of_nat (i + 2))) -> rel_inductive cls i (clause_new lits).
Proof.
  intros Ht Hi P. rewrite (clause_new_perm lits _ P). split.
  - intros w Hw. apply ones_true; auto. apply slow_initial in Hw; auto. destruct Hw as (-> & _). intros X.
    apply within_le in X. lia.
  - intros w w' (Hw & Hs) Hin Hc. apply ones_true; auto. apply ones_true in Hc; auto.
    rewrite (slow_counts width w w' Hw Hs). destruct (N.eqb_spec (count_of width w) (top width)) as [E|E].
    + elim Hc. rewrite E. apply within_top; auto.
    + intros X. apply within_succ in X; [|lia]. destruct X as [X|X]; auto.
      apply (trimmed_not cls i w); auto; [lia|]. replace (N.of_nat (i + 1)) with (N.of_nat (i + 2) - 1)%N by lia. exact X.
Qed.

Lemma rel_less k cls i x lits : finv k cls -> (N.of_nat (i + 2) <= top width)%N ->
  Permutation (x :: lits) (ones width (N.of_nat (i + 2))) -> ~ rel_inductive cls i (clause_new lits).
Proof.
  intros Hf Hi P (H1 & H2). set (m := N.of_nat (i + 2)) in *.
  assert (Hx : In x (ones width m)) by (apply (Permutation_in x P); left; auto).
  apply in_ones in Hx. destruct Hx as (t & Ht & Hb & ->).
  pose proof (clear_bit m t Hb) as (L & Eb). set (y := N.clearbit m t) in *.
  assert (Hl : forall l, In l lits <-> exists j, (j < W)%N /\ N.testbit y j = true /\ l = off j).
  { assert (ND : NoDup (off t :: lits)) by (apply (Permutation_NoDup (Permutation_sym P)), ones_nodup).
    inversion ND as [|? ? Hnin _]. subst. intros l. split.
    - intros Hl. assert (Hl' : In l (ones width m)) by (apply (Permutation_in l P); right; auto).
      apply in_ones in Hl'. destruct Hl' as (j & Hj & Hjb & ->). exists j. split; auto. split; auto.
      rewrite Eb; auto. intros ->. auto.
    - intros (j & Hj & Hjb & ->).
      assert (Hjt : j <> t) by (intros ->; unfold y in Hjb; rewrite N.clearbit_eq in Hjb; discriminate).
      assert (X : In (off j) (off t :: lits)).
      { apply (Permutation_in _ (Permutation_sym P)), in_ones. exists j. split; auto. split; auto. rewrite <- Eb; auto. }
      destruct X as [X|X]; auto. unfold off in X. lia. }
  assert (Hfalse : forall w, within y (count_of width w) -> ~ clause_true w (clause_new lits)).
  { intros w Hw Hc. rewrite clause_new_true in Hc. destruct Hc as (l & Hin & Htl). apply Hl in Hin.
    destruct Hin as (j & Hj & Hjb & ->). apply off_true in Htl. specialize (Hw j Hjb). rewrite count_bits in Hw by exact Hj.
    congruence. }
  destruct (N.eq_dec y 0) as [E|E].
  - apply (Hfalse (state width 0 false false)); [rewrite E; intros j Hj; rewrite N.bits_0 in Hj; discriminate|].
    apply H1. apply slow_initial; auto. rewrite state_count, state_full, state_late by (auto; lia). auto.
  - pose proof (slow_succ width (y - 1)%N false false ltac:(lia)) as S1.
    destruct (N.eqb_spec (y - 1) (top width)); [lia|]. cbn [andb] in S1. replace (y - 1 + 1)%N with y in S1 by lia.
    apply (Hfalse (state width y false false)); [rewrite state_count by (auto; lia); apply within_refl|].
    apply (H2 (state width (y - 1) false false)); [split; [apply state_wires; auto|exact S1]|..].
    + apply (counted_in_frame k cls Hf (N.to_nat (y - 1))); rewrite ?state_count, ?state_full, ?state_late by (auto; lia); auto; lia.
    + apply clause_new_true.
      destruct (existsb (fun l => lit_value (state width (y - 1) false false) l) lits) eqn:Ex.
      { apply existsb_exists in Ex. exact Ex. }
      exfalso. assert (X : within y (y - 1)); [|apply within_le in X; lia]. intros j Hj.
      assert (Lj : (j < W)%N).
      { apply (testbit_small y W j); auto. unfold top in Hi. pose proof (pow_pos W). lia. }
      destruct (N.testbit (y - 1) j) eqn:Ej; auto.
      assert (Z : existsb (fun l => lit_value (state width (y - 1) false false) l) lits = true); [|congruence].
      apply existsb_exists. exists (off j). split; [apply Hl; eauto|].
      assert (T : lit_true (state width (y - 1) false false) (off j)).
      { apply off_true. rewrite <- (count_bits width) by exact Lj. rewrite state_count by (auto; lia). exact Ej. }
      rewrite lit_true_value in T. exact T.
Qed.

(* ------------------------------------------------------------------- one clause *)

(** The state from which a bad state is reached in one step. *)
Definition edge (u : valuation) : Prop :=
  count_of width u = top width /\ u (W + 1)%N = true /\ u (W + 2)%N = false.

Lemma all_off_sorted : sortedN (all_off width).
Proof.
  unfold all_off, bits, sortedN. rewrite map_map.
  assert (X : forall n k r, StronglySorted (fun x y => (x <=? y)%N = true) r ->
    Forall (fun y => (2 * N.of_nat (n + k) + 1 <= y)%N) r ->
    StronglySorted (fun x y => (x <=? y)%N = true) (map (fun x => off (N.of_nat x)) (seq k n) ++ r)).
  { induction n as [|n IH]; intros k r H1 H2; cbn [seq map app]; auto. constructor.
    - apply IH; auto. replace (n + S k) with (S n + k) by lia. exact H2.
    - apply Forall_app. split.
      + apply Forall_forall. intros y Hy. apply in_map_iff in Hy. destruct Hy as (j & <- & Hj). apply in_seq in Hj.
        unfold off. lia.
      + eapply Forall_impl; [|exact H2]. cbv beta. intros y Hy. unfold off. lia. }
  apply X.
  - repeat constructor. lia.
  - repeat constructor; lia.
Qed.

Lemma edge_lits u : edge u -> clause_iter (cube_not (state_of c u)) = all_off width.
Proof.
  intros (E1 & E2 & E3). unfold clause_iter, cube_not, clause_new, cube_iter, state_of, cube_new.
  cbn [clause_lits cube_lits]. rewrite <- (sortN_idem _ all_off_sorted). apply sortN_eq_iff.
  etransitivity; [apply Permutation_map, sort_perm|].
  rewrite slow_latches. cbn [c_inputs slow]. unfold numbers, all_off, bits.
  replace (N.to_nat (W + 2)) with (width + 2) by lia. rewrite seq_app, !map_app. cbn [seq map Nat.add].
  rewrite !map_map.
  replace (0 + 1 + N.of_nat width)%N with (W + 1)%N by lia. replace (0 + 1 + N.of_nat (S width))%N with (W + 2)%N by lia.
  rewrite E2, E3. match goal with |- Permutation ?x ?y => assert (E : x = y); [|rewrite E; apply Permutation_refl] end. f_equal.
  - apply map_ext_in. intros j Hj. apply in_seq in Hj. replace (0 + 1 + N.of_nat j)%N with (N.of_nat j + 1)%N by lia.
    rewrite <- (count_bits width), E1 by lia.
    assert (T : N.testbit (top width) (N.of_nat j) = true).
    { unfold top. pose proof (pow_pos W). replace (2 ^ W - 1)%N with (N.ones W) by (rewrite N.ones_equiv; lia).
      apply N.ones_spec_low. lia. }
    rewrite T. unfold off, literal_not. generalize (N.of_nat j + 1)%N. intros [|p]; reflexivity.
  - unfold literal_not. f_equal; [|f_equal].
    + generalize (W + 1)%N. intros [|p]; reflexivity.
    + generalize (W + 2)%N. intros [|p]; reflexivity.
Qed.

(** The same frames, the same number of drawn permutations. *)
Definition unchanged (k : nat) (st st' : Ic3State O) : Prop :=
  sinv k st' /\ cl st' = cl st /\ st_draws st' = st_draws st.

Lemma test_ok k i u lits st : sinv k st -> i <= k -> sub_of u lits ->
  okay (op O (fun x => o_clause_inductive O x (clause_new lits) i) st) (fun r =>
    unchanged k st (snd r) /\ (fst r = true <-> rel_inductive (cl st) i (clause_new lits))).
Proof.
  intros Hs Hi Hsub. destruct (sub_of_clause c u lits Hsub) as (L1 & L2 & L3).
  eapply okay_impl.
  { apply op_okay. apply (ok_inductive _ _ _ _ _ HO); auto; [apply Hs|]. pose proof (f_len _ _ _ _ (proj2 Hs)). lia. }
  intros (r & st') ((Hg & Ec & Hr) & Ed). cbn [fst snd] in *. split; [|exact Hr].
  split; [split; auto; rewrite Ec; apply Hs|]. auto.
Qed.

Lemma unchanged_trans k st st' st'' : unchanged k st st' -> unchanged k st' st'' -> unchanged k st st''.
Proof. intros (H1 & H2 & H3) (G1 & G2 & G3). split; auto. split; congruence. Qed.

Lemma keep_phase k i u : i <= k -> (N.of_nat (i + 2) <= top width)%N -> forall fuel lits j st,
  length lits - j <= fuel -> sinv k st -> sub_of u lits -> Permutation lits (ones width (N.of_nat (i + 2))) ->
  okay (subclause_loop O fuel i lits j st) (fun r =>
    unchanged k st (snd r) /\ Permutation (fst r) (ones width (N.of_nat (i + 2)))).
Proof.
  intros Hi Htop. induction fuel as [|fuel IH]; intros lits j st Hf Hs Hsub P; cbn [subclause_loop];
    destruct (j <? length lits) eqn:E.
  1: { apply Nat.ltb_lt in E. lia. }
  1,3: eexists; split; [reflexivity|]; split; [split; auto|exact P].
  apply Nat.ltb_lt in E. destruct (swap_remove_ok lits j E) as (x & r & Es & P1). rewrite Es. cbn [bind].
  pose proof (Permutation_length P1) as PL. simpl in PL.
  assert (Sr : sub_of u r) by (intros l Hl; apply Hsub; apply (Permutation_in l (Permutation_sym P1)); simpl; auto).
  eapply okay_bind; [apply (test_ok k i u r st Hs Hi Sr)|].
  intros (ind & st') (U & Hind). cbn [fst snd] in *. destruct ind.
  { exfalso. apply (rel_less k (cl st) i x r); [apply Hs|exact Htop| |apply Hind; auto]. rewrite <- P1. exact P. }
  destruct (swap_last_ok (r ++ [x]) j) as (r' & Er & P').
  { rewrite app_length. simpl. lia. }
  rewrite Er. cbn [bind].
  assert (PP : Permutation lits r').
  { rewrite P1, Permutation_cons_append. auto. }
  pose proof (Permutation_length PP).
  eapply okay_impl; [apply (IH r' (S j) st')|].
  - lia.
  - apply U.
  - eapply sub_of_perm; eauto.
  - rewrite <- PP. exact P.
  - intros (ls & st'') (G1 & G2). cbn [fst snd] in *. split; auto. eapply unchanged_trans; eauto.
Qed.

Lemma swap_remove_first {A} (x y : A) t : swap_remove (x :: t ++ [y]) 0 = Ok (x, y :: t).
Proof.
  unfold swap_remove, indexn. cbn [nth_error unwrap bind set_nth].
  replace (last (x :: t ++ [y]) x) with y by (rewrite app_comm_cons, last_last; reflexivity).
  rewrite app_comm_cons, removelast_last. reflexivity.
Qed.

Lemma drop_phase k i u : i <= k -> (N.of_nat (i + 2) <= top width)%N -> forall drops d st fuel,
  length (d :: ones width (N.of_nat (i + 2)) ++ (2 * (W + 1) + 1)%N :: drops) <= fuel -> sinv k st -> trimmed (cl st) i ->
  sub_of u (d :: ones width (N.of_nat (i + 2)) ++ (2 * (W + 1) + 1)%N :: drops) ->
  okay (subclause_loop O fuel i (d :: ones width (N.of_nat (i + 2)) ++ (2 * (W + 1) + 1)%N :: drops) 0 st) (fun r =>
    unchanged k st (snd r) /\ Permutation (fst r) (ones width (N.of_nat (i + 2)))).
Proof.
  intros Hi Htop. set (on := ones width (N.of_nat (i + 2))) in *. set (sg := (2 * (W + 1) + 1)%N).
  assert (Drop : forall x y t st fuel Q, sinv k st -> sub_of u (x :: t ++ [y]) -> 
    rel_inductive (cl st) i (clause_new (y :: t)) ->
    (forall st', unchanged k st st' -> okay (subclause_loop O fuel i (y :: t) 0 st') Q) ->
    okay (subclause_loop O (S fuel) i (x :: t ++ [y]) 0 st) Q).
  { intros x y t st fuel Q Hs Hsub Hrel Hnext. cbn [subclause_loop length Nat.ltb Nat.leb].
    rewrite swap_remove_first. cbn [bind]. eapply okay_bind.
    - apply (test_ok k i u (y :: t) st Hs Hi). intros l Hl. apply Hsub. right. apply in_app_iff. simpl in *. tauto.
    - intros (ind & st') (U & Hind). cbn [fst snd] in *. destruct ind; [apply Hnext; exact U|].
      apply Hind in Hrel. discriminate. }
  induction drops as [|z drops IH] using rev_ind; intros d st fuel Hf Hs Ht Hsub.
  - destruct fuel as [|fuel]; [cbn [length] in Hf; lia|].
    apply Drop; auto.
    { apply rel_signal; auto; [lia|]. left. reflexivity. }
    intros st1 (Hs1 & E1 & D1).
    assert (Hon : on <> []).
    { destruct (has_bit (N.of_nat (i + 2)) ltac:(lia)) as (t & Hb). intros E.
      assert (X : In (off t) on); [|rewrite E in X; exact X]. apply in_ones. exists t. split; auto.
      apply (testbit_small (N.of_nat (i + 2)) W t); auto. unfold top in Htop. pose proof (pow_pos W). lia. }
    destruct (exists_last Hon) as (on' & y & Eon).
    destruct fuel as [|fuel]; [rewrite Eon in Hf; cbn [length] in Hf; rewrite !app_length in Hf; cbn [length] in Hf; lia|].
    assert (Py : Permutation (y :: on') on) by (rewrite Eon; apply Permutation_cons_append).
    rewrite Eon. apply Drop; auto.
    + intros l Hl. apply Hsub. right. apply in_app_iff.
      destruct Hl as [<-|Hl]; [right; left; reflexivity|left; rewrite Eon; exact Hl].
    + apply rel_ones; auto. rewrite E1. exact Ht.
    + intros st2 U2. eapply okay_impl; [apply (keep_phase k i u Hi Htop fuel (y :: on') 0 st2)|].
      * pose proof (Permutation_length Py) as PL. rewrite Nat.sub_0_r. cbn [length] in Hf, PL |- *.
        rewrite app_length in Hf. cbn [length] in Hf. unfold Literal in *. lia.
      * apply U2.
      * intros l Hl. apply Hsub. right. apply in_app_iff. left. apply (Permutation_in l Py). exact Hl.
      * exact Py.
      * intros (ls & st3) (G1 & G2). cbn [fst snd] in *. split; [|rewrite <- Eon; exact G2].
        apply (unchanged_trans k st st1 st3); [split; auto|]. apply (unchanged_trans k st1 st2 st3); auto.
  - destruct fuel as [|fuel]; [cbn [length] in Hf; lia|].
    replace (on ++ sg :: drops ++ [z]) with ((on ++ sg :: drops) ++ [z]) in * by (rewrite <- app_assoc; reflexivity).
    apply Drop; auto.
    { apply rel_signal; auto; [lia|]. right. apply in_app_iff. right. left. reflexivity. }
    intros st1 (Hs1 & E1 & D1). eapply okay_impl; [apply (IH z st1 fuel); auto|].
    + cbn [length] in Hf |- *. rewrite app_length in Hf. cbn [length] in Hf. lia.
    + rewrite E1. exact Ht.
    + intros l Hl. apply Hsub. right. apply in_app_iff. simpl in *. tauto.
    + intros (ls & st2) (G1 & G2). cbn [fst snd] in *. split; auto. eapply unchanged_trans; eauto. split; auto.
Qed.

Lemma subclause_slow k i u st : edge u -> i <= k -> (N.of_nat (i + 2) <= top width)%N -> sinv k st -> trimmed (cl st) i ->
  need (st_draws st) = N.of_nat (i + 2) ->
  okay (get_subclause R O (state_of c u) i st) (fun r =>
    fst r = cut (i + 2) /\ sinv k (snd r) /\ cl (snd r) = cl st /\ st_draws (snd r) = S (st_draws st)).
Proof.
  intros Hu Hi Htop Hs Ht Hneed. unfold get_subclause, draw. cbv zeta. rewrite (edge_lits u Hu).
  unfold slow_random at 1 2. rewrite Hneed, arrange_all.
  eapply okay_bind.
  { apply (drop_phase k i u Hi Htop); auto.
    intros l Hl. rewrite <- arrange_all in Hl. apply (Permutation_in l (arrange_perm _ _ _)) in Hl.
    rewrite <- (edge_lits u Hu) in Hl. apply (sub_of_state c u). exact Hl. }
  intros (ls & st') ((G1 & G2 & G3) & G4). cbn [fst snd st_ops st_draws] in *. eexists. split; [reflexivity|].
  cbn [fst snd]. split; [apply clause_new_perm; exact G4|]. auto.
Qed.

(* --------------------------------------------------------------------- the frames *)

(** All clauses cut off bit sets up to [J + 1], and those above [i] are in frame [i]. *)
Definition shape (J k : nat) (st : Ic3State O) (d : nat) : Prop :=
  sinv k st /\
  (forall i e, In e (cnf_clauses (fr (cl st) i)) -> exists m, 1 <= m <= J + 1 /\ e = cut m) /\
  (forall i m, 1 <= i -> i + 1 <= m <= J + 1 -> In (cut m) (cnf_clauses (fr (cl st) i))) /\
  st_draws st = d.

Lemma shape_unchanged J k st d x : shape J k st d -> good x -> o_clauses O x = cl st -> shape J k (mkIc3State x d) d.
Proof.
  intros (H1 & H2 & H3 & H4) Hg E. unfold shape, sinv. cbn [st_ops st_draws]. rewrite E.
  split; [split; auto; apply H1|]. auto.
Qed.

Lemma shape_trimmed J k st d i : shape J k st d -> i <= J -> trimmed (cl st) i.
Proof. intros (_ & _ & H3 & _) Hi. destruct i as [|i]; [left; auto|right]. apply H3; lia. Qed.

(** Frame [k] is empty as long as only sets up to [k] are cut off. *)
Lemma shape_empty J k st d i : shape J k st d -> J < i -> (N.of_nat (J + 1) <= top width)%N -> forall w, cnf_true w (fr (cl st) i).
Proof.
  intros (H1 & H2 & _ & _) Hi HJ w e He'. exfalso. destruct (H2 i e He') as (m & Hm & ->).
  destruct (counted_in_frame k (cl st) (proj2 H1) m ltac:(lia) i (state width (N.of_nat m) false false)) as (T & _);
    rewrite ?state_count, ?state_full, ?state_late by lia; auto; [lia|].
  specialize (T _ He'). apply ones_true in T; [|lia]. apply T. rewrite state_count by lia. apply within_refl.
Qed.

Lemma add_frames_draws d l : forall st st',
  foldM (fun st j => op_ O (fun x => o_add_clause O x j d) st) l st = Ok st' -> st_draws st' = st_draws st.
Proof.
  induction l as [|j l IH]; intros st st' H; cbn [foldM] in H; [injection H as <-; auto|].
  unfold op_ at 1 in H. destruct (o_add_clause O (st_ops st) j d) as [x| |]; cbn [bind] in H; try discriminate.
  apply IH in H. exact H.
Qed.

Lemma okay_and {A} (m : res A) Q Q' : okay m Q -> okay m Q' -> okay m (fun x => Q x /\ Q' x).
Proof. intros (x & E & H) (y & E' & H'). exists x. rewrite E in E'. injection E' as <-. auto. Qed.

Lemma edge_not_initial u : edge u -> ~ initial_values c u.
Proof. intros (_ & E & _) H. apply slow_initial in H. destruct H as (_ & X & _). congruence. Qed.

(** The edge state is only reached from the largest number. *)
Lemma edge_before u w w' : edge u -> steps w w' -> same_latches c w' u ->
  count_of width w = top width /\ w (W + 1)%N = false.
Proof.
  intros (E1 & E2 & E3) (Hw & Hs) Hsame. apply slow_same in Hsame. destruct Hsame as (S1 & S2 & S3).
  rewrite (slow_full width w w' Hw Hs), E2 in S2. rewrite (slow_late width w w' Hw Hs), S2, E3, andb_true_r in S3.
  apply N.eqb_eq in S2. auto.
Qed.

Lemma generate_slow k i u st d : edge u -> i <= k -> (N.of_nat (i + 2) <= top width)%N -> shape i k st d ->
  need d = N.of_nat (i + 2) ->
  okay (generate_clause R O (state_of c u) i st) (fun st' => shape (S i) k st' (S d)).
Proof.
  intros Hu Hi Htop Hsh Hneed. pose proof Hsh as (H1 & H2 & H3 & H4).
  assert (Ht : trimmed (cl st) i) by (apply (shape_trimmed i k st d); auto).
  eapply okay_impl.
  { apply (okay_and _ (sinv k) (fun st' => st_draws st' = S d /\
      forall j, fr (cl st') j = if (1 <=? j) && (j <=? S i) then cnf_add_clause (fr (cl st) j) (cut (i + 2)) else fr (cl st) j)).
    - eapply okay_impl; [apply (generate_ok c false s not_bad_0 R O good (slow_random_ok width) HO k u i st)|].
      + exact Hi.
      + exact H1.
      + apply edge_not_initial; auto.
      + intros w w' Hst Hin _ Hsame. destruct (edge_before u w w' Hu Hst Hsame) as (E & _).
        apply (trimmed_top (cl st) i w); auto. lia.
      + intros st' (X & _). exact X.
    - unfold generate_clause. eapply okay_bind; [apply (subclause_slow k i u st); auto; congruence|].
      intros (e & st1) (Ee & S1 & E1 & D1). cbn [fst snd] in *. subst e.
      destruct (sub_of_clause c u (ones width (N.of_nat (i + 2)))) as (L & _).
      { intros l Hl. apply (sub_of_state c u). fold (clause_iter (cube_not (state_of c u))). rewrite (edge_lits u Hu).
        unfold all_off. apply in_app_iff. left. unfold ones in Hl. apply in_map_iff in Hl. destruct Hl as (x & <- & Hx).
        apply in_map. apply filter_In in Hx. apply Hx. }
      destruct (add_frames_ok c false s O good HO (cut (i + 2)) L (S i) 0 st1) as (st' & E' & G1 & G2 & G3).
      + rewrite E1. pose proof (f_len _ _ _ _ (proj2 H1)). lia.
      + apply S1.
      + exists st'. split; [exact E'|]. split; [rewrite (add_frames_draws _ _ _ _ E'), D1; congruence|].
        intros j. rewrite G3, E1. reflexivity. }
  intros st' (S' & D' & F'). split; [exact S'|]. split; [|split; [|exact D']].
  - intros j e Hin. rewrite F' in Hin. destruct ((1 <=? j) && (j <=? S i)).
    + apply in_add_clause in Hin. destruct Hin as [Hin| ->]; [|exists (i + 2); split; [lia|auto]].
      destruct (H2 j e Hin) as (m & Hm & E). exists m. split; [lia|exact E].
    + destruct (H2 j e Hin) as (m & Hm & E). exists m. split; [lia|exact E].
  - intros j m Hj Hm. rewrite F'. destruct (Nat.eq_dec m (i + 2)) as [->|Hne].
    + replace ((1 <=? j) && (j <=? S i)) with true by (symmetry; apply andb_true_iff; rewrite !Nat.leb_le; lia).
      apply in_add_clause. auto.
    + specialize (H3 j m Hj ltac:(lia)). destruct ((1 <=? j) && (j <=? S i)); auto. apply in_add_clause. auto.
Qed.

(* ---------------------------------------------------------------- the obligations *)

Lemma not_s_ok k i u st : sinv k st -> i <= k ->
  okay (op O (fun x => o_not_s_and_s_tag O x i (state_of c u)) st) (fun r =>
    unchanged k st (snd r) /\ (fst r = true <-> exists w w', steps w w' /\ in_frame (cl st) i w /\
      ~ same_latches c w u /\ same_latches c w' u)).
Proof.
  intros Hs Hi. eapply okay_impl.
  { apply op_okay. apply (ok_not_s _ _ _ _ _ HO); [apply Hs| |apply state_of_api|apply state_of_vars].
    pose proof (f_len _ _ _ _ (proj2 Hs)). lia. }
  intros (sat & st1) ((Hg & Ec & Hsat) & Ed). cbn [fst snd] in *.
  split; [split; [split; auto; rewrite Ec; apply Hs|auto]|]. rewrite Hsat.
  split; intros (w & w' & X); exists w, w'; rewrite !state_of_true in *; exact X.
Qed.

Lemma unchanged_shape J k st st' d : unchanged k st st' -> shape J k st d -> shape J k st' d.
Proof. intros (U1 & U2 & U3) (H1 & H2 & H3 & H4). split; auto. rewrite U2, U3. auto. Qed.

Lemma trimmed_blocks k i u st r st' : edge u -> trimmed (cl st) i -> (N.of_nat (i + 1) <= top width)%N ->
  sinv k st -> i <= k -> op O (fun x => o_not_s_and_s_tag O x i (state_of c u)) st = Ok (r, st') ->
  r = false /\ unchanged k st st'.
Proof.
  intros Hu Ht Hi Hs Hk E. destruct (not_s_ok k i u st Hs Hk) as ((r' & st'') & E' & U & H).
  rewrite E in E'. injection E' as <- <-. cbn [fst snd] in *. split; [|exact U]. destruct r; auto.
  destruct (proj1 H eq_refl) as (w & w' & Hst & Hin & _ & Hsame). destruct (edge_before u w w' Hu Hst Hsame) as (E1 & _).
  elim (trimmed_top (cl st) i w); auto.
Qed.

Lemma generalize_first k u st d : edge u -> 1 <= k -> (N.of_nat (k + 1) <= top width)%N -> shape (k - 1) k st d ->
  need d = N.of_nat (k + 1) ->
  okay (inductively_generalize R O (state_of c u) (Z.of_nat k - 2) k st) (fun r =>
    fst r = IG_Success (k - 1) /\ shape k k (snd r) (S d)).
Proof.
  intros Hu Hk Htop Hsh Hneed.
  assert (Last : forall st, shape (k - 1) k st d ->
    okay (generalize_loop R O (state_of c u) k [k] st) (fun r => fst r = IG_Success (k - 1) /\ shape k k (snd r) (S d))).
  { clear st Hsh. intros st Hsh. cbn [generalize_loop]. eapply okay_bind; [apply (not_s_ok k k u st); [apply Hsh|lia]|].
    intros (r & st1) (U & H). cbn [fst snd] in *. destruct r.
    - eapply okay_bind.
      + apply (generate_slow k (k - 1) u st1 d); auto; [lia|replace (k - 1 + 2) with (k + 1) by lia; auto| |
          replace (k - 1 + 2) with (k + 1) by lia; auto]. eapply unchanged_shape; eauto.
      + intros st2 H2. eexists. split; [reflexivity|]. cbn [fst snd]. split; auto. replace (S (k - 1)) with k in H2 by lia. exact H2.
    - exfalso. assert (X : false = true); [|discriminate]. apply H.
      pose proof (slow_succ width (top width) false false ltac:(lia)) as S1. rewrite N.eqb_refl in S1. cbn [andb] in S1.
      exists (state width (top width) false false), (state width (top width) true false).
      destruct Hu as (E1 & E2 & E3).
      split; [split; [apply state_wires|exact S1]|]. split; [split|split].
      + apply (shape_empty (k - 1) k st d); auto; [lia|]. replace (k - 1 + 1) with k by lia. lia.
      + destruct k as [|k']; [lia|]. cbn. rewrite slow_bad, state_late. discriminate.
      + intros Hsame. apply slow_same in Hsame. destruct Hsame as (_ & Y & _). rewrite state_full in Y. congruence.
      + apply slow_same. rewrite state_count, state_full, state_late by lia. auto. }
  unfold inductively_generalize. destruct (Z.ltb_spec (Z.of_nat k - 2) 0) as [L|L].
  - replace k with 1 in * by lia. destruct (not_s_ok 1 0 u st) as ((r & st1) & E & _); [apply Hsh|lia|].
    rewrite E. cbn [bind]. destruct (trimmed_blocks 1 0 u st r st1) as (-> & U); auto; [left; auto|lia|apply Hsh|].
    replace (Z.to_nat (Z.max 1 (Z.of_nat 1 - 2 + 1))) with 1 by lia. cbn [Nat.sub seq].
    apply Last. eapply unchanged_shape; eauto.
  - cbn [bind]. replace (Z.to_nat (Z.max 1 (Z.of_nat k - 2 + 1))) with (k - 1) by lia.
    replace (S k - (k - 1)) with 2 by lia. cbn [seq]. replace (S (k - 1)) with k by lia.
    cbn [generalize_loop]. destruct (not_s_ok k (k - 1) u st) as ((r & st1) & E & _); [apply Hsh|lia|].
    rewrite E. cbn [bind]. destruct (trimmed_blocks k (k - 1) u st r st1) as (-> & U); auto.
    + apply (shape_trimmed (k - 1) k st d); auto.
    + replace (k - 1 + 1) with k by lia. lia.
    + apply Hsh.
    + lia.
    + apply (Last st1). eapply unchanged_shape; eauto.
Qed.

Lemma generalize_second k u st d : edge u -> 1 <= k -> (N.of_nat (k + 2) <= top width)%N -> shape k k st d ->
  need d = N.of_nat (k + 2) ->
  okay (inductively_generalize R O (state_of c u) (Z.of_nat k) k st) (fun r =>
    fst r = IG_Success k /\ shape (S k) k (snd r) (S d)).
Proof.
  intros Hu Hk Htop Hsh Hneed. unfold inductively_generalize.
  destruct (Z.ltb_spec (Z.of_nat k) 0) as [L|L]; [lia|]. cbn [bind].
  replace (S k - Z.to_nat (Z.max 1 (Z.of_nat k + 1))) with 0 by lia. cbn [seq generalize_loop].
  eapply okay_bind; [apply (generate_slow k k u st d); auto|].
  intros st2 H2. eexists. split; [reflexivity|]. auto.
Qed.

Lemma pop_one (n : nat) (e : Cube * nat) : queue_pop (R n) [e] = Some (e, []).
Proof.
  destruct (queue_pop_spec (R n) [e]) as (x & r & E & P & _); [intros B l; apply slow_random_ok|discriminate|].
  rewrite E. apply Permutation_length_1_inv in P. injection P as -> ->. reflexivity.
Qed.

Lemma push_slow k u st d fuel : edge u -> 1 <= k -> (N.of_nat (k + 2) <= top width)%N -> shape k k st d ->
  need (S d) = N.of_nat (k + 2) ->
  okay (push_generalization b R O s (S (S fuel)) [(state_of c u, k)] k st) (fun r =>
    fst r = Success /\ shape (S k) k (snd r) (S (S (S d)))).
Proof.
  intros Hu Hk Htop Hsh Hneed. remember (S fuel) as f. cbn [push_generalization]. rewrite pop_one. cbn [unwrap bind].
  rewrite Nat.ltb_irrefl. pose proof Hsh as (H1 & H2 & H3 & H4).
  eapply okay_bind.
  { apply op_okay. apply (ok_reach _ _ _ _ _ HO); [apply H1| |apply state_of_api|apply state_of_vars].
    cbn [st_ops]. pose proof (f_len _ _ _ _ (proj2 H1)). lia. }
  intros (resp & st1) ((Hg & Ec & Hans) & Ed). cbn [fst snd st_ops st_draws] in *.
  destruct resp as [|asg].
  2:{ exfalso. destruct Hans as (w & w' & Hst & (Hin & Hc) & _). apply state_of_true in Hc.
      destruct (edge_before u w w' Hu Hst Hc) as (E & _).
      apply (trimmed_top (cl st) k w); auto; [apply (shape_trimmed k k st d); auto|lia]. }
  eapply okay_bind.
  { apply (generalize_second k u st1 (S d)); auto. split; [split; [auto|rewrite Ec; apply H1]|]. rewrite Ec. split; auto.
    split; auto. congruence. }
  intros (g & st2) (Eg & H5). cbn [fst snd] in Eg, H5. subst g. rewrite queue_push_new by (intros []). cbn [app]. subst f.
  cbn [push_generalization]. rewrite pop_one. cbn [unwrap bind].
  replace (k <? k + 1) with true by (symmetry; apply Nat.ltb_lt; lia). eexists. split; [reflexivity|]. cbn [fst snd].
  split; auto. destruct H5 as (X1 & X2 & X3 & X4). split; [exact X1|]. split; [exact X2|]. split; [exact X3|].
  cbn [st_draws]. congruence.
Qed.

Lemma bad_edge w w' : steps w w' -> bad_state c false w' -> w (W + 1)%N = true /\ count_of width w = top width.
Proof.
  intros (Hw & Hs) (x & _ & Hx & Hb). apply slow_bad in Hb. apply slow_same in Hx. destruct Hx as (_ & _ & E).
  rewrite Hb, (slow_late width w w' Hw Hs) in E. symmetry in E. apply andb_true_iff in E. rewrite N.eqb_eq in E. exact E.
Qed.

Lemma bad_from_ok k i st : sinv k st -> i <= k ->
  okay (op O (fun x => o_bad_from_fi O x i) st) (fun r =>
    unchanged k st (snd r) /\ answers c (fst r) (fun w w' => in_frame (cl st) i w /\ bad_state c false w')).
Proof.
  intros Hs Hi. eapply okay_impl.
  { apply op_okay. apply (ok_bad_from _ _ _ _ _ HO); [apply Hs|]. pose proof (f_len _ _ _ _ (proj2 Hs)). lia. }
  intros (sat & st1) ((Hg & Ec & Hsat) & Ed). cbn [fst snd] in *.
  split; [split; [split; auto; rewrite Ec; apply Hs|auto]|]. exact Hsat.
Qed.

(** Nothing bad is reached from a trimmed frame. *)
Lemma strengthen_done J k st d inner fuel : k <= J -> (N.of_nat (k + 1) <= top width)%N -> shape J k st d ->
  okay (strengthen b R O s inner (S fuel) k st) (fun r => fst r = Success /\ shape J k (snd r) d).
Proof.
  intros HJ Htop Hsh. cbn [strengthen]. eapply okay_bind; [apply (bad_from_ok k k st); [apply Hsh|lia]|].
  intros (resp & st1) (U & Hans). cbn [fst snd] in *. destruct resp as [|asg].
  - eexists. split; [reflexivity|]. cbn [fst snd]. split; auto. eapply unchanged_shape; eauto.
  - exfalso. destruct Hans as (w & w' & Hst & (Hin & Hb) & _). destruct (bad_edge w w' Hst Hb) as (_ & E).
    apply (trimmed_top (cl st) k w); auto. apply (shape_trimmed J k st d); auto.
Qed.

Lemma strengthen_slow k st d inner fuel : 1 <= k -> (N.of_nat (k + 2) <= top width)%N -> shape (k - 1) k st d ->
  need d = N.of_nat (k + 1) -> need (d + 2) = N.of_nat (k + 2) ->
  okay (strengthen b R O s (S (S inner)) (S (S fuel)) k st) (fun r => fst r = Success /\ shape (S k) k (snd r) (d + 4)).
Proof.
  intros Hk Htop Hsh Hn1 Hn2. remember (S fuel) as f. cbn [strengthen].
  eapply okay_bind; [apply (bad_from_ok k k st); [apply Hsh|lia]|].
  intros (resp & st1) (U & Hans). cbn [fst snd] in *. destruct resp as [|asg].
  { exfalso. pose proof (slow_succ width (top width) true false ltac:(lia)) as S1. rewrite N.eqb_refl in S1. cbn [andb] in S1.
    apply (Hans (state width (top width) true false) (state width (top width) true true)).
    - split; [apply state_wires|exact S1].
    - split; [split|].
      + apply (shape_empty (k - 1) k st d); auto; [lia|]. replace (k - 1 + 1) with k by lia. lia.
      + destruct k as [|k']; [lia|]. cbn. rewrite slow_bad, state_late. discriminate.
      + exists (state width (top width) true true). split; [apply state_wires|]. split; [apply same_latches_refl|].
        apply slow_bad. apply state_late. }
  destruct Hans as (w & w' & Hst & (Hin & Hb) & Hval). destruct (bad_edge w w' Hst Hb) as (Ea & Ec).
  assert (Hu : edge w).
  { split; [exact Ec|]. split; [exact Ea|]. destruct k as [|k']; [lia|]. destruct Hin as (_ & Hnb). cbn in Hnb.
    rewrite slow_bad in Hnb. destruct (w (W + 2)%N); auto. elim Hnb; auto. }
  rewrite (extract_state b c false s asg w Hn He Hval). cbn [bind].
  eapply okay_bind.
  { apply (generalize_first k w st1 d); auto; [lia|]. eapply unchanged_shape; eauto. }
  intros (g & st2) (Eg & H2). cbn [fst snd] in Eg, H2. subst g. rewrite queue_push_new by (intros []). cbn [app].
  replace (k - 1 + 1) with k by lia.
  eapply okay_bind.
  { apply (push_slow k w st2 (S d) inner); auto. rewrite <- Hn2. f_equal. lia. }
  intros (o & st3) (Eo & H3). cbn [fst snd] in Eo, H3. subst o f.
  replace (d + 4) with (S (S (S (S d)))) by lia. apply strengthen_done; auto. lia.
Qed.

(* -------------------------------------------------------------------- propagation *)

Definition from_cuts (J : nat) (st : Ic3State O) : Prop :=
  forall i e, In e (cnf_clauses (fr (cl st) i)) -> exists m, 1 <= m <= J + 1 /\ e = cut m.

Lemma push_fold J k i : 1 <= i <= k -> forall order st, sinv k st -> incl order (cnf_clauses (fr (cl st) i)) ->
  from_cuts J st -> forall st',
  foldM (fun st d =>
           '(r, st) <- op O (fun x => o_propagate_query O x i d) st ;;
           match r with
           | UnSat => op_ O (fun x => o_add_clause O x (i + 1) d) st
           | Sat _ => Ok st
           end) order st = Ok st' -> from_cuts J st' /\ st_draws st' = st_draws st.
Proof.
  intros Hi. induction order as [|e order IH]; intros st Hs Hincl Hj st' H; cbn [foldM] in H; [injection H as <-; auto|].
  destruct (propagate_clauses_fold c false s not_bad_0 O good HO k i Hi [e] st Hs) as (st1 & E1 & S1 & _ & F1 & _).
  { intros x [<-|[]]. apply Hincl. left. auto. }
  cbn [foldM] in E1.
  assert (Hd : In e (cnf_clauses (fr (cl st) i))) by (apply Hincl; simpl; auto).
  assert (Hda : latch_clause c e).
  { destruct (f_cnf _ _ _ _ (proj2 Hs) i) as (A & V). split; [|apply V; auto]. apply api_cnf_clauses in A.
    rewrite Forall_forall in A. auto. }
  assert (X : from_cuts J st1 /\ st_draws st1 = st_draws st).
  { clear H IH. revert E1.
    destruct (ok_propagate _ _ _ _ _ HO (st_ops st) i e (proj1 Hs)) as ((r & x) & Ex & Hg & Ec & _); auto.
    { pose proof (f_len _ _ _ _ (proj2 Hs)). lia. }
    unfold op at 1. rewrite Ex. cbn [bind fst snd st_ops st_draws] in *. destruct r as [|asg].
    - unfold op_. cbn [st_ops st_draws].
      destruct (ok_add _ _ _ _ _ HO x (i + 1) e Hg) as (y & Ey & Hgy & Ecy); auto.
      { rewrite Ec. pose proof (f_len _ _ _ _ (proj2 Hs)). lia. }
      rewrite Ey. cbn [bind]. intros E. injection E as <-. cbn [st_draws]. split; auto.
      intros j z Hz. cbn [st_ops] in Hz. rewrite Ecy, Ec in Hz. unfold fr in Hz. rewrite nth_set_nth in Hz by (pose proof (f_len _ _ _ _ (proj2 Hs)); lia).
      destruct (j =? i + 1); [|apply (Hj j z Hz)]. apply in_add_clause in Hz. destruct Hz as [Hz| ->]; [apply (Hj _ _ Hz)|apply (Hj _ _ Hd)].
    - cbn [bind]. intros E. injection E as <-. cbn [st_draws]. split; auto.
      intros j z Hz. cbn [st_ops] in Hz. rewrite Ec in Hz. apply (Hj j z Hz). }
  destruct X as (X1 & X2).
  destruct ('(r, st0) <- op O (fun x => o_propagate_query O x i e) st ;;
       match r with
       | UnSat => op_ O (fun x => o_add_clause O x (i + 1) e) st0
       | Sat _ => Ok st0
       end) as [st2| |] eqn:E2; cbn [bind] in *; try discriminate.
  injection E1 as ->. destruct (IH st1 S1) with (st' := st') as (Y1 & Y2); auto.
  - intros x Hx. rewrite F1 by lia. apply Hincl. right. auto.
  - split; auto. congruence.
Qed.

Lemma propagate_from_cuts J k : forall m i st, 1 <= i -> i + m <= S k -> sinv k st -> from_cuts J st -> forall st',
  foldM (propagate_frame R O) (seq i m) st = Ok st' -> from_cuts J st' /\ st_draws st' = st_draws st + m.
Proof.
  induction m as [|m IH]; intros i st Hi Hk Hs Hj st' H; cbn [seq foldM] in H; [injection H as <-; rewrite Nat.add_0_r; auto|].
  destruct (propagate_frames c false s not_bad_0 R O good (slow_random_ok width) HO k 1 i st Hi ltac:(lia) Hs) as (st1 & E1 & S1 & _).
  cbn [seq foldM] in E1. destruct (propagate_frame R O st i) as [st2| |] eqn:E2; cbn [bind] in *; try discriminate.
  injection E1 as ->. unfold propagate_frame in E2.
  rewrite (indexn_nth _ _ cnf_new) in E2 by (pose proof (f_len _ _ _ _ (proj2 Hs)); lia). cbn [bind] in E2.
  unfold draw in E2. apply (push_fold J k i) in E2; auto.
  - cbn [st_draws] in E2. destruct E2 as (Y1 & Y2). destruct (IH (S i) st1 ltac:(lia) ltac:(lia) S1 Y1 st' H) as (Z1 & Z2).
    split; auto. lia.
  - lia.
  - cbn [st_ops]. intros x Hx. eapply Permutation_in; [|exact Hx]. apply slow_random_ok.
Qed.

Lemma propagate_slow J k st d : shape J k st d ->
  okay (propagate_clauses R O k st) (fun st' => shape J k st' (d + k)).
Proof.
  intros (H1 & H2 & H3 & H4). unfold propagate_clauses.
  destruct (propagate_frames c false s not_bad_0 R O good (slow_random_ok width) HO k k 1 st) as (st' & E & S1 & G & _); auto.
  exists st'. split; [exact E|]. destruct (propagate_from_cuts J k k 1 st ltac:(lia) ltac:(lia) H1 H2 st' E) as (X1 & X2).
  split; [exact S1|]. split; [exact X1|]. split; [|congruence].
  intros i m Hi Hm. apply G. apply H3; auto.
Qed.

(* ---------------------------------------------------------------------- main loop *)

Lemma beyond inner : forall outer k st r st', (u32_mod <= N.of_nat k)%N ->
  prove_loop b R O s inner outer k st = Ok (r, st') -> exists inv, r = Proof inv.
Proof.
  induction outer as [|outer IH]; intros k st r st' Hk H; cbn [prove_loop] in H; [discriminate|].
  destruct (op_ O (o_push_frame O) st) as [st1| |]; cbn [bind] in H; try discriminate.
  destruct (debug_assert b _) as [[]| |]; cbn [bind] in H; try discriminate.
  destruct (o_loop_check O (st_ops st1)) as [[]| |]; cbn [bind] in H; try discriminate.
  destruct (strengthen b R O s inner inner k st1) as [([|] & st2)| |]; cbn [bind] in H; try discriminate.
  - destruct (propagate_clauses R O k st2) as [st3| |]; cbn [bind] in H; try discriminate.
    destruct (find_fixpoint b O (seq 1 k) (st_ops st3)) as [[inv|]| |]; cbn [bind] in H; try discriminate.
    + injection H as <- <-. eauto.
    + eapply IH; [|exact H]. lia.
  - unfold depth_of_frame in H. replace (N.of_nat k <? u32_mod)%N with false in H by (symmetry; apply N.ltb_ge; lia).
    discriminate.
Qed.

Hypothesis Hdeep : (u32_mod + 2 <= top width)%N.

Lemma slow_loop inner : forall outer k0 st r st',
  shape (if Nat.even k0 then k0 else S k0) k0 st (drawn k0) ->
  prove_loop b R O s (S (S inner)) outer (S k0) st = Ok (r, st') -> exists inv, r = Proof inv.
Proof.
  induction outer as [|outer IH]; intros k0 st r st' Hsh H; [discriminate|].
  destruct (N.le_gt_cases u32_mod (N.of_nat (S k0))) as [Hd|Hd]; [eapply beyond; [exact Hd|exact H]|].
  cbn [prove_loop] in H. pose proof Hsh as (H1 & H2 & H3 & H4).
  unfold op_ at 1 in H. destruct (ok_push _ _ _ _ _ HO (st_ops st) (proj1 H1)) as (x & Ex & Hgx & Ecx).
  rewrite Ex in H. cbn [bind] in H.
  destruct (finv_new c false k0 (cl st) (proj2 H1)) as (Hf1 & Efr). rewrite <- Ecx in Hf1, Efr.
  set (st1 := mkIc3State x (st_draws st)) in *.
  assert (Sh1 : shape (if Nat.even k0 then k0 else S k0) (S k0) st1 (drawn k0)).
  { split; [split; auto|]. unfold st1. cbn [st_ops st_draws]. split; [|split; [|exact H4]].
    - intros i e Hin. rewrite Efr in Hin. apply (H2 i e Hin).
    - intros i m Hi Hm. rewrite Efr. apply H3; auto. }
  destruct (debug_assert b _) as [[]| |]; cbn [bind] in H; try discriminate.
  destruct (o_loop_check O (st_ops st1)) as [[]| |]; cbn [bind] in H; try discriminate.
  assert (St : okay (strengthen b R O s (S (S inner)) (S (S inner)) (S k0) st1) (fun r =>
    fst r = Success /\ shape (if Nat.even (S k0) then S k0 else S (S k0)) (S k0) (snd r)
      (drawn k0 + (if Nat.even k0 then 4 else 0)))).
  { rewrite Nat.even_succ, <- Nat.negb_even. destruct (Nat.even k0) eqn:Ev; cbn [negb].
    - apply (strengthen_slow (S k0) st1 (drawn k0) inner inner); auto; [lia|lia|..].
      + replace (S k0 - 1) with k0 by lia. exact Sh1.
      + rewrite need_first. f_equal. lia.
      + rewrite need_second by exact Ev. f_equal. lia.
    - rewrite Nat.add_0_r. apply strengthen_done; auto. lia. }
  destruct St as ((o & st2) & E2 & Eo & Sh2). rewrite E2 in H. cbn [fst snd bind] in *. subst o.
  destruct (propagate_slow _ _ _ _ Sh2) as (st3 & E3 & Sh3). rewrite E3 in H. cbn [bind] in H.
  destruct (find_fixpoint b O (seq 1 (S k0)) (st_ops st3)) as [[inv|]| |]; cbn [bind] in H; try discriminate.
  - injection H as <- <-. eauto.
  - eapply (IH (S k0)); [|exact H]. cbn [drawn].
    replace (drawn k0 + S k0 + (if Nat.even k0 then 4 else 0)) with (drawn k0 + (if Nat.even k0 then 4 else 0) + S k0) by lia.
    exact Sh3.
Qed.

Lemma slow_prove fuel st r st' : good (st_ops st) -> o_clauses O (st_ops st) = [] -> st_draws st = 0 -> 2 <= fuel ->
  ic3_prove b R O s fuel st = Ok (r, st') -> exists inv, r = Proof inv.
Proof.
  intros Hg Hnil Hd Hf H. unfold ic3_prove in H.
  destruct (op_okay O _ st _ (ok_bad_0 _ _ _ _ _ HO (st_ops st) Hg)) as ((r0 & st1) & E0 & (G1 & C1 & H0) & D1).
  rewrite E0 in H. cbn [bind fst snd] in *. destruct r0 as [|asg].
  2:{ exfalso. destruct H0 as (w & X1 & X2 & X3). apply (not_bad_0 w); auto. }
  destruct (op_okay O _ st1 _ (ok_bad_1 _ _ _ _ _ HO (st_ops st1) G1)) as ((r1 & st2) & E1 & (G2 & C2 & H1) & D2).
  rewrite E1 in H. cbn [bind fst snd] in *. destruct r1 as [|asg].
  2:{ exfalso. destruct H1 as (w & w' & X1 & X2 & X3). destruct (bad_edge w w' X1 X3) as (Y & _).
      apply slow_initial in X2. destruct X2 as (_ & Z & _). congruence. }
  unfold op_ at 1 in H. destruct (ok_push _ _ _ _ _ HO (st_ops st2) G2) as (x & Ex & Hgx & Ecx).
  rewrite Ex in H. cbn [bind] in H. unfold op_ at 1 in H. cbn [st_ops] in H.
  destruct (ok_push _ _ _ _ _ HO x Hgx) as (x' & Ex' & Hgx' & Ecx'). rewrite Ex' in H. cbn [bind] in H.
  assert (Ecls : o_clauses O x' = [cnf_new; cnf_new]).
  { rewrite Ecx', Ecx, C2, C1, Hnil. reflexivity. }
  destruct fuel as [|[|fuel]]; [lia|lia|].
  eapply (slow_loop fuel _ 0); [|exact H]. cbn [Nat.even drawn].
  assert (Fr : forall i, fr [cnf_new; cnf_new] i = cnf_new) by (intros [|[|[|i]]]; reflexivity).
  split; [split; [exact Hgx'|cbn [st_ops]; rewrite Ecls; apply (frames_ok_nil c false)]|]. cbn [st_ops st_draws]. rewrite Ecls.
  split; [|split; [|congruence]].
  - intros i e Hin. rewrite Fr in Hin. destruct Hin.
  - intros i m Hi Hm. lia.
Qed.

End Run.
