(** With the random choices of LongOrder.v, PDR adds a frame for every number the circuit counts to. *)
From Coq Require Import Permutation Sorted.
From Verif Require Import Base Formulas FormulaLogic Aig Fsts Solvers Ic3 Pdr Brute Spec SpecAig SpecFsts SpecAlg Tac
  FormulasFacts LogicFacts AigFacts SimFacts AigThms FstsFacts FstsSem TagFacts FstsThms BmcThms StateFacts Ic3Core
  QueryFacts Ic3Thms PdrCore PdrQuery PdrSteps PdrThms CounterGen SlowGen SlowOrder SlowRun LongGen LongOrder.
Open Scope nat_scope.

Section Run.
Variables (n : nat) (s : FSTS) (b : build).
Notation c := (long (S n)).
Notation R := (long_random n).
Notation J := (b = Debug \/ bad_latches_read c false).
Hypothesis Hsys : system_of b c false s.
Hypothesis Hf : numbering_fits c false.
Hypothesis Hwf : circuit_wf c.
Hypothesis Hn : numbered c false.
Hypothesis He : encodes c false s.
Variable SS : StatefulSolver.
Hypothesis HS : stateful_correct SS.
Notation St := (PdrState SS).
Notation pinv := (pinv c false J s SS).
Notation finv := (PdrCore.finv c false J).
Notation steps := (Ic3Core.steps c).
Notation rk := (PdrCore.rk c).
Notation count := (count_of (S n)).
Notation tp := (top (S n)).

Lemma HJ : J.
Proof. right. apply long_read. Qed.

Notation sg := (on (N.of_nat n + 1)).

Lemma on_true w i : lit_true w (on i) <-> w (i + 1)%N = true.
Proof. rewrite lit_true_value. unfold on. rewrite lit_value_even. tauto. Qed.

Lemma sg_true w : lit_true w sg <-> w (N.of_nat (S n) + 1)%N = true.
Proof. rewrite on_true. replace (N.of_nat n + 1 + 1)%N with (N.of_nat (S n) + 1)%N by lia. tauto. Qed.

(** The cube "all bits of [m] are set". *)
Definition lcut (m : nat) : Cube := cube_new (long_ones n (N.of_nat m)).

Lemma small_top m : (m < 2 ^ N.of_nat n)%N -> (m <= tp)%N.
Proof. intros H. unfold top. replace (N.of_nat (S n)) with (N.of_nat n + 1)%N by lia. rewrite N.pow_add_r. change (2 ^ 1)%N with 2%N. lia. Qed.

Lemma tp_bit i : (i < N.of_nat (S n))%N -> N.testbit tp i = true.
Proof.
  intros H. unfold top. pose proof (pow_pos (N.of_nat (S n))).
  replace (2 ^ N.of_nat (S n) - 1)%N with (N.ones (N.of_nat (S n))) by (rewrite N.ones_equiv; lia).
  apply N.ones_spec_low. exact H.
Qed.

Lemma within_tp m : (m < 2 ^ N.of_nat n)%N -> within m tp.
Proof. intros H i Hi. apply tp_bit. pose proof (testbit_small m (N.of_nat n) i H Hi). lia. Qed.

Lemma lones_true w m : (m < 2 ^ N.of_nat n)%N ->
  cube_true w (cube_new (long_ones n m)) <-> within m (count w).
Proof.
  intros Hm. rewrite cube_new_true. split.
  - intros H i Hi. assert (L : (i < N.of_nat n)%N) by (apply (testbit_small m (N.of_nat n) i); auto).
    rewrite count_bits by lia. apply on_true. apply H. apply long_in_ones. eauto.
  - intros H l Hl. apply long_in_ones in Hl. destruct Hl as (i & Hi & Hb & ->). apply on_true.
    rewrite <- (count_bits (S n)) by lia. apply H. exact Hb.
Qed.

(* ------------------------------------------------------------- states of the frames *)

Lemma counted_frame D f : finv D f -> forall t, (N.of_nat t <= tp)%N -> rk f t (long_state (S n) (N.of_nat t) false).
Proof.
  intros H. induction t as [|t IH]; intros Ht.
  - apply (rk_init c false J D); auto; [exact HJ|]. apply long_initial. rewrite long_state_count, long_state_full by lia. auto.
  - pose proof (long_succ (S n) (N.of_nat t) false ltac:(lia)) as S1.
    destruct (N.eqb_spec (N.of_nat t) tp); [lia|]. replace (N.of_nat t + 1)%N with (N.of_nat (S t)) in S1 by lia.
    apply rk_rf; [lia|]. apply (rf_step c false J D f t (long_state (S n) (N.of_nat t) false)); auto; [apply IH; lia|].
    split; [apply long_state_wires|exact S1].
Qed.

(** Frame [i] leaves out the states that have all bits of [i + 1]. *)
Definition ltrimmed (f : list (list Cube)) (i : nat) : Prop := i = 0 \/ In (lcut (i + 1)) (nth i f []).

Lemma ltrimmed_not f i w : ltrimmed f i -> (N.of_nat (i + 1) < 2 ^ N.of_nat n)%N -> rk f i w ->
  ~ within (N.of_nat (i + 1)) (count w).
Proof.
  intros [->|H] Hi (H1 & H2) X.
  - specialize (H2 eq_refl). apply long_initial in H2. destruct H2 as (E & _). rewrite E in X. apply within_le in X. lia.
  - apply (H1 i _ (le_n _) H). apply lones_true; auto.
Qed.

Lemma ltrimmed_top f i w : ltrimmed f i -> (N.of_nat (i + 1) < 2 ^ N.of_nat n)%N -> rk f i w -> count w <> tp.
Proof.
  intros H1 H2 H3 E. apply (ltrimmed_not f i w); auto. rewrite E. apply within_tp. exact H2.
Qed.

(* ------------------------------------------------------------------ inductive cubes *)

Notation rel := (rel_ind c J).

Lemma lrel_signal f D lits : 1 <= D -> ltrimmed f (D - 1) -> (N.of_nat D < 2 ^ N.of_nat n)%N -> In sg lits ->
  rel f D (cube_new lits).
Proof.
  intros HD Ht Hi Hl. split.
  - intros _ w Hw Hc. rewrite cube_new_true in Hc. specialize (Hc _ Hl). apply sg_true in Hc.
    apply long_initial in Hw. destruct Hw as (_ & E). congruence.
  - intros w w' (Hw & Hs) Hin _ Hc. rewrite cube_new_true in Hc. specialize (Hc _ Hl). apply sg_true in Hc.
    rewrite (long_full (S n) w w' Hw Hs) in Hc. apply N.eqb_eq in Hc. apply (ltrimmed_top f (D - 1) w); auto.
    replace (D - 1 + 1) with D by lia. exact Hi.
Qed.

Lemma perm_true w l1 l2 : Permutation l1 l2 -> cube_true w (cube_new l1) <-> cube_true w (cube_new l2).
Proof.
  intros P. rewrite !cube_new_true. split; intros H l Hl; apply H.
  - apply (Permutation_in l (Permutation_sym P)). exact Hl.
  - apply (Permutation_in l P). exact Hl.
Qed.

Lemma lrel_ones f D lits : 1 <= D -> ltrimmed f (D - 1) -> (N.of_nat (D + 1) < 2 ^ N.of_nat n)%N ->
  Permutation lits (long_ones n (N.of_nat (D + 1))) -> rel f D (cube_new lits).
Proof.
  intros HD Ht Hi P. split.
  - intros _ w Hw Hc. rewrite (perm_true w _ _ P) in Hc. apply lones_true in Hc; auto.
    apply long_initial in Hw. destruct Hw as (E & _). rewrite E in Hc. apply within_le in Hc. lia.
  - intros w w' (Hw & Hs) Hin Hc Hc'. rewrite (perm_true w _ _ P), lones_true in Hc by auto. rewrite (perm_true w' _ _ P), lones_true in Hc' by auto.
    rewrite (long_counts (S n) w w' Hw Hs) in Hc'. destruct (N.eqb_spec (count w) tp) as [E|E].
    + elim Hc. rewrite E. exact Hc'.
    + apply within_succ in Hc'; [|lia]. destruct Hc' as [X|X]; auto.
      apply (ltrimmed_not f (D - 1) w); auto; replace (D - 1 + 1) with D by lia; [lia|].
      replace (N.of_nat D) with (N.of_nat (D + 1) - 1)%N by lia. exact X.
Qed.

Lemma lrel_less f D x lits : finv D f -> 1 <= D -> (N.of_nat (D + 1) < 2 ^ N.of_nat n)%N ->
  Permutation (x :: lits) (long_ones n (N.of_nat (D + 1))) -> ~ rel f D (cube_new lits).
Proof.
  intros Hfi HD Hi P (H1 & H2). set (m := N.of_nat (D + 1)) in *. pose proof (small_top m Hi) as Htop.
  assert (Hx : In x (long_ones n m)) by (apply (Permutation_in x P); left; auto).
  apply long_in_ones in Hx. destruct Hx as (t & Ht & Hb & ->).
  pose proof (clear_bit m t Hb) as (L & Eb). set (y := N.clearbit m t) in *.
  assert (Hl : forall l, In l lits <-> exists j, (j < N.of_nat n)%N /\ N.testbit y j = true /\ l = on j).
  { assert (ND : NoDup (on t :: lits)) by (apply (Permutation_NoDup (Permutation_sym P)), long_ones_nodup).
    inversion ND as [|? ? Hnin _]. subst. intros l. split.
    - intros Hl. assert (Hl' : In l (long_ones n m)) by (apply (Permutation_in l P); right; auto).
      apply long_in_ones in Hl'. destruct Hl' as (j & Hj & Hjb & ->). exists j. split; auto. split; auto.
      rewrite Eb; auto. intros ->. auto.
    - intros (j & Hj & Hjb & ->).
      assert (Hjt : j <> t) by (intros ->; unfold y in Hjb; rewrite N.clearbit_eq in Hjb; discriminate).
      assert (X : In (on j) (on t :: lits)).
      { apply (Permutation_in _ (Permutation_sym P)), long_in_ones. exists j. split; auto. split; auto. rewrite <- Eb; auto. }
      destruct X as [X|X]; auto. unfold on in X. lia. }
  assert (Hy : forall w, cube_true w (cube_new lits) <-> within y (count w)).
  { intros w. rewrite cube_new_true. split.
    - intros H j Hj. assert (Lj : (j < N.of_nat n)%N) by (apply (testbit_small y (N.of_nat n) j); auto; lia).
      rewrite count_bits by lia. apply on_true, H, Hl. eauto.
    - intros H l Hin. apply Hl in Hin. destruct Hin as (j & Hj & Hjb & ->). apply on_true.
      rewrite <- (count_bits (S n)) by lia. auto. }
  destruct (N.eq_dec y 0) as [E|E].
  - apply (H1 HJ (long_state (S n) 0 false)).
    + apply long_initial. rewrite long_state_count, long_state_full by lia. auto.
    + apply Hy. rewrite E. intros j Hj. rewrite N.bits_0 in Hj. discriminate.
  - pose proof (long_succ (S n) (y - 1)%N false ltac:(lia)) as S1.
    destruct (N.eqb_spec (y - 1) tp); [lia|]. replace (y - 1 + 1)%N with y in S1 by lia.
    apply (H2 (long_state (S n) (y - 1) false) (long_state (S n) y false)).
    + split; [apply long_state_wires|exact S1].
    + apply (rk_mono c f (N.to_nat (y - 1)) (D - 1)); [lia|].
      pose proof (counted_frame D f Hfi (N.to_nat (y - 1)) ltac:(lia)) as X. rewrite N2Nat.id in X. exact X.
    + rewrite Hy, long_state_count by lia. intros X. apply within_le in X. lia.
    + rewrite Hy, long_state_count by lia. apply within_refl.
Qed.

(* -------------------------------------------------------------------- the bad state *)

Lemma all_on_sorted : sortedN (all_on n).
Proof.
  unfold all_on, bits, sortedN. rewrite map_map.
  assert (X : forall n k r, StronglySorted (fun x y => (x <=? y)%N = true) r ->
    Forall (fun y => (2 * N.of_nat (n + k) + 1 <= y)%N) r ->
    StronglySorted (fun x y => (x <=? y)%N = true) (map (fun x => on (N.of_nat x)) (seq k n) ++ r)).
  { induction n0 as [|m IH]; intros k r H1 H2; cbn [seq map app]; auto. constructor.
    - apply IH; auto. replace (m + S k) with (S m + k) by lia. exact H2.
    - apply Forall_app. split.
      + apply Forall_forall. intros y Hy. apply in_map_iff in Hy. destruct Hy as (j & <- & Hj). apply in_seq in Hj.
        unfold on. lia.
      + eapply Forall_impl; [|exact H2]. cbv beta. intros y Hy. unfold on. lia. }
  apply X.
  - repeat constructor. unfold on. lia.
  - repeat constructor; unfold on; lia.
Qed.

Lemma in_all_on l : In l (all_on n) <-> exists v, is_latch c v /\ l = (2 * v)%N.
Proof.
  unfold all_on. rewrite in_app_iff, in_map_iff. split.
  - intros [(i & <- & Hi)|[<-|[<-|[]]]].
    + apply bits_in in Hi. exists (i + 1)%N. split; [apply long_is_latch; lia|reflexivity].
    + exists (N.of_nat n + 1)%N. split; [apply long_is_latch; lia|reflexivity].
    + exists (N.of_nat n + 1 + 1)%N. split; [apply long_is_latch; lia|reflexivity].
  - intros (v & Hv & ->). apply long_is_latch in Hv. destruct (N.lt_ge_cases v (N.of_nat n + 1)).
    + left. exists (v - 1)%N. split; [unfold on; lia|]. unfold bits. apply in_map_iff. exists (N.to_nat (v - 1)).
      split; [lia|]. apply in_seq. lia.
    + right. destruct (N.eq_dec v (N.of_nat n + 1)) as [->|]; [left; reflexivity|]. right. left. unfold on. lia.
Qed.

Lemma all_on_nodup : NoDup (all_on n).
Proof.
  unfold all_on. replace (map on (bits n) ++ [on (N.of_nat n); on (N.of_nat n + 1)]) with (map on (bits (S (S n)))).
  - apply FinFun.Injective_map_NoDup; [intros x y E; unfold on in E; lia|].
    unfold bits. apply FinFun.Injective_map_NoDup; [intros x y E; lia|]. apply seq_NoDup.
  - unfold bits. rewrite !seq_S, !map_app. cbn [map Nat.add]. rewrite <- app_assoc. cbn [app].
    replace (N.of_nat (S n)) with (N.of_nat n + 1)%N by lia. reflexivity.
Qed.

Lemma all_on_true w : (forall l, In l (all_on n) -> lit_true w l) <-> bad_state c false w.
Proof.
  split.
  - intros H. exists (long_state (S n) (count w) (w (N.of_nat (S n) + 1)%N)).
    split; [apply long_state_wires|].
    assert (V : forall v, is_latch c v -> w v = true).
    { intros v Hv. assert (X : lit_true w (2 * v)%N) by (apply H, in_all_on; eauto).
      rewrite lit_true_value, lit_value_even in X. exact X. }
    pose proof (count_le_top (S n) w) as Hc. split.
    + apply long_same. rewrite long_state_count, long_state_full by exact Hc. auto.
    + apply long_bad; [apply long_state_wires|]. rewrite long_state_count, long_state_full by exact Hc.
      split; [apply V, long_is_latch; lia|]. apply bits_value; [|unfold top; pose proof (pow_pos (N.of_nat (S n))); lia].
      intros i Hi. rewrite V by (apply long_is_latch; lia). symmetry. apply tp_bit. lia.
  - intros (u & Hw & Hs & Hb) l Hl. apply in_all_on in Hl. destruct Hl as (v & Hv & ->).
    rewrite lit_true_value, lit_value_even. rewrite <- (Hs v Hv). apply long_bad in Hb; auto. destruct Hb as (B1 & B2).
    apply long_is_latch in Hv. destruct (N.eq_dec v (N.of_nat (S n) + 1)) as [->|]; auto.
    replace v with (v - 1 + 1)%N by lia. rewrite <- (count_bits (S n)), B2 by lia. apply tp_bit. lia.
Qed.

Lemma get_bad_draws st z st' : z_get_bad_cube b SS s st = Ok (z, st') ->
  pdr_draws st' = pdr_draws st /\
  match z with None => True | Some z => NoDup (cube_lits z) /\ sortedN (cube_lits z) end.
Proof.
  unfold z_get_bad_cube. destruct (pdr_depth SS st) as [d| |]; cbn [bind]; try discriminate.
  destruct (indexn (pdr_notp st) d) as [x| |]; cbn [bind]; try discriminate.
  destruct (ss_solve SS x None None) as [([|asg] & x')| |]; cbn [bind]; try discriminate.
  { intros E. injection E as <- <-. auto. }
  assert (ND : forall w, NoDup (cube_lits (state_of c w))).
  { intros w. unfold state_of, cube_new. cbn [cube_lits]. apply (Permutation_NoDup (Permutation_sym (sort_perm _ _))).
    apply FinFun.Injective_map_NoDup; [intros p q; destruct (w p), (w q); lia|]. unfold numbers.
    apply FinFun.Injective_map_NoDup; [intros p q; lia|]. apply seq_NoDup. }
  destruct (extract_cases c false s b Hn He asg (complete asg)) as [Ee|(v & _ & Ee & _)];
    [intros v _ y; apply complete_agrees| |]; rewrite Ee; cbn [bind]; try discriminate.
  destruct (pdr_cut_bad _).
  - destruct (debug_assert b _) as [[]| |]; cbn [bind]; try discriminate. intros E. injection E as <- <-. split; auto.
    unfold intersect_cube_with_cone_of_safety, cube_new. cbn [cube_lits]. split; [|apply sortN_sorted].
    apply (Permutation_NoDup (Permutation_sym (sort_perm _ _))). apply NoDup_filter. apply ND.
  - intros E. injection E as <- <-. split; auto. split; [apply ND|]. unfold state_of, cube_new. cbn [cube_lits]. apply sortN_sorted.
Qed.

Lemma even_lit l : lit_neg l = false -> l = (2 * lit_var l)%N.
Proof.
  intros H. unfold lit_neg, lit_var in *. pose proof (N.div2_odd l) as E. rewrite H in E. rewrite <- N.div2_div. cbn [N.b2n] in E. lia.
Qed.

Lemma bad_cube z u : state_like c z -> cube_true u z -> (forall w, cube_true w z -> bad_state c false w) ->
  NoDup (cube_lits z) -> sortedN (cube_lits z) -> cube_lits z = all_on n.
Proof.
  intros (A & V) Hu Hb ND Hsort. rewrite <- (sortN_idem _ Hsort), <- (sortN_idem _ all_on_sorted). apply sortN_eq_iff.
  assert (U : forall l, In l (all_on n) -> lit_true u l) by (apply all_on_true; auto).
  apply NoDup_Permutation; [exact ND|apply all_on_nodup|]. intros l. split.
  - intros Hl. pose proof (V l Hl) as Hv. apply in_all_on. exists (lit_var l). split; [exact Hv|].
    pose proof (Hu l Hl) as T. assert (T2 : lit_true u (2 * lit_var l)%N) by (apply U, in_all_on; eauto).
    rewrite lit_true_value in T, T2. rewrite lit_value_even in T2. unfold lit_value in T. rewrite T2 in T.
    destruct (lit_neg l) eqn:En; [discriminate|]. apply even_lit. exact En.
  - intros Hl. destruct (in_dec N.eq_dec l (cube_lits z)) as [|Hni]; auto. exfalso.
    apply in_all_on in Hl. destruct Hl as (v & Hv & ->).
    set (w := fun x => if (x =? v)%N then false else u x).
    assert (Tw : cube_true w z).
    { intros l Hl. pose proof (Hu l Hl) as T. rewrite lit_true_value in *. unfold lit_value, w in *.
      destruct (N.eqb_spec (lit_var l) v) as [E|E]; auto.
      assert (T2 : lit_true u (2 * v)%N) by (apply U, in_all_on; eauto).
      rewrite lit_true_value, lit_value_even in T2. rewrite E, T2 in T. destruct (lit_neg l) eqn:En; [discriminate|].
      elim Hni. rewrite <- E, <- even_lit by exact En. exact Hl. }
    apply Hb in Tw. apply all_on_true with (l := (2 * v)%N) in Tw; [|apply in_all_on; eauto].
    rewrite lit_true_value, lit_value_even in Tw. unfold w in Tw. rewrite N.eqb_refl in Tw. discriminate.
Qed.

(* ------------------------------------------------------------------ generalisation *)

(** The same frames, the same number of drawn permutations. *)
Definition same_frames (D : nat) (st st' : St) : Prop :=
  pinv D st' /\ pdr_f st' = pdr_f st /\ pdr_draws st' = pdr_draws st.

Lemma same_frames_trans D st st' st'' : same_frames D st st' -> same_frames D st' st'' -> same_frames D st st''.
Proof. intros (H1 & H2 & H3) (G1 & G2 & G3). split; auto. split; congruence. Qed.

Lemma on_like lits : incl lits (all_on n) -> state_like c (cube_new lits).
Proof.
  intros H. split; [apply cube_new_api|]. intros l Hl. rewrite in_cube_new in Hl. apply H, in_all_on in Hl.
  destruct Hl as (v & Hv & ->). replace (lit_var (2 * v)) with v by (unfold lit_var; lia). exact Hv.
Qed.

Lemma on_consistent lits : incl lits (all_on n) -> consistent (cube_new lits).
Proof.
  intros H. exists (fun _ => true). apply cube_new_true. intros l Hl. apply H, in_all_on in Hl.
  destruct Hl as (v & _ & ->). rewrite lit_true_value, lit_value_even. reflexivity.
Qed.

Lemma not_initial q : consistent q -> (is_cube_initial s q = false <-> forall w, initial_values c w -> ~ cube_true w q).
Proof.
  intros Hc. pose proof (cube_initial_correct b c false s q Hsys Hc) as X. destruct (is_cube_initial s q).
  - split; [discriminate|]. intros H. destruct (proj1 X eq_refl) as (w & H1 & H2). elim (H w H1 H2).
  - split; [|reflexivity]. intros _ w H1 H2. assert (E : false = true) by (apply X; eauto). discriminate.
Qed.

Lemma drop_ok D lits st : pinv D st -> 1 <= D -> incl lits (all_on n) ->
  okay (if is_cube_initial s (cube_new lits) then Ok (false, st)
        else '(check, st) <- z_solve_relative b SS s (mkTCube (cube_new lits) (FOk D)) DoNotExtractModel st ;;
             Ok (is_solve_relative_un_sat check, st))
    (fun r => same_frames D st (snd r) /\ (fst r = true <-> rel (pdr_f st) D (cube_new lits))).
Proof.
  intros Hp HD Hl. pose proof (not_initial _ (on_consistent lits Hl)) as Hi.
  destruct (is_cube_initial s (cube_new lits)).
  - eexists. split; [reflexivity|]. cbn [fst snd]. split; [split; auto|]. split; [discriminate|]. intros (H & _).
    assert (E : true = false) by (apply Hi; apply H, HJ). discriminate.
  - destruct (solve_relative_ok c false J s b Hsys Hf Hwf Hn He SS HS D st (cube_new lits) D DoNotExtractModel Hp
      (on_like lits Hl) ltac:(lia)) as ((t & st1) & Et & Hp1 & Ef & Ed & Hcase). cbn [fst snd] in *.
    rewrite Et. cbn [bind]. eexists. split; [reflexivity|]. cbn [fst snd]. split; [split; auto|].
    destruct Hcase as [(-> & Hind)|(Hnull & w & w' & Hst & Hw & Hq & Hq' & _)].
    + split; [intros _|reflexivity]. split; [intros _; apply Hi; reflexivity|]. intros w w' Hst Hw Hq. apply (Hind w w' Hst Hw). auto.
    + unfold is_solve_relative_un_sat. rewrite Hnull. cbn [frame_eqb negb]. split; [discriminate|].
      intros (_ & H). elim (H w w' Hst Hw); auto.
Qed.

Lemma keep_ones D : 1 <= D -> (N.of_nat (D + 1) < 2 ^ N.of_nat n)%N -> forall fuel (lits : list Literal) j st,
  length lits - j <= fuel -> pinv D st -> incl lits (all_on n) -> Permutation lits (long_ones n (N.of_nat (D + 1))) ->
  okay (pdr_generalize_loop b SS s fuel (FOk D) lits j st) (fun r =>
    same_frames D st (snd r) /\ Permutation (fst r) (long_ones n (N.of_nat (D + 1)))).
Proof.
  intros HD Htop. induction fuel as [|fuel IH]; intros lits j st Hfu Hp Hl P; cbn [pdr_generalize_loop];
    destruct (j <? length lits) eqn:E.
  1: { apply Nat.ltb_lt in E. lia. }
  1,3: eexists; split; [reflexivity|]; split; [split; auto|exact P].
  apply Nat.ltb_lt in E. destruct (swap_remove_ok lits j E) as (x & r & Es & P1). rewrite Es. cbn [bind t_cube].
  pose proof (Permutation_length P1) as PL. cbn [length] in PL.
  assert (Hr : incl r (all_on n)) by (intros l Hin; apply Hl; apply (Permutation_in l (Permutation_sym P1)); right; exact Hin).
  eapply okay_bind; [apply (drop_ok D r st Hp HD Hr)|].
  intros (ind & st') (U & Hind). cbn [fst snd] in *. destruct ind.
  { exfalso. apply (lrel_less (pdr_f st) D x r); auto; [apply Hp| |apply Hind; auto]. rewrite <- P1. exact P. }
  destruct (swap_last_ok (r ++ [x]) j) as (r' & Er & P').
  { rewrite app_length. cbn [length]. lia. }
  rewrite Er. cbn [bind].
  assert (PP : Permutation lits r') by (rewrite P1, Permutation_cons_append; auto).
  pose proof (Permutation_length PP).
  eapply okay_impl; [apply (IH r' (S j) st')|].
  - lia.
  - apply U.
  - intros l Hin. apply Hl, (Permutation_in l (Permutation_sym PP)), Hin.
  - rewrite <- PP. exact P.
  - intros (ls & st'') (G1 & G2). cbn [fst snd] in *. split; auto. eapply same_frames_trans; eauto.
Qed.

Lemma drop_zeros D : 1 <= D -> (N.of_nat (D + 1) < 2 ^ N.of_nat n)%N -> forall drops d st fuel,
  length (d :: long_ones n (N.of_nat (D + 1)) ++ sg :: drops) <= fuel -> pinv D st -> ltrimmed (pdr_f st) (D - 1) ->
  incl (d :: long_ones n (N.of_nat (D + 1)) ++ sg :: drops) (all_on n) ->
  okay (pdr_generalize_loop b SS s fuel (FOk D) (d :: long_ones n (N.of_nat (D + 1)) ++ sg :: drops) 0 st) (fun r =>
    same_frames D st (snd r) /\ Permutation (fst r) (long_ones n (N.of_nat (D + 1)))).
Proof.
  intros HD Htop. set (os := long_ones n (N.of_nat (D + 1))) in *. set (sig := sg).
  assert (Drop : forall x y t st fuel Q, pinv D st -> incl (x :: t ++ [y]) (all_on n) ->
    rel (pdr_f st) D (cube_new (y :: t)) ->
    (forall st', same_frames D st st' -> okay (pdr_generalize_loop b SS s fuel (FOk D) (y :: t) 0 st') Q) ->
    okay (pdr_generalize_loop b SS s (S fuel) (FOk D) (x :: t ++ [y]) 0 st) Q).
  { intros x y t st fuel Q Hp Hl Hrel Hnext. cbn [pdr_generalize_loop length Nat.ltb Nat.leb].
    rewrite swap_remove_first. cbn [bind t_cube]. eapply okay_bind.
    - apply (drop_ok D (y :: t) st Hp HD). intros l Hin. apply Hl. right. apply in_app_iff. simpl in *. tauto.
    - intros (ind & st') (U & Hind). cbn [fst snd] in *. destruct ind; [apply Hnext; exact U|].
      apply Hind in Hrel. discriminate. }
  induction drops as [|z drops IH] using rev_ind; intros d st fuel Hfu Hp Ht Hl.
  - destruct fuel as [|fuel]; [cbn [length] in Hfu; lia|].
    apply Drop; auto.
    { apply lrel_signal; auto; [lia|]. left. reflexivity. }
    intros st1 (Hp1 & E1 & D1).
    assert (Hon : os <> []).
    { destruct (has_bit (N.of_nat (D + 1)) ltac:(lia)) as (t & Hb). intros E.
      assert (X : In (on t) os); [|rewrite E in X; exact X]. apply long_in_ones. exists t. split; auto.
      apply (testbit_small (N.of_nat (D + 1)) (N.of_nat n) t); auto. }
    destruct (exists_last Hon) as (on' & y & Eon).
    destruct fuel as [|fuel]; [rewrite Eon in Hfu; cbn [length] in Hfu; rewrite !app_length in Hfu; cbn [length] in Hfu; lia|].
    assert (Py : Permutation (y :: on') os) by (rewrite Eon; apply Permutation_cons_append).
    rewrite Eon. apply Drop; auto.
    + intros l Hin. apply Hl. right. apply in_app_iff.
      destruct Hin as [<-|Hin]; [right; left; reflexivity|left; rewrite Eon; exact Hin].
    + apply lrel_ones; auto. rewrite E1. exact Ht.
    + intros st2 U2. eapply okay_impl; [apply (keep_ones D HD Htop fuel (y :: on') 0 st2)|].
      * pose proof (Permutation_length Py) as PL. rewrite Nat.sub_0_r. cbn [length] in Hfu, PL |- *.
        rewrite app_length in Hfu. cbn [length] in Hfu. unfold Literal in *. lia.
      * apply U2.
      * intros l Hin. apply Hl. right. apply in_app_iff. left. apply (Permutation_in l Py). exact Hin.
      * exact Py.
      * intros (ls & st3) (G1 & G2). cbn [fst snd] in *. split; [|rewrite <- Eon; exact G2].
        apply (same_frames_trans D st st1 st3); [split; auto|]. apply (same_frames_trans D st1 st2 st3); auto.
  - destruct fuel as [|fuel]; [cbn [length] in Hfu; lia|].
    replace (os ++ sig :: drops ++ [z]) with ((os ++ sig :: drops) ++ [z]) in * by (rewrite <- app_assoc; reflexivity).
    apply Drop; auto.
    { apply lrel_signal; auto; [lia|]. right. apply in_app_iff. right. left. reflexivity. }
    intros st1 (Hp1 & E1 & D1). eapply okay_impl; [apply (IH z st1 fuel); auto|].
    + cbn [length] in Hfu |- *. rewrite app_length in Hfu. cbn [length] in Hfu. lia.
    + rewrite E1. exact Ht.
    + intros l Hin. apply Hl. right. apply in_app_iff. simpl in *. tauto.
    + intros (ls & st2) (G1 & G2). cbn [fst snd] in *. split; auto. eapply same_frames_trans; eauto. split; auto.
Qed.

Lemma generalize_long D z st : 1 <= D -> (N.of_nat (D + 1) < 2 ^ N.of_nat n)%N -> pinv D st -> ltrimmed (pdr_f st) (D - 1) ->
  cube_lits z = all_on n -> long_need (pdr_draws st) = N.of_nat (D + 1) ->
  okay (pdr_generalize b R SS s (mkTCube z (FOk D)) st) (fun r =>
    fst r = mkTCube (lcut (D + 1)) (FOk D) /\ pinv D (snd r) /\ pdr_f (snd r) = pdr_f st /\
    pdr_draws (snd r) = S (pdr_draws st)).
Proof.
  intros HD Htop Hp Ht Ez Hneed. unfold pdr_generalize. cbn [t_cube t_frame]. unfold cube_iter. rewrite Ez.
  unfold long_random at 1 2. rewrite Hneed, long_arrange_all.
  eapply okay_bind.
  { apply (drop_zeros D HD Htop); auto.
    - apply pinv_draws. exact Hp.
    - intros l Hl. rewrite <- long_arrange_all in Hl. apply (Permutation_in l (long_arrange_perm _ _ _)) in Hl. exact Hl. }
  intros (ls & st') ((G1 & G2 & G3) & G4). cbn [fst snd] in *. eexists. split; [reflexivity|].
  cbn [fst snd]. split; [|auto]. f_equal. unfold lcut, cube_new. f_equal. apply sortN_eq_iff. exact G4.
Qed.

(* ------------------------------------------------------------------------ blocking *)

(** Frame [j] of [1 .. k] holds the one cube of [j + 1]. *)
Definition stairs (k : nat) (f : list (list Cube)) : Prop :=
  forall j x, In x (nth j f []) <-> 1 <= j <= k /\ x = lcut (j + 1).

Lemma stairs_trimmed k f i : stairs k f -> i <= k -> ltrimmed f i.
Proof. intros H Hi. destruct i as [|i]; [left; reflexivity|right]. apply H. split; [lia|reflexivity]. Qed.

Lemma is_blocked_draws t st r st' : is_blocked SS t st = Ok (r, st') -> pdr_draws st' = pdr_draws st.
Proof.
  unfold is_blocked, z_is_blocked. destruct (t_frame t) as [| |i]; try discriminate.
  destruct (existsb _ _); [intros E; injection E as _ <-; reflexivity|].
  destruct (indexn (pdr_ri st) i) as [x| |]; cbn [bind]; try discriminate.
  destruct (ss_solve SS x None None) as [(a & x')| |]; cbn [bind]; try discriminate.
  intros E. injection E as _ <-. reflexivity.
Qed.

Lemma pop_tcube k (e : TCube * nat) : queue_pop (R k) [e] = Some (e, []).
Proof.
  destruct (queue_pop_spec (R k) [e]) as (x & r & E & P & _); [intros B l; apply long_random_ok|discriminate|].
  rewrite E. apply Permutation_length_1_inv in P. injection P as -> ->. reflexivity.
Qed.

Lemma lcut_subsumes k j : (N.of_nat k < 2 ^ N.of_nat n)%N -> subsumes (lcut k) (lcut j) = true -> k <= j.
Proof.
  intros Hk H. assert (X : within (N.of_nat k) (N.of_nat j)); [|apply within_le in X; lia].
  intros i Hi. rewrite subsumes_spec in H. specialize (H (on i)). unfold lcut in H. rewrite !in_cube_new in H.
  assert (L : (i < N.of_nat n)%N) by (apply (testbit_small (N.of_nat k) (N.of_nat n) i); auto).
  assert (Y : In (on i) (long_ones n (N.of_nat j))) by (apply H, long_in_ones; eauto).
  apply long_in_ones in Y. destruct Y as (i' & _ & Hb & E). replace i with i' by (unfold on in E; lia). exact Hb.
Qed.

Lemma block_long D z st inner u : 1 <= D -> (N.of_nat (D + 1) < 2 ^ N.of_nat n)%N -> pinv D st -> stairs (D - 1) (pdr_f st) ->
  cube_lits z = all_on n -> rk (pdr_f st) D u -> cube_true u z -> pdr_draws st = 2 * (D - 1) ->
  okay (rec_block_cube b R SS s (S inner) (mkTCube z (FOk D)) st) (fun r =>
    fst r = true /\ pinv D (snd r) /\ stairs D (pdr_f (snd r)) /\ pdr_draws (snd r) = 2 * D).
Proof.
  intros HD Htop Hp Hst Ez Hu Hz Hdr. unfold rec_block_cube. cbn [t_frame]. unfold queue_push. cbn [existsb app].
  cbn [rec_block_loop]. rewrite pop_tcube. cbn [unwrap bind t_frame t_cube].
  assert (Hbad : forall w, cube_true w z -> bad_state c false w).
  { intros w Hw. apply all_on_true. rewrite <- Ez. exact Hw. }
  assert (Hlike : state_like c z).
  { pose proof (on_like (all_on n) (incl_refl _)) as (A & V). split.
    - apply api_cube_sorted. rewrite Ez. apply all_on_sorted.
    - intros l Hl. apply V. rewrite in_cube_new, <- Ez. exact Hl. }
  assert (Htr : ltrimmed (pdr_f st) (D - 1)) by (apply (stairs_trimmed (D - 1)); auto).
  assert (HtD : (N.of_nat (D - 1 + 1) < 2 ^ N.of_nat n)%N) by (replace (D - 1 + 1) with D by lia; lia).
  assert (Hsig : forall w, cube_true w z -> w (N.of_nat (S n) + 1)%N = true).
  { intros w Hw. apply sg_true. apply Hw. rewrite Ez. apply in_all_on. exists (N.of_nat n + 1 + 1)%N.
    split; [apply long_is_latch; lia|reflexivity]. }
  destruct D as [|D']; [lia|]. set (D := S D') in *.
  set (st0 := with_draws SS st (S (pdr_draws st))).
  assert (Hp0 : pinv D st0) by (apply pinv_draws; exact Hp).
  destruct (is_blocked_ok c false J s He SS HS D st0 z D Hp0 ltac:(lia)) as ((bl & st1) & E1 & Hp1 & Ef1 & Hbl).
  pose proof (is_blocked_draws _ _ _ _ E1) as Ed1. cbn [fst snd] in *. rewrite E1. cbn [bind].
  destruct bl.
  { exfalso. apply (Hbl eq_refl u); [apply Hu|exact Hz]. }
  assert (Hni : is_cube_initial s z = false).
  { apply not_initial; [exists u; exact Hz|]. intros w Hw Hc. apply long_initial in Hw. rewrite (Hsig w Hc) in Hw. destruct Hw; discriminate. }
  rewrite Hni. replace (debug_assert b (negb false)) with (Ok tt) by (destruct b; reflexivity). cbn [bind].
  destruct (solve_relative_ok c false J s b Hsys Hf Hwf Hn He SS HS D st1 z D ExtractModel Hp1 Hlike ltac:(lia))
    as ((t & st2) & E2 & Hp2 & Ef2 & Ed2 & Hcase). cbn [fst snd] in *. rewrite E2. cbn [bind].
  destruct Hcase as [(-> & _)|(_ & w & w' & (Hw & Hstep) & Hin & _ & Hc & _)].
  2:{ exfalso. apply Hsig in Hc. rewrite (long_full (S n) w w' Hw Hstep) in Hc. apply N.eqb_eq in Hc.
      rewrite Ef1 in Hin. apply (ltrimmed_top (pdr_f st) (D - 1) w); auto. }
  cbn [is_solve_relative_un_sat t_frame frame_eqb negb].
  assert (Ef : pdr_f st2 = pdr_f st) by (rewrite Ef2, Ef1; reflexivity).
  assert (Ed : pdr_draws st2 = S (2 * (D - 1))) by (rewrite Ed2, Ed1; exact (f_equal S Hdr)).
  destruct (generalize_long D z st2) as ((q & st3) & E3 & Eq & Hp3 & Ef3 & Ed3); auto; [rewrite Ef; exact Htr| |].
  { rewrite Ed, long_need_odd. f_equal. lia. }
  cbn [fst snd] in *. rewrite E3. cbn [bind]. subst q. cbn [t_frame].
  rewrite (pdr_depth_ok c false J s SS D) by auto. cbn [bind]. unfold nat_sub.
  replace (1 <=? D) with true by (symmetry; apply Nat.leb_le; lia). cbn [bind].
  unfold D at 1. cbn [push_forward]. fold D. replace (D <? D - 1) with false by (symmetry; apply Nat.ltb_ge; lia). cbn [bind].
  rewrite Ef in Ef3.
  destruct (add_blocked_ok c false J s b Hsys Hf SS HS D st3 (lcut (D + 1)) D Hp3) as (st4 & E4 & Hp4 & (_ & Ha) & Ed4 & _).
  { apply on_like. intros l Hl. apply long_in_ones in Hl. destruct Hl as (i & Hi & _ & ->). apply in_all_on.
    exists (i + 1)%N. split; [apply long_is_latch; lia|reflexivity]. }
  { lia. }
  { rewrite Ef3. apply lrel_ones; auto. }
  rewrite E4. cbn [bind]. rewrite Nat.ltb_irrefl.
  assert (Nil : forall k, rec_block_loop b R SS s k [] st4 = Ok (true, st4)) by (intros [|k]; reflexivity).
  rewrite Nil. eexists. split; [reflexivity|]. cbn [fst snd]. split; auto. split; auto. split; [|lia].
  intros j x. rewrite Ha, Ef3, (Hst j x). split.
  - intros [((Hj & ->) & _)|(-> & ->)]; split; auto; lia.
  - intros (Hj & ->). destruct (Nat.eq_dec j D) as [->|Hne]; [right; auto|]. left. split; [split; auto; lia|].
    intros _. destruct (subsumes (lcut (D + 1)) (lcut (j + 1))) eqn:Es; auto.
    apply lcut_subsumes in Es; [lia|exact Htop].
Qed.

(* --------------------------------------------------------------------- propagation *)

Lemma keep_cubes D k : 1 <= k < D -> (N.of_nat (k + 1) < 2 ^ N.of_nat n)%N -> forall fuel idx st, pinv D st ->
  length (nth k (pdr_f st) []) <= fuel + idx -> (forall x, In x (nth k (pdr_f st) []) -> x = lcut (k + 1)) ->
  okay (propagate_cubes b SS s fuel k idx st) (same_frames D st).
Proof.
  intros Hk Htop. induction fuel as [|fuel IH]; intros idx st Hp Hfu Hx; cbn [propagate_cubes].
  all: pose proof (v_frames _ _ _ _ _ _ _ Hp) as Hfi; pose proof (PdrCore.f_len _ _ _ _ _ Hfi) as Hl;
    rewrite (indexn_nth _ _ []) by lia; cbn [bind];
    destruct (Nat.ltb_spec idx (length (nth k (pdr_f st) []))) as [Hi|Hi].
  - lia.
  - exists st. split; [reflexivity|]. split; auto.
  - destruct (indexn_error (nth k (pdr_f st) []) idx Hi) as (q & Eq & E). rewrite E. cbn [bind].
    assert (Hin : In q (nth k (pdr_f st) [])) by (eapply nth_error_In; eauto).
    destruct (f_cube _ _ _ _ _ Hfi k q Hin) as (_ & Hlike & _).
    destruct (solve_relative_ok c false J s b Hsys Hf Hwf Hn He SS HS D st q (k + 1) NoInd Hp Hlike ltac:(lia))
        as ((t & st1) & Et & Hp1 & Ef & Ed & Hcase). cbn [fst snd] in *. rewrite Et. cbn [bind].
    replace (k + 1 - 1) with k in Hcase by lia. apply Hx in Hin. subst q.
    destruct Hcase as [(-> & Hind)|(Hnull & _)].
    + exfalso. pose proof (small_top _ Htop) as Ht2.
      pose proof (long_succ (S n) (N.of_nat k) false ltac:(lia)) as S1.
      destruct (N.eqb_spec (N.of_nat k) tp); [lia|]. replace (N.of_nat k + 1)%N with (N.of_nat (k + 1)) in S1 by lia.
      apply (Hind (long_state (S n) (N.of_nat k) false) (long_state (S n) (N.of_nat (k + 1)) false)).
      * split; [apply long_state_wires|exact S1].
      * apply (counted_frame D _ Hfi). lia.
      * discriminate.
      * apply lones_true; auto. rewrite long_state_count by lia. apply within_refl.
    + unfold is_solve_relative_un_sat. rewrite Hnull. cbn [frame_eqb negb].
      eapply okay_impl; [apply (IH (S idx) st1 Hp1); rewrite Ef; [lia|exact Hx]|].
      intros st2 H2. apply (same_frames_trans D st st1 st2); auto. split; auto.
  - exists st. split; [reflexivity|]. split; auto.
Qed.

Lemma keep_frames D : forall m a st, 1 <= a -> a + m <= D -> (N.of_nat (a + m) < 2 ^ N.of_nat n)%N -> pinv D st ->
  stairs (a + m - 1) (pdr_f st) ->
  okay (Pdr.propagate_frames b SS s (seq a m) st) (fun r => fst r = None /\ same_frames D st (snd r)).
Proof.
  induction m as [|m IH]; intros a st Ha HD Htop Hp Hst; cbn [seq Pdr.propagate_frames].
  - eexists. split; [reflexivity|]. cbn [fst snd]. split; auto. split; auto.
  - pose proof (PdrCore.f_len _ _ _ _ _ (v_frames _ _ _ _ _ _ _ Hp)) as Hl.
    rewrite (indexn_nth _ _ []) by lia. cbn [bind].
    destruct (keep_cubes D a ltac:(lia) ltac:(lia) (length (nth a (pdr_f st) [])) 0 st Hp) as (st1 & E1 & Hs1).
    { lia. }
    { intros x Hx. apply Hst in Hx. apply Hx. }
    rewrite E1. cbn [bind]. destruct Hs1 as (Hp1 & Ef1 & Ed1). rewrite (indexn_nth _ _ []) by (rewrite Ef1; lia). cbn [bind].
    assert (Hin : In (lcut (a + 1)) (nth a (pdr_f st1) [])) by (rewrite Ef1; apply Hst; split; [lia|reflexivity]).
    destruct (nth a (pdr_f st1) []) as [|x r]; [destruct Hin|].
    eapply okay_impl; [apply (IH (S a) st1); auto; [lia|lia|]|].
    + rewrite Ef1. replace (S a + m - 1) with (a + S m - 1) by lia. exact Hst.
    + intros (o & st2) (G1 & G2). cbn [fst snd] in *. split; auto. apply (same_frames_trans D st st1 st2); auto. split; auto.
Qed.

(* ----------------------------------------------------------------------- main loop *)

Lemma past inner : forall outer D st r st', pinv D st -> (u32_mod <= N.of_nat D)%N ->
  pdr_loop b R SS s inner outer st = Ok (r, st') -> exists inv, r = Proof inv.
Proof.
  induction outer as [|outer IH]; intros D st r st' Hp HD H; cbn [pdr_loop] in H; [discriminate|].
  pose proof (get_bad_ok c false J s b Hsys Hwf Hn He SS HS D st Hp) as Hg.
  destruct (z_get_bad_cube b SS s st) as [(o & st1)| |]; cbn [bind] in H; try discriminate.
  cbn [post fst snd] in Hg. destruct Hg as (Hp1 & Ef1 & Ho). destruct o as [z|].
  - destruct Ho as (Hz & Hwit & Hbad). rewrite (pdr_depth_ok c false J s SS D) in H by auto. cbn [bind] in H.
    rewrite <- Ef1 in Hwit.
    pose proof (rec_block_cube_ok c false s b Hsys Hf Hwf Hn He SS HS R (long_random_ok n) D inner z st1 Hp1 Hz Hwit Hbad) as Hb.
    destruct (rec_block_cube b R SS s inner (mkTCube z (FOk D)) st1) as [(bl & st2)| |]; cbn [bind] in H; try discriminate.
    cbn [post fst snd] in Hb. destruct Hb as (Hp2 & _). cbn [fst snd] in *. destruct bl; [eapply (IH D); eauto|].
    rewrite (pdr_depth_ok c false J s SS D) in H by auto. cbn [bind] in H. unfold depth_of_frame in H.
    replace (N.of_nat D <? u32_mod)%N with false in H by (symmetry; apply N.ltb_ge; lia). discriminate.
  - rewrite <- Ef1 in Ho.
    destruct (new_frame_ok c false J s b Hsys Hwf Hn He SS HS D st1 Hp1 Ho) as (st2 & E2 & Hp2 & _).
    rewrite E2 in H. cbn [bind] in H. unfold propagate_blocked_cubes in H.
    rewrite (pdr_depth_ok c false J s SS (S D)) in H by auto. cbn [bind] in H. replace (S D - 1) with D in H by lia.
    destruct (propagate_frames_ok c false J s b Hsys Hf Hwf Hn He SS HS (S D) D 1 st2 Hp2) as ((o & st3) & E3 & Hp3 & _);
      [lia|lia|intros j Hj; lia|]. rewrite E3 in H. cbn [bind fst snd] in *. destruct o as [k|].
    + destruct (get_r_i SS s st3 k) as [inv| |]; cbn [bind] in H; try discriminate. injection H as <- <-. eauto.
    + eapply (IH (S D)); [exact Hp3|lia|exact H].
Qed.

Lemma bad_top w : wires_ok c w -> is_bad c false w -> count w = tp.
Proof. intros Hw Hb. apply long_bad in Hb; auto. apply Hb. Qed.

Hypothesis Hdeep : (u32_mod + 2 < 2 ^ N.of_nat n)%N.

Lemma long_loop inner : forall outer D st r st', 1 <= D -> pinv D st -> stairs (D - 1) (pdr_f st) -> pdr_draws st = 2 * (D - 1) ->
  pdr_loop b R SS s (S inner) outer st = Ok (r, st') -> exists inv, r = Proof inv.
Proof.
  induction outer as [outer IH] using (well_founded_induction lt_wf). intros D st r st' HD Hp Hst Hdr H.
  destruct (N.le_gt_cases u32_mod (N.of_nat D)) as [Hd|Hd]; [eapply past; [exact Hp|exact Hd|exact H]|].
  assert (Htop : (N.of_nat (D + 1) < 2 ^ N.of_nat n)%N) by lia. pose proof (small_top _ Htop) as Ht2.
  destruct outer as [|outer]; cbn [pdr_loop] in H; [discriminate|].
  pose proof (get_bad_ok c false J s b Hsys Hwf Hn He SS HS D st Hp) as Hg.
  destruct (z_get_bad_cube b SS s st) as [(o & st1)| |] eqn:E1; cbn [bind] in H; try discriminate.
  cbn [post fst snd] in Hg. destruct Hg as (Hp1 & Ef1 & Ho). apply get_bad_draws in E1. destruct E1 as (Ed1 & Hz1).
  destruct o as [z|].
  2:{ exfalso. apply (Ho (long_state (S n) tp true)).
      - apply long_state_wires.
      - split; [|lia]. intros j q Hj Hq. apply Hst in Hq. lia.
      - apply long_bad; [apply long_state_wires|]. rewrite long_state_count, long_state_full by lia. auto. }
  destruct Ho as (Hz & (u & Hu & Tu) & Hbad). specialize (Hbad (long_read (S n))).
  pose proof (bad_cube z u Hz Tu Hbad (proj1 Hz1) (proj2 Hz1)) as Ez.
  rewrite (pdr_depth_ok c false J s SS D) in H by auto. cbn [bind] in H. rewrite <- Ef1 in Hst, Hu.
  destruct (block_long D z st1 inner u HD Htop Hp1 Hst Ez Hu Tu) as ((bl & st2) & E2 & Ebl & Hp2 & Hst2 & Ed2); [congruence|].
  cbn [fst snd] in *. rewrite E2 in H. cbn [bind] in H. subst bl.
  destruct outer as [|outer]; cbn [pdr_loop] in H; [discriminate|].
  pose proof (get_bad_ok c false J s b Hsys Hwf Hn He SS HS D st2 Hp2) as Hg.
  destruct (z_get_bad_cube b SS s st2) as [(o & st3)| |] eqn:E3; cbn [bind] in H; try discriminate.
  cbn [post fst snd] in Hg. destruct Hg as (Hp3 & Ef3 & Ho). apply get_bad_draws in E3. destruct E3 as (Ed3 & _).
  assert (Htr : ltrimmed (pdr_f st2) D) by (apply (stairs_trimmed D); auto).
  destruct o as [z'|].
  { exfalso. destruct Ho as (_ & (u' & Hu' & Tu') & Hbad'). destruct (Hbad' (long_read (S n)) u' Tu') as (x & X1 & X2 & X3).
    apply (ltrimmed_top (pdr_f st2) D u'); auto. apply long_same in X2. destruct X2 as (X2 & _). rewrite <- X2.
    apply bad_top; auto. }
  rewrite <- Ef3 in Ho.
  destruct (new_frame_ok c false J s b Hsys Hwf Hn He SS HS D st3 Hp3 Ho) as (st4 & E4 & Hp4 & Ef4 & Ed4).
  rewrite E4 in H. cbn [bind] in H. unfold propagate_blocked_cubes in H.
  rewrite (pdr_depth_ok c false J s SS (S D)) in H by auto. cbn [bind] in H. replace (S D - 1) with D in H by lia.
  assert (Hst4 : stairs D (pdr_f st4)).
  { intros j x. rewrite Ef4, Ef3, nth_snoc_nil. apply Hst2. }
  destruct (keep_frames (S D) D 1 st4) as ((o & st5) & E5 & Eo & Hp5 & Ef5 & Ed5); auto.
  { replace (1 + D) with (D + 1) by lia. exact Htop. }
  { replace (1 + D - 1) with D by lia. exact Hst4. }
  cbn [fst snd] in *. rewrite E5 in H. cbn [bind] in H. subst o.
  apply (IH outer ltac:(lia) (S D) st5 r st'); auto; [|rewrite Ed5, Ed4, Ed3, Ed2; lia].
  replace (S D - 1) with D by lia. rewrite Ef5. exact Hst4.
Qed.

Lemma new_frame_draws st st' : new_frame b SS s st = Ok st' -> pdr_draws st' = pdr_draws st.
Proof.
  unfold new_frame, z_new_frame. destruct (nat_sub _ _) as [m| |]; cbn [bind]; try discriminate.
  destruct (swap _ _ _) as [f| |]; cbn [bind]; try discriminate.
  destruct (solver_lengths b SS 2 _) as [[]| |]; cbn [bind]; try discriminate.
  destruct (pdr_notp (with_f SS st f));
    repeat (destruct (solver_with SS _) as [?| |]; cbn [bind]; try discriminate);
    destruct (solver_lengths b SS 1 _) as [[]| |]; cbn [bind]; try discriminate; intros E; injection E as <-; reflexivity.
Qed.

Lemma long_prove fuel r st' : 1 <= fuel -> pdr_prove b R SS s fuel (pdr_new SS) = Ok (r, st') -> exists inv, r = Proof inv.
Proof.
  intros Hfu H. unfold pdr_prove in H.
  destruct (first_frame_ok c false J s b Hsys Hwf Hn He SS HS) as (st & E & Hp & Ef).
  pose proof (new_frame_draws _ _ E) as Ed. cbn [with_f pdr_new pdr_draws] in Ed.
  change (pdr_f (pdr_new SS) ++ [[]]) with [@nil Cube] in H. rewrite E in H. cbn [bind] in H. destruct fuel as [|fuel]; [lia|].
  remember (S fuel) as inner eqn:Ei. cbn [pdr_loop] in H. rewrite Ei in H at 2. cbn [pdr_loop] in H.
  pose proof (get_bad_ok c false J s b Hsys Hwf Hn He SS HS 0 st Hp) as Hg.
  destruct (z_get_bad_cube b SS s st) as [(o & st1)| |] eqn:E1; cbn [bind] in H; try discriminate.
  cbn [post fst snd] in Hg. destruct Hg as (Hp1 & Ef1 & Ho). apply get_bad_draws in E1. destruct E1 as (Ed1 & _).
  destruct o as [z'|].
  { exfalso. destruct Ho as (_ & (u' & Hu' & Tu') & Hbad'). destruct (Hbad' (long_read (S n)) u' Tu') as (x & X1 & X2 & X3).
    apply (ltrimmed_top (pdr_f st) 0 u'); auto; [left; reflexivity|cbn; lia|]. apply long_same in X2. destruct X2 as (X2 & _). rewrite <- X2.
    apply bad_top; auto. }
  rewrite <- Ef1 in Ho.
  destruct (new_frame_ok c false J s b Hsys Hwf Hn He SS HS 0 st1 Hp1 Ho) as (st2 & E2 & Hp2 & Ef2 & Ed2).
  rewrite E2 in H. cbn [bind] in H. unfold propagate_blocked_cubes in H.
  rewrite (pdr_depth_ok c false J s SS 1) in H by auto. cbn [bind Nat.sub seq Pdr.propagate_frames] in H.
  subst inner. apply (long_loop fuel fuel 1 st2 r st'); auto; [|cbn; congruence].
  intros j x. rewrite Ef2, Ef1, Ef. split; [|lia]. destruct j as [|[|[|[|j]]]]; intros [].
Qed.

End Run.
