(** Circuits on which IC3 may need exponentially many frames: [n] latches count the clocks and stay at the
    largest number, two more latches delay the signal that the largest number is reached. *)
From Verif Require Import Base Formulas Aig AigParse Fsts Spec SpecAig SpecAiger SpecFsts SpecAlg Tac AigFacts
  AigThms ParseFacts FstsThms BmcThms ConeThms StateFacts CounterGen.
Open Scope N_scope.

Lemma pow_pos k : 1 <= 2 ^ k.
Proof. pose proof (N.pow_nonzero 2 k). lia. Qed.

Section Slow.
Variable width : nat.
Notation W := (N.of_nat width).

(** The literal that is true if the bits below [i] are all set. *)
Definition pre (i : N) : N := if i =? 0 then 1 else 2 * (W + 2 + i).
Definition conj_gate (x y : N) : N * N := (N.max x y, N.min x y).
Definition pre_gate (i : N) : N * N := conj_gate (pre i) (2 * (i + 1)).
Definition bit_next (i : N) : list (N * N) :=
  [conj_gate (N.lxor (pre i) 1) (2 * (i + 1) + 1);
   conj_gate (pre (i + 1)) (N.lxor (pre W) 1);
   (2 * (2 * W + 3 + 3 * i + 1) + 1, 2 * (2 * W + 3 + 3 * i) + 1)].
Definition slow : circuit :=
  mkCircuit 0 (map (fun i => (2 * (2 * W + 3 + 3 * i + 2), 0)) (bits width) ++ [(pre W, 0); (2 * (5 * W + 3), 0)])
    [] [2 * (W + 2)] []
    (map pre_gate (bits width) ++ flat_map bit_next (bits width) ++ [conj_gate (2 * (W + 1)) (pre W)]).

Lemma bit_next_nth l j k i : nth_error l j = Some i -> (k < 3)%nat ->
  nth_error (flat_map bit_next l) (3 * j + k) = nth_error (bit_next i) k.
Proof.
  revert j. induction l as [|x l IH]; intros j Hj Hk; [destruct j; discriminate|].
  destruct j as [|j]; cbn [flat_map].
  - injection Hj as ->. rewrite nth_error_app1 by (cbn; lia). f_equal.
  - cbn [nth_error] in Hj. rewrite nth_error_app2 by (cbn; lia). rewrite <- (IH j Hj Hk). f_equal. cbn [length bit_next]. lia.
Qed.

Lemma bit_next_length l : length (flat_map bit_next l) = (3 * length l)%nat.
Proof. induction l as [|x l IH]; auto. cbn [flat_map]. rewrite app_length, IH. cbn [length bit_next]. lia. Qed.

Lemma slow_latches : lenN (c_latches slow) = W + 2.
Proof. unfold lenN. cbn [c_latches slow]. rewrite app_length, map_length, bits_length. cbn [length]. lia. Qed.

Lemma slow_max : c_max slow = 5 * W + 3.
Proof.
  unfold c_max. rewrite slow_latches. unfold lenN. cbn [c_ands slow c_inputs].
  rewrite !app_length, map_length, bit_next_length, bits_length. cbn [length]. lia.
Qed.

Lemma pre_in i : i < W -> gate slow (W + 3 + i) (fst (pre_gate i)) (snd (pre_gate i)).
Proof.
  intros Hi. exists (N.to_nat i). split.
  - cbn [c_ands slow]. rewrite nth_error_app1 by (rewrite map_length, bits_length; lia).
    rewrite nth_error_map, bits_nth by lia. rewrite N2Nat.id. reflexivity.
  - unfold gate_var. rewrite slow_latches. cbn [c_inputs slow]. lia.
Qed.

Lemma next_in i k r0 r1 : i < W -> (k < 3)%nat -> nth_error (bit_next i) k = Some (r0, r1) ->
  gate slow (2 * W + 3 + 3 * i + N.of_nat k) r0 r1.
Proof.
  intros Hi Hk H. exists (width + (3 * N.to_nat i + k))%nat. split.
  - cbn [c_ands slow]. rewrite nth_error_app2 by (rewrite map_length, bits_length; lia).
    rewrite map_length, bits_length.
    replace (width + (3 * N.to_nat i + k) - width)%nat with (3 * N.to_nat i + k)%nat by lia.
    rewrite nth_error_app1 by (rewrite bit_next_length, bits_length; lia).
    rewrite (bit_next_nth (bits width) (N.to_nat i) k i); auto. rewrite bits_nth by lia. f_equal. lia.
  - unfold gate_var. rewrite slow_latches. cbn [c_inputs slow]. lia.
Qed.

Lemma last_in : gate slow (5 * W + 3) (fst (conj_gate (2 * (W + 1)) (pre W))) (snd (conj_gate (2 * (W + 1)) (pre W))).
Proof.
  exists (width + 3 * width)%nat. split.
  - cbn [c_ands slow]. rewrite nth_error_app2 by (rewrite map_length, bits_length; lia).
    rewrite map_length, bits_length. rewrite nth_error_app2 by (rewrite bit_next_length, bits_length; lia).
    rewrite bit_next_length, bits_length. replace (width + 3 * width - width - 3 * width)%nat with 0%nat by lia. reflexivity.
  - unfold gate_var. rewrite slow_latches. cbn [c_inputs slow]. lia.
Qed.

Lemma slow_gate_of v r0 r1 : gate slow v r0 r1 ->
  (exists i, i < W /\ v = W + 3 + i /\ (r0, r1) = pre_gate i) \/
  (exists i k, i < W /\ (k < 3)%nat /\ v = 2 * W + 3 + 3 * i + N.of_nat k /\ nth_error (bit_next i) k = Some (r0, r1)) \/
  (v = 5 * W + 3 /\ (r0, r1) = conj_gate (2 * (W + 1)) (pre W)).
Proof.
  intros (j & Hj & ->). unfold gate_var. rewrite slow_latches. cbn [c_inputs slow].
  cbn [c_ands slow] in Hj.
  destruct (Nat.lt_ge_cases j width) as [L|L].
  { left. rewrite nth_error_app1 in Hj by (rewrite map_length, bits_length; lia).
    rewrite nth_error_map, bits_nth in Hj by lia. exists (N.of_nat j). split; [lia|]. split; [lia|].
    cbn [option_map] in Hj. congruence. }
  right. rewrite nth_error_app2 in Hj by (rewrite map_length, bits_length; lia). rewrite map_length, bits_length in Hj.
  destruct (Nat.lt_ge_cases (j - width) (3 * width)) as [L'|L'].
  - left. rewrite nth_error_app1 in Hj by (rewrite bit_next_length, bits_length; lia).
    pose proof (Nat.div_mod (j - width) 3 ltac:(lia)) as D. pose proof (Nat.mod_upper_bound (j - width) 3 ltac:(lia)) as B.
    set (q := ((j - width) / 3)%nat) in *. set (k := ((j - width) mod 3)%nat) in *. clearbody q k.
    exists (N.of_nat q), k. split; [lia|]. split; [exact B|]. split; [lia|].
    rewrite <- Hj, D. symmetry. apply bit_next_nth; auto. apply bits_nth. lia.
  - right. rewrite nth_error_app2 in Hj by (rewrite bit_next_length, bits_length; lia).
    rewrite bit_next_length, bits_length in Hj.
    destruct (j - width - 3 * width)%nat as [|n] eqn:E; [|destruct n; discriminate].
    cbn [nth_error] in Hj. split; [lia|]. congruence.
Qed.

Lemma bit_latch i : i < W -> latch slow (i + 1) (2 * (2 * W + 3 + 3 * i + 2)) 0.
Proof.
  intros Hi. exists (N.to_nat i). split.
  - cbn [c_latches slow]. rewrite nth_error_app1 by (rewrite map_length, bits_length; lia).
    rewrite nth_error_map, bits_nth by lia. rewrite N2Nat.id. reflexivity.
  - unfold latch_var. cbn [c_inputs slow]. lia.
Qed.

Lemma full_latch : latch slow (W + 1) (pre W) 0.
Proof.
  exists width. split.
  - cbn [c_latches slow]. rewrite nth_error_app2 by (rewrite map_length, bits_length; lia).
    rewrite map_length, bits_length, Nat.sub_diag. reflexivity.
  - unfold latch_var. cbn [c_inputs slow]. lia.
Qed.

Lemma late_latch : latch slow (W + 2) (2 * (5 * W + 3)) 0.
Proof.
  exists (S width). split.
  - cbn [c_latches slow]. rewrite nth_error_app2 by (rewrite map_length, bits_length; lia).
    rewrite map_length, bits_length. replace (S width - width)%nat with 1%nat by lia. reflexivity.
  - unfold latch_var. cbn [c_inputs slow]. lia.
Qed.

Lemma slow_latch_of v nx r : latch slow v nx r -> r = 0 /\
  ((exists i, i < W /\ v = i + 1 /\ nx = 2 * (2 * W + 3 + 3 * i + 2)) \/ (v = W + 1 /\ nx = pre W) \/
   (v = W + 2 /\ nx = 2 * (5 * W + 3))).
Proof.
  intros (j & Hj & ->). unfold latch_var. cbn [c_inputs slow c_latches] in *.
  destruct (Nat.lt_ge_cases j width) as [L|L].
  { rewrite nth_error_app1 in Hj by (rewrite map_length, bits_length; lia).
    rewrite nth_error_map, bits_nth in Hj by lia. injection Hj as <- <-. split; auto.
    left. exists (N.of_nat j). split; [lia|]. split; [lia|reflexivity]. }
  rewrite nth_error_app2 in Hj by (rewrite map_length, bits_length; lia). rewrite map_length, bits_length in Hj.
  destruct (j - width)%nat as [|[|n]] eqn:E; cbn in Hj.
  - injection Hj as <- <-. split; auto. right. left. split; [lia|reflexivity].
  - injection Hj as <- <-. split; auto. right. right. split; [lia|reflexivity].
  - destruct n; discriminate.
Qed.

Lemma slow_is_latch v : is_latch slow v <-> 1 <= v <= W + 2.
Proof.
  split.
  - intros (nx & r & L). destruct (slow_latch_of _ _ _ L) as (_ & [(i & Hi & -> & _)|[(-> & _)|(-> & _)]]); lia.
  - intros H. destruct (N.lt_ge_cases v (W + 1)).
    + pose proof (bit_latch (v - 1) ltac:(lia)) as L. replace (v - 1 + 1) with v in L by lia.
      eexists. eexists. exact L.
    + destruct (N.eq_dec v (W + 1)) as [->|]; [eexists; eexists; apply full_latch|].
      replace v with (W + 2) by lia. eexists. eexists. apply late_latch.
Qed.

Lemma pre_below i : pre i < 2 * (W + 3 + i).
Proof. unfold pre. destruct (N.eqb_spec i 0); lia. Qed.

Lemma flip_below l m : l < 2 * m -> N.lxor l 1 < 2 * m.
Proof. intros H. destruct (flip_cases l) as (v & [(E & ->)|(E & ->)]); lia. Qed.

Lemma slow_wf : circuit_wf slow.
Proof.
  pose proof (pre_below W) as BW.
  split; [|split; [constructor|split; [|split; [constructor|]]]].
  - intros v nx r L. destruct (slow_latch_of _ _ _ L) as (-> & H). split; auto.
    unfold lit_in_range, lit_var. rewrite slow_max. destruct H as [(i & Hi & -> & ->)|[(-> & ->)|(-> & ->)]]; lia.
  - constructor; [|constructor]. unfold lit_in_range, lit_var. rewrite slow_max. lia.
  - intros v r0 r1 G. destruct (slow_gate_of _ _ _ G) as [(i & Hi & -> & E)|[(i & k & Hi & Hk & -> & E)|(-> & E)]].
    + injection E as -> ->. pose proof (pre_below i). lia.
    + pose proof (pre_below i) as B. pose proof (pre_below (i + 1)) as B'.
      pose proof (flip_below _ _ B) as F. pose proof (flip_below _ _ BW) as F'.
      destruct k as [|[|[|k]]]; [..|lia]; cbn in E; injection E as <- <-; lia.
    + injection E as -> ->. lia.
Qed.

Lemma slow_numbering : 10 * W + 6 <= 2147483647 -> numbering_fits slow false.
Proof.
  intros H. split; [rewrite slow_max; lia|]. unfold bad_literals. cbn [app]. rewrite app_nil_r.
  change (c_bad slow) with [2 * (W + 2)]. constructor; [|constructor]. unfold lit_var. lia.
Qed.

Lemma slow_system b : 10 * W + 6 <= 2147483647 -> exists s, system_of b slow false s.
Proof.
  intros H. assert (F : circuit_fits slow) by (unfold circuit_fits; rewrite slow_max; lia).
  destruct (from_aig_accepts b (fun l => l) (graph slow) slow false (graph_represents _) slow_wf F
    id_order eq_refl (slow_numbering H)) as (s & E).
  exists s, (fun l => l), (graph slow). split; [apply graph_represents|]. split; [exact slow_wf|].
  split; [exact F|]. split; [exact id_order|exact E].
Qed.

(* ----------------------------------------------------------------- behaviour *)

(** The number counted, and the largest one. *)
Definition count_of (w : valuation) : N := value w width.
Definition top : N := 2 ^ W - 1.

Lemma count_le_top w : count_of w <= top.
Proof. unfold count_of, top. pose proof (value_bound w width). lia. Qed.

Lemma pre_0 w : wires_ok slow w -> lit_value w (pre 0) = true.
Proof. intros (H & _). change (pre 0) with 1. unfold lit_value. change (lit_var 1) with 0. rewrite H. reflexivity. Qed.

Lemma pre_succ w i : lit_value w (pre (i + 1)) = w (W + 3 + i).
Proof. unfold pre. destruct (N.eqb_spec (i + 1) 0); [lia|]. rewrite lit_value_even. f_equal. lia. Qed.

Lemma pre_step w i : wires_ok slow w -> i < W -> lit_value w (pre (i + 1)) = lit_value w (pre i) && w (i + 1).
Proof.
  intros (_ & Hw) Hi. rewrite pre_succ. rewrite (Hw _ _ _ (pre_in i Hi)). unfold pre_gate, conj_gate. cbn [fst snd].
  rewrite lit_value_pair, lit_value_even. reflexivity.
Qed.

Lemma pre_full w k : wires_ok slow w -> (k <= width)%nat ->
  lit_value w (pre (N.of_nat k)) = (value w k =? 2 ^ N.of_nat k - 1).
Proof.
  intros Hw. induction k as [|k IH]; intros Hk.
  - change (N.of_nat 0) with 0. rewrite pre_0 by exact Hw. reflexivity.
  - replace (N.of_nat (S k)) with (N.of_nat k + 1) at 1 by lia. rewrite pre_step by (auto; lia). rewrite IH by lia.
    rewrite pow_succ. cbn [value]. pose proof (value_bound w k) as B. pose proof (pow_pos (N.of_nat k)) as P.
    destruct (w (N.of_nat k + 1)).
    + rewrite andb_true_r. apply eq_true_iff_eq. rewrite !N.eqb_eq. lia.
    + rewrite andb_false_r. symmetry. apply N.eqb_neq. lia.
Qed.

Lemma full w : wires_ok slow w -> lit_value w (pre W) = (count_of w =? top).
Proof. intros Hw. apply pre_full; auto. Qed.

Lemma next_bit w w' i : wires_ok slow w -> step_values slow w w' -> i < W ->
  w' (i + 1) = (lit_value w (pre i) || w (i + 1)) && (negb (lit_value w (pre (i + 1))) || lit_value w (pre W)).
Proof.
  intros (_ & Hw) Hs Hi. rewrite (Hs _ _ _ (bit_latch i Hi)), lit_value_even.
  pose proof (Hw _ _ _ (next_in i 0 _ _ Hi ltac:(lia) eq_refl)) as G0.
  pose proof (Hw _ _ _ (next_in i 1 _ _ Hi ltac:(lia) eq_refl)) as G1.
  pose proof (Hw _ _ _ (next_in i 2 _ _ Hi ltac:(lia) eq_refl)) as G2.
  rewrite lit_value_pair, lit_value_odd, lit_value_flip in G0. rewrite lit_value_pair, lit_value_flip in G1.
  rewrite !lit_value_odd in G2. change (N.of_nat 0) with 0 in G0. change (N.of_nat 1) with 1 in G1.
  change (N.of_nat 2) with 2 in G2. rewrite N.add_0_r in G0. rewrite G2, G1, G0.
  destruct (lit_value w (pre i)), (w (i + 1)), (lit_value w (pre (i + 1))), (lit_value w (pre W)); reflexivity.
Qed.

Lemma slow_counts w w' : wires_ok slow w -> step_values slow w w' ->
  count_of w' = if count_of w =? top then top else count_of w + 1.
Proof.
  intros Hw Hs. rewrite <- full by exact Hw. destruct (lit_value w (pre W)) eqn:E.
  - assert (X : forall k, (k <= width)%nat -> value w' k = 2 ^ N.of_nat k - 1); [|apply X; auto].
    assert (V : forall k, (k <= width)%nat -> value w k = 2 ^ N.of_nat k - 1).
    { rewrite full in E by exact Hw. apply N.eqb_eq in E. unfold count_of, top in E.
      assert (Y : forall d k, (k + d = width)%nat -> value w k = 2 ^ N.of_nat k - 1);
        [|intros k Hk; apply (Y (width - k)%nat); lia].
      induction d as [|d IH]; intros k Hk; [replace k with width by lia; exact E|].
      specialize (IH (S k) ltac:(lia)). rewrite pow_succ in IH. cbn [value] in IH.
      pose proof (value_bound w k). pose proof (pow_pos (N.of_nat k)). destruct (w (N.of_nat k + 1)); lia. }
    induction k as [|k IH]; intros Hk; [reflexivity|]. rewrite pow_succ. cbn [value]. rewrite IH by lia.
    rewrite (next_bit w w' (N.of_nat k) Hw Hs) by lia. rewrite E, pre_full by (auto; lia). rewrite V by lia.
    rewrite N.eqb_refl. cbn [orb andb]. rewrite orb_true_r. pose proof (pow_pos (N.of_nat k)). lia.
  - assert (X : forall k, (k <= width)%nat ->
      value w' k + 2 ^ N.of_nat k * (if lit_value w (pre (N.of_nat k)) then 1 else 0) = value w k + 1).
    { induction k as [|k IH]; intros Hk.
      - change (N.of_nat 0) with 0. rewrite pre_0 by exact Hw. reflexivity.
      - specialize (IH ltac:(lia)). rewrite pow_succ. cbn [value].
        rewrite (next_bit w w' (N.of_nat k) Hw Hs) by lia. replace (N.of_nat (S k)) with (N.of_nat k + 1) by lia.
        rewrite pre_step by (auto; lia). rewrite E.
        destruct (lit_value w (pre (N.of_nat k))), (w (N.of_nat k + 1)); cbn [orb andb negb]; lia. }
    specialize (X width (le_n _)). rewrite E in X. unfold count_of. lia.
Qed.

Lemma slow_full w w' : wires_ok slow w -> step_values slow w w' -> w' (W + 1) = (count_of w =? top).
Proof. intros Hw Hs. rewrite (Hs _ _ _ full_latch). apply full; auto. Qed.

Lemma slow_late w w' : wires_ok slow w -> step_values slow w w' -> w' (W + 2) = w (W + 1) && (count_of w =? top).
Proof.
  intros Hw Hs. rewrite (Hs _ _ _ late_latch), lit_value_even. rewrite (proj2 Hw _ _ _ last_in).
  unfold conj_gate. cbn [fst snd]. rewrite lit_value_pair, lit_value_even, full; auto.
Qed.

Lemma value_bits w k i : (i < k)%nat -> N.testbit (value w k) (N.of_nat i) = w (N.of_nat i + 1).
Proof.
  revert i. induction k as [|k IH]; intros i Hi; [lia|]. cbn [value].
  pose proof (value_bound w k) as B.
  destruct (Nat.eq_dec i k) as [->|Hne].
  - rewrite N.testbit_odd, N.shiftr_div_pow2. rewrite N.mul_comm, N.div_add by (apply N.pow_nonzero; lia).
    rewrite N.div_small by exact B. destruct (w (N.of_nat k + 1)); reflexivity.
  - rewrite <- (IH i) by lia. rewrite !N.testbit_odd, !N.shiftr_div_pow2.
    replace (2 ^ N.of_nat k) with (2 * 2 ^ N.of_nat (k - S i) * 2 ^ N.of_nat i).
    2:{ rewrite <- N.pow_succ_r', <- N.pow_add_r. f_equal. lia. }
    set (z := if w (N.of_nat k + 1) then 1 else 0).
    replace (2 * 2 ^ N.of_nat (k - S i) * 2 ^ N.of_nat i * z) with (2 * (2 ^ N.of_nat (k - S i) * z) * 2 ^ N.of_nat i) by ring.
    rewrite N.div_add by (apply N.pow_nonzero; lia). rewrite N.odd_add_mul_2. reflexivity.
Qed.

Lemma count_bits w i : i < W -> N.testbit (count_of w) i = w (i + 1).
Proof. intros Hi. replace i with (N.of_nat (N.to_nat i)) by lia. apply value_bits. lia. Qed.

(** The value of the counter is determined by its bits. *)
Lemma bits_value w k x : (forall i, (i < k)%nat -> w (N.of_nat i + 1) = N.testbit x (N.of_nat i)) -> x < 2 ^ N.of_nat k ->
  value w k = x.
Proof.
  intros H Hx. apply N.bits_inj. intros j. destruct (N.lt_ge_cases j (N.of_nat k)) as [L|L].
  - replace j with (N.of_nat (N.to_nat j)) by lia. rewrite value_bits by lia. apply H. lia.
  - assert (Z : forall y, y < 2 ^ N.of_nat k -> N.testbit y j = false).
    { intros y Hy. destruct (N.eq_dec y 0) as [->|Hn]; [apply N.bits_0|]. apply N.bits_above_log2.
      apply N.log2_lt_pow2; [lia|]. eapply N.lt_le_trans; [exact Hy|]. apply N.pow_le_mono_r; lia. }
    rewrite !Z; auto. apply value_bound.
Qed.

(** A state with given count and delayed signals. *)
Definition state (x : N) (a e : bool) : valuation :=
  ev slow (fun v => if v =? W + 1 then a else if v =? W + 2 then e else N.testbit x (v - 1)).

Lemma state_wires x a e : wires_ok slow (state x a e).
Proof. apply ev_wires_ok, slow_wf. Qed.

Lemma state_count x a e : x <= top -> count_of (state x a e) = x.
Proof.
  intros Hx. unfold count_of. apply bits_value.
  - intros i Hi. unfold state. rewrite ev_src by (right; left; apply slow_is_latch; lia).
    destruct (N.eqb_spec (N.of_nat i + 1) (W + 1)); [lia|]. destruct (N.eqb_spec (N.of_nat i + 1) (W + 2)); [lia|].
    f_equal. lia.
  - unfold top in Hx. pose proof (pow_pos W). lia.
Qed.

Lemma state_full x a e : state x a e (W + 1) = a.
Proof. unfold state. rewrite ev_src by (right; left; apply slow_is_latch; lia). rewrite N.eqb_refl. reflexivity. Qed.

Lemma state_late x a e : state x a e (W + 2) = e.
Proof.
  unfold state. rewrite ev_src by (right; left; apply slow_is_latch; lia). destruct (N.eqb_spec (W + 2) (W + 1)); [lia|].
  rewrite N.eqb_refl. reflexivity.
Qed.

Lemma slow_same w w' : same_latches slow w w' <->
  count_of w = count_of w' /\ w (W + 1) = w' (W + 1) /\ w (W + 2) = w' (W + 2).
Proof.
  split.
  - intros H. split; [|split; apply H, slow_is_latch; lia]. unfold count_of. apply bits_value; [|apply value_bound].
    intros i Hi. rewrite value_bits by exact Hi. apply H, slow_is_latch. lia.
  - intros (H1 & H2 & H3) v Hv. apply slow_is_latch in Hv.
    destruct (N.eq_dec v (W + 1)) as [->|]; auto. destruct (N.eq_dec v (W + 2)) as [->|]; auto.
    replace v with (v - 1 + 1) by lia. rewrite <- !count_bits by lia. rewrite H1. reflexivity.
Qed.

Lemma slow_initial w : initial_values slow w <-> count_of w = 0 /\ w (W + 1) = false /\ w (W + 2) = false.
Proof.
  split.
  - intros H. split; [|split].
    + unfold count_of. apply bits_value; [|pose proof (pow_pos W); lia]. intros i Hi. rewrite N.bits_0.
      apply (H _ _ _ (bit_latch (N.of_nat i) ltac:(lia))). reflexivity.
    + apply (H _ _ _ full_latch). reflexivity.
    + apply (H _ _ _ late_latch). reflexivity.
  - intros (H1 & H2 & H3) v nx r L. destruct (slow_latch_of _ _ _ L) as (-> & D). split; [intros _|discriminate].
    destruct D as [(i & Hi & -> & _)|[(-> & _)|(-> & _)]]; auto. rewrite <- count_bits, H1 by exact Hi. apply N.bits_0.
Qed.

Lemma slow_bad w : is_bad slow false w <-> w (W + 2) = true.
Proof.
  unfold is_bad, bad_literals. cbn [app]. rewrite app_nil_r. change (c_bad slow) with [2 * (W + 2)].
  split; [intros (l & [<-|[]] & H); rewrite lit_value_even in H; auto|].
  intros H. exists (2 * (W + 2)). split; [left; auto|]. rewrite lit_value_even. exact H.
Qed.

(** Every state has a successor. *)
Lemma slow_succ x a e : x <= top ->
  step_values slow (state x a e) (state (if x =? top then top else x + 1) (x =? top) (a && (x =? top))).
Proof.
  intros Hx. set (w := state x a e).
  assert (Hy : (if x =? top then top else x + 1) <= top) by (destruct (N.eqb_spec x top); lia).
  set (w0 := ev slow (fun v => match nth_error (c_latches slow) (N.to_nat (v - 1)) with
                          | Some (nx, _) => lit_value w nx | None => false end)).
  assert (S0 : step_values slow w w0).
  { intros v nx r L. unfold w0. rewrite ev_src by (right; left; exists nx, r; exact L).
    destruct L as (j & Hj & ->). unfold latch_var. cbn [c_inputs slow].
    replace (N.to_nat (0 + 1 + N.of_nat j - 1)) with j by lia. cbn [c_latches slow] in Hj |- *. rewrite Hj. reflexivity. }
  pose proof (slow_counts w w0 (state_wires _ _ _) S0) as C. pose proof (slow_full w w0 (state_wires _ _ _) S0) as F.
  pose proof (slow_late w w0 (state_wires _ _ _) S0) as L.
  unfold w in C, F, L. rewrite ?state_count in C, F, L by exact Hx. rewrite state_full in L.
  intros v nx r Lv. rewrite <- (S0 v nx r Lv). apply slow_same; [|exists nx, r; exact Lv].
  rewrite state_count, state_full, state_late by exact Hy. auto.
Qed.

Lemma slow_unsafe : exists w t, run slow w /\ is_bad slow false (w t).
Proof.
  set (w0 := state 0 false false).
  assert (Hr : exists w, run slow w).
  { destruct (extend_path slow (fun _ => w0) 0 slow_wf) as (w & Hw & _); [..|exists w; exact Hw].
    - split; [intros t _; apply state_wires|]. intros t Ht. lia.
    - apply slow_initial. unfold w0. rewrite state_count, state_full, state_late by lia. auto. }
  destruct Hr as (w & H1 & H2 & H3).
  assert (X : forall t, N.of_nat t <= top -> count_of (w t) = N.of_nat t).
  { induction t as [|t IH]; intros Ht.
    - apply slow_initial in H2. apply H2.
    - rewrite (slow_counts _ _ (H1 t) (H3 t)), IH by lia. destruct (N.eqb_spec (N.of_nat t) top); lia. }
  exists w, (S (S (N.to_nat top))). split; [split; auto|]. apply slow_bad.
  assert (E : count_of (w (N.to_nat top)) = top) by (rewrite X; lia).
  rewrite (slow_late _ _ (H1 _) (H3 _)), (slow_full _ _ (H1 _) (H3 _)), (slow_counts _ _ (H1 _) (H3 _)), E.
  rewrite !N.eqb_refl. reflexivity.
Qed.

End Slow.
