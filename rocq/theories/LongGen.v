(** Circuits on which PDR may need exponentially many frames: [n] latches count the clocks and stay at the
    largest number, one more latch delays the signal that the largest number is reached; bad when the number is largest
    and the delayed signal is on. *)
From Verif Require Import Base Formulas Aig AigParse Fsts Spec SpecAig SpecAiger SpecFsts SpecAlg Tac AigFacts
  AigThms ParseFacts FstsThms BmcThms ConeThms StateFacts CounterGen SlowGen.
Open Scope N_scope.

Section Long.
Variable width : nat.
Notation W := (N.of_nat width).

(** The literal that is true if the bits below [i] are all set. *)
Definition long_pre (i : N) : N := if i =? 0 then 1 else 2 * (W + 1 + i).
Definition long_pre_gate (i : N) : N * N := conj_gate (long_pre i) (2 * (i + 1)).
Definition long_bit_next (i : N) : list (N * N) :=
  [conj_gate (N.lxor (long_pre i) 1) (2 * (i + 1) + 1);
   conj_gate (long_pre (i + 1)) (N.lxor (long_pre W) 1);
   (2 * (2 * W + 2 + 3 * i + 1) + 1, 2 * (2 * W + 2 + 3 * i) + 1)].
Definition long : circuit :=
  mkCircuit 0 (map (fun i => (2 * (2 * W + 2 + 3 * i + 2), 0)) (bits width) ++ [(long_pre W, 0)])
    [] [2 * (5 * W + 2)] []
    (map long_pre_gate (bits width) ++ flat_map long_bit_next (bits width) ++ [conj_gate (2 * (W + 1)) (long_pre W)]).

Lemma long_bit_next_nth l j k i : nth_error l j = Some i -> (k < 3)%nat ->
  nth_error (flat_map long_bit_next l) (3 * j + k) = nth_error (long_bit_next i) k.
Proof.
  revert j. induction l as [|x l IH]; intros j Hj Hk; [destruct j; discriminate|].
  destruct j as [|j]; cbn [flat_map].
  - injection Hj as ->. rewrite nth_error_app1 by (cbn; lia). f_equal.
  - cbn [nth_error] in Hj. rewrite nth_error_app2 by (cbn; lia). rewrite <- (IH j Hj Hk). f_equal. cbn [length long_bit_next]. lia.
Qed.

Lemma long_bit_next_length l : length (flat_map long_bit_next l) = (3 * length l)%nat.
Proof. induction l as [|x l IH]; auto. cbn [flat_map]. rewrite app_length, IH. cbn [length long_bit_next]. lia. Qed.

Lemma long_latches : lenN (c_latches long) = W + 1.
Proof. unfold lenN. cbn [c_latches long]. rewrite app_length, map_length, bits_length. cbn [length]. lia. Qed.

Lemma long_max : c_max long = 5 * W + 2.
Proof.
  unfold c_max. rewrite long_latches. unfold lenN. cbn [c_ands long c_inputs].
  rewrite !app_length, map_length, long_bit_next_length, bits_length. cbn [length]. lia.
Qed.

Lemma long_pre_in i : i < W -> gate long (W + 2 + i) (fst (long_pre_gate i)) (snd (long_pre_gate i)).
Proof.
  intros Hi. exists (N.to_nat i). split.
  - cbn [c_ands long]. rewrite nth_error_app1 by (rewrite map_length, bits_length; lia).
    rewrite nth_error_map, bits_nth by lia. rewrite N2Nat.id. reflexivity.
  - unfold gate_var. rewrite long_latches. cbn [c_inputs long]. lia.
Qed.

Lemma long_next_in i k r0 r1 : i < W -> (k < 3)%nat -> nth_error (long_bit_next i) k = Some (r0, r1) ->
  gate long (2 * W + 2 + 3 * i + N.of_nat k) r0 r1.
Proof.
  intros Hi Hk H. exists (width + (3 * N.to_nat i + k))%nat. split.
  - cbn [c_ands long]. rewrite nth_error_app2 by (rewrite map_length, bits_length; lia).
    rewrite map_length, bits_length.
    replace (width + (3 * N.to_nat i + k) - width)%nat with (3 * N.to_nat i + k)%nat by lia.
    rewrite nth_error_app1 by (rewrite long_bit_next_length, bits_length; lia).
    rewrite (long_bit_next_nth (bits width) (N.to_nat i) k i); auto. rewrite bits_nth by lia. f_equal. lia.
  - unfold gate_var. rewrite long_latches. cbn [c_inputs long]. lia.
Qed.

Lemma long_last_in : gate long (5 * W + 2) (fst (conj_gate (2 * (W + 1)) (long_pre W))) (snd (conj_gate (2 * (W + 1)) (long_pre W))).
Proof.
  exists (width + 3 * width)%nat. split.
  - cbn [c_ands long]. rewrite nth_error_app2 by (rewrite map_length, bits_length; lia).
    rewrite map_length, bits_length. rewrite nth_error_app2 by (rewrite long_bit_next_length, bits_length; lia).
    rewrite long_bit_next_length, bits_length. replace (width + 3 * width - width - 3 * width)%nat with 0%nat by lia. reflexivity.
  - unfold gate_var. rewrite long_latches. cbn [c_inputs long]. lia.
Qed.

Lemma long_gate_of v r0 r1 : gate long v r0 r1 ->
  (exists i, i < W /\ v = W + 2 + i /\ (r0, r1) = long_pre_gate i) \/
  (exists i k, i < W /\ (k < 3)%nat /\ v = 2 * W + 2 + 3 * i + N.of_nat k /\ nth_error (long_bit_next i) k = Some (r0, r1)) \/
  (v = 5 * W + 2 /\ (r0, r1) = conj_gate (2 * (W + 1)) (long_pre W)).
Proof.
  intros (j & Hj & ->). unfold gate_var. rewrite long_latches. cbn [c_inputs long].
  cbn [c_ands long] in Hj.
  destruct (Nat.lt_ge_cases j width) as [L|L].
  { left. rewrite nth_error_app1 in Hj by (rewrite map_length, bits_length; lia).
    rewrite nth_error_map, bits_nth in Hj by lia. exists (N.of_nat j). split; [lia|]. split; [lia|].
    cbn [option_map] in Hj. congruence. }
  right. rewrite nth_error_app2 in Hj by (rewrite map_length, bits_length; lia). rewrite map_length, bits_length in Hj.
  destruct (Nat.lt_ge_cases (j - width) (3 * width)) as [L'|L'].
  - left. rewrite nth_error_app1 in Hj by (rewrite long_bit_next_length, bits_length; lia).
    pose proof (Nat.div_mod (j - width) 3 ltac:(lia)) as D. pose proof (Nat.mod_upper_bound (j - width) 3 ltac:(lia)) as B.
    set (q := ((j - width) / 3)%nat) in *. set (k := ((j - width) mod 3)%nat) in *. clearbody q k.
    exists (N.of_nat q), k. split; [lia|]. split; [exact B|]. split; [lia|].
    rewrite <- Hj, D. symmetry. apply long_bit_next_nth; auto. apply bits_nth. lia.
  - right. rewrite nth_error_app2 in Hj by (rewrite long_bit_next_length, bits_length; lia).
    rewrite long_bit_next_length, bits_length in Hj.
    destruct (j - width - 3 * width)%nat as [|n] eqn:E; [|destruct n; discriminate].
    cbn [nth_error] in Hj. split; [lia|]. congruence.
Qed.

Lemma long_bit_latch i : i < W -> latch long (i + 1) (2 * (2 * W + 2 + 3 * i + 2)) 0.
Proof.
  intros Hi. exists (N.to_nat i). split.
  - cbn [c_latches long]. rewrite nth_error_app1 by (rewrite map_length, bits_length; lia).
    rewrite nth_error_map, bits_nth by lia. rewrite N2Nat.id. reflexivity.
  - unfold latch_var. cbn [c_inputs long]. lia.
Qed.

Lemma long_full_latch : latch long (W + 1) (long_pre W) 0.
Proof.
  exists width. split.
  - cbn [c_latches long]. rewrite nth_error_app2 by (rewrite map_length, bits_length; lia).
    rewrite map_length, bits_length, Nat.sub_diag. reflexivity.
  - unfold latch_var. cbn [c_inputs long]. lia.
Qed.

Lemma long_latch_of v nx r : latch long v nx r -> r = 0 /\
  ((exists i, i < W /\ v = i + 1 /\ nx = 2 * (2 * W + 2 + 3 * i + 2)) \/ (v = W + 1 /\ nx = long_pre W)).
Proof.
  intros (j & Hj & ->). unfold latch_var. cbn [c_inputs long c_latches] in *.
  destruct (Nat.lt_ge_cases j width) as [L|L].
  { rewrite nth_error_app1 in Hj by (rewrite map_length, bits_length; lia).
    rewrite nth_error_map, bits_nth in Hj by lia. injection Hj as <- <-. split; auto.
    left. exists (N.of_nat j). split; [lia|]. split; [lia|reflexivity]. }
  rewrite nth_error_app2 in Hj by (rewrite map_length, bits_length; lia). rewrite map_length, bits_length in Hj.
  destruct (j - width)%nat as [|n] eqn:E; cbn in Hj; [|destruct n; discriminate].
  injection Hj as <- <-. split; auto. right. split; [lia|reflexivity].
Qed.

Lemma long_is_latch v : is_latch long v <-> 1 <= v <= W + 1.
Proof.
  split.
  - intros (nx & r & L). destruct (long_latch_of _ _ _ L) as (_ & [(i & Hi & -> & _)|(-> & _)]); lia.
  - intros H. destruct (N.lt_ge_cases v (W + 1)).
    + pose proof (long_bit_latch (v - 1) ltac:(lia)) as L. replace (v - 1 + 1) with v in L by lia.
      eexists. eexists. exact L.
    + replace v with (W + 1) by lia. eexists. eexists. apply long_full_latch.
Qed.

Lemma long_pre_below i : long_pre i < 2 * (W + 2 + i).
Proof. unfold long_pre. destruct (N.eqb_spec i 0); lia. Qed.

Lemma long_wf : circuit_wf long.
Proof.
  pose proof (long_pre_below W) as BW.
  split; [|split; [constructor|split; [|split; [constructor|]]]].
  - intros v nx r L. destruct (long_latch_of _ _ _ L) as (-> & H). split; auto.
    unfold lit_in_range, lit_var. rewrite long_max. destruct H as [(i & Hi & -> & ->)|(-> & ->)]; lia.
  - constructor; [|constructor]. unfold lit_in_range, lit_var. rewrite long_max. lia.
  - intros v r0 r1 G. destruct (long_gate_of _ _ _ G) as [(i & Hi & -> & E)|[(i & k & Hi & Hk & -> & E)|(-> & E)]].
    + injection E as -> ->. pose proof (long_pre_below i). lia.
    + pose proof (long_pre_below i) as B. pose proof (long_pre_below (i + 1)) as B'.
      pose proof (flip_below _ _ B) as F. pose proof (flip_below _ _ BW) as F'.
      destruct k as [|[|[|k]]]; [..|lia]; cbn in E; injection E as <- <-; lia.
    + injection E as -> ->. lia.
Qed.

Lemma long_numbering : 10 * W + 6 <= 2147483647 -> numbering_fits long false.
Proof.
  intros H. split; [rewrite long_max; lia|]. unfold bad_literals. cbn [app]. rewrite app_nil_r.
  change (c_bad long) with [2 * (5 * W + 2)]. constructor; [|constructor]. unfold lit_var. lia.
Qed.

Lemma long_system b : 10 * W + 6 <= 2147483647 -> exists s, system_of b long false s.
Proof.
  intros H. assert (F : circuit_fits long) by (unfold circuit_fits; rewrite long_max; lia).
  destruct (from_aig_accepts b (fun l => l) (graph long) long false (graph_represents _) long_wf F
    id_order eq_refl (long_numbering H)) as (s & E).
  exists s, (fun l => l), (graph long). split; [apply graph_represents|]. split; [exact long_wf|].
  split; [exact F|]. split; [exact id_order|exact E].
Qed.

(* ----------------------------------------------------------------- behaviour *)

Lemma long_pre_0 w : wires_ok long w -> lit_value w (long_pre 0) = true.
Proof. intros (H & _). change (long_pre 0) with 1. unfold lit_value. change (lit_var 1) with 0. rewrite H. reflexivity. Qed.

Lemma long_pre_succ w i : lit_value w (long_pre (i + 1)) = w (W + 2 + i).
Proof. unfold long_pre. destruct (N.eqb_spec (i + 1) 0); [lia|]. rewrite lit_value_even. f_equal. lia. Qed.

Lemma long_pre_step w i : wires_ok long w -> i < W -> lit_value w (long_pre (i + 1)) = lit_value w (long_pre i) && w (i + 1).
Proof.
  intros (_ & Hw) Hi. rewrite long_pre_succ. rewrite (Hw _ _ _ (long_pre_in i Hi)). unfold long_pre_gate, conj_gate. cbn [fst snd].
  rewrite lit_value_pair, lit_value_even. reflexivity.
Qed.

Lemma long_pre_full w k : wires_ok long w -> (k <= width)%nat ->
  lit_value w (long_pre (N.of_nat k)) = (value w k =? 2 ^ N.of_nat k - 1).
Proof.
  intros Hw. induction k as [|k IH]; intros Hk.
  - change (N.of_nat 0) with 0. rewrite long_pre_0 by exact Hw. reflexivity.
  - replace (N.of_nat (S k)) with (N.of_nat k + 1) at 1 by lia. rewrite long_pre_step by (auto; lia). rewrite IH by lia.
    rewrite pow_succ. cbn [value]. pose proof (value_bound w k) as B. pose proof (pow_pos (N.of_nat k)) as P.
    destruct (w (N.of_nat k + 1)).
    + rewrite andb_true_r. apply eq_true_iff_eq. rewrite !N.eqb_eq. lia.
    + rewrite andb_false_r. symmetry. apply N.eqb_neq. lia.
Qed.

Lemma long_all w : wires_ok long w -> lit_value w (long_pre W) = (count_of width w =? top width).
Proof. intros Hw. apply long_pre_full; auto. Qed.

Lemma long_next_bit w w' i : wires_ok long w -> step_values long w w' -> i < W ->
  w' (i + 1) = (lit_value w (long_pre i) || w (i + 1)) && (negb (lit_value w (long_pre (i + 1))) || lit_value w (long_pre W)).
Proof.
  intros (_ & Hw) Hs Hi. rewrite (Hs _ _ _ (long_bit_latch i Hi)), lit_value_even.
  pose proof (Hw _ _ _ (long_next_in i 0 _ _ Hi ltac:(lia) eq_refl)) as G0.
  pose proof (Hw _ _ _ (long_next_in i 1 _ _ Hi ltac:(lia) eq_refl)) as G1.
  pose proof (Hw _ _ _ (long_next_in i 2 _ _ Hi ltac:(lia) eq_refl)) as G2.
  rewrite lit_value_pair, lit_value_odd, lit_value_flip in G0. rewrite lit_value_pair, lit_value_flip in G1.
  rewrite !lit_value_odd in G2. change (N.of_nat 0) with 0 in G0. change (N.of_nat 1) with 1 in G1.
  change (N.of_nat 2) with 2 in G2. rewrite N.add_0_r in G0. rewrite G2, G1, G0.
  destruct (lit_value w (long_pre i)), (w (i + 1)), (lit_value w (long_pre (i + 1))), (lit_value w (long_pre W)); reflexivity.
Qed.

Lemma long_counts w w' : wires_ok long w -> step_values long w w' ->
  count_of width w' = if count_of width w =? top width then top width else count_of width w + 1.
Proof.
  intros Hw Hs. rewrite <- long_all by exact Hw. destruct (lit_value w (long_pre W)) eqn:E.
  - assert (X : forall k, (k <= width)%nat -> value w' k = 2 ^ N.of_nat k - 1); [|apply X; auto].
    assert (V : forall k, (k <= width)%nat -> value w k = 2 ^ N.of_nat k - 1).
    { rewrite long_all in E by exact Hw. apply N.eqb_eq in E. unfold count_of, top in E.
      assert (Y : forall d k, (k + d = width)%nat -> value w k = 2 ^ N.of_nat k - 1);
        [|intros k Hk; apply (Y (width - k)%nat); lia].
      induction d as [|d IH]; intros k Hk; [replace k with width by lia; exact E|].
      specialize (IH (S k) ltac:(lia)). rewrite pow_succ in IH. cbn [value] in IH.
      pose proof (value_bound w k). pose proof (pow_pos (N.of_nat k)). destruct (w (N.of_nat k + 1)); lia. }
    induction k as [|k IH]; intros Hk; [reflexivity|]. rewrite pow_succ. cbn [value]. rewrite IH by lia.
    rewrite (long_next_bit w w' (N.of_nat k) Hw Hs) by lia. rewrite E, long_pre_full by (auto; lia). rewrite V by lia.
    rewrite N.eqb_refl. cbn [orb andb]. rewrite orb_true_r. pose proof (pow_pos (N.of_nat k)). lia.
  - assert (X : forall k, (k <= width)%nat ->
      value w' k + 2 ^ N.of_nat k * (if lit_value w (long_pre (N.of_nat k)) then 1 else 0) = value w k + 1).
    { induction k as [|k IH]; intros Hk.
      - change (N.of_nat 0) with 0. rewrite long_pre_0 by exact Hw. reflexivity.
      - specialize (IH ltac:(lia)). rewrite pow_succ. cbn [value].
        rewrite (long_next_bit w w' (N.of_nat k) Hw Hs) by lia. replace (N.of_nat (S k)) with (N.of_nat k + 1) by lia.
        rewrite long_pre_step by (auto; lia). rewrite E.
        destruct (lit_value w (long_pre (N.of_nat k))), (w (N.of_nat k + 1)); cbn [orb andb negb]; lia. }
    specialize (X width (le_n _)). rewrite E in X. unfold count_of. lia.
Qed.

Lemma long_full w w' : wires_ok long w -> step_values long w w' -> w' (W + 1) = (count_of width w =? top width).
Proof. intros Hw Hs. rewrite (Hs _ _ _ long_full_latch). apply long_all; auto. Qed.

Lemma long_bad w : wires_ok long w -> (is_bad long false w <-> w (W + 1) = true /\ count_of width w = top width).
Proof.
  intros Hw. unfold is_bad, bad_literals. cbn [app]. rewrite app_nil_r. change (c_bad long) with [2 * (5 * W + 2)].
  assert (E : lit_value w (2 * (5 * W + 2)) = w (W + 1) && (count_of width w =? top width)).
  { rewrite lit_value_even. rewrite (proj2 Hw _ _ _ long_last_in).
    unfold conj_gate. cbn [fst snd]. rewrite lit_value_pair, lit_value_even, long_all by exact Hw. auto using andb_comm. }
  rewrite <- N.eqb_eq, <- andb_true_iff, <- E. split.
  - intros (l & [<-|[]] & H). exact H.
  - intros H. eexists. split; [left; reflexivity|exact H].
Qed.

(** A state with given count and delayed signal. *)
Definition long_state (x : N) (a : bool) : valuation :=
  ev long (fun v => if v =? W + 1 then a else N.testbit x (v - 1)).

Lemma long_state_wires x a : wires_ok long (long_state x a).
Proof. apply ev_wires_ok, long_wf. Qed.

Lemma long_state_count x a : x <= top width -> count_of width (long_state x a) = x.
Proof.
  intros Hx. unfold count_of. apply bits_value.
  - intros i Hi. unfold long_state. rewrite ev_src by (right; left; apply long_is_latch; lia).
    destruct (N.eqb_spec (N.of_nat i + 1) (W + 1)); [lia|]. f_equal. lia.
  - unfold top in Hx. pose proof (pow_pos W). lia.
Qed.

Lemma long_state_full x a : long_state x a (W + 1) = a.
Proof. unfold long_state. rewrite ev_src by (right; left; apply long_is_latch; lia). rewrite N.eqb_refl. reflexivity. Qed.

Lemma long_same w w' : same_latches long w w' <-> count_of width w = count_of width w' /\ w (W + 1) = w' (W + 1).
Proof.
  split.
  - intros H. split; [|apply H, long_is_latch; lia]. unfold count_of. apply bits_value; [|apply value_bound].
    intros i Hi. rewrite value_bits by exact Hi. apply H, long_is_latch. lia.
  - intros (H1 & H2) v Hv. apply long_is_latch in Hv.
    destruct (N.eq_dec v (W + 1)) as [->|]; auto.
    replace v with (v - 1 + 1) by lia. rewrite <- !(count_bits width) by lia. rewrite H1. reflexivity.
Qed.

Lemma long_initial w : initial_values long w <-> count_of width w = 0 /\ w (W + 1) = false.
Proof.
  split.
  - intros H. split.
    + unfold count_of. apply bits_value; [|pose proof (pow_pos W); lia]. intros i Hi. rewrite N.bits_0.
      apply (H _ _ _ (long_bit_latch (N.of_nat i) ltac:(lia))). reflexivity.
    + apply (H _ _ _ long_full_latch). reflexivity.
  - intros (H1 & H2) v nx r L. destruct (long_latch_of _ _ _ L) as (-> & D). split; [intros _|discriminate].
    destruct D as [(i & Hi & -> & _)|(-> & _)]; auto. rewrite <- (count_bits width), H1 by exact Hi. apply N.bits_0.
Qed.

(** Every state has a successor. *)
Lemma long_succ x a : x <= top width ->
  step_values long (long_state x a) (long_state (if x =? top width then top width else x + 1) (x =? top width)).
Proof.
  intros Hx. set (w := long_state x a).
  assert (Hy : (if x =? top width then top width else x + 1) <= top width) by (destruct (N.eqb_spec x (top width)); lia).
  set (w0 := ev long (fun v => match nth_error (c_latches long) (N.to_nat (v - 1)) with
                          | Some (nx, _) => lit_value w nx | None => false end)).
  assert (S0 : step_values long w w0).
  { intros v nx r L. unfold w0. rewrite ev_src by (right; left; exists nx, r; exact L).
    destruct L as (j & Hj & ->). unfold latch_var. cbn [c_inputs long].
    replace (N.to_nat (0 + 1 + N.of_nat j - 1)) with j by lia. cbn [c_latches long] in Hj |- *. rewrite Hj. reflexivity. }
  pose proof (long_counts w w0 (long_state_wires _ _) S0) as C. pose proof (long_full w w0 (long_state_wires _ _) S0) as F.
  unfold w in C, F. rewrite ?long_state_count in C, F by exact Hx.
  intros v nx r Lv. rewrite <- (S0 v nx r Lv). apply long_same; [|exists nx, r; exact Lv].
  rewrite long_state_count, long_state_full by exact Hy. auto.
Qed.

Lemma long_unsafe : exists w t, run long w /\ is_bad long false (w t).
Proof.
  set (w0 := long_state 0 false).
  assert (Hr : exists w, run long w).
  { destruct (extend_path long (fun _ => w0) 0 long_wf) as (w & Hw & _); [..|exists w; exact Hw].
    - split; [intros t _; apply long_state_wires|]. intros t Ht. lia.
    - apply long_initial. unfold w0. rewrite long_state_count, long_state_full by lia. auto. }
  destruct Hr as (w & H1 & H2 & H3).
  assert (X : forall t, N.of_nat t <= top width -> count_of width (w t) = N.of_nat t).
  { induction t as [|t IH]; intros Ht.
    - apply long_initial in H2. apply H2.
    - rewrite (long_counts _ _ (H1 t) (H3 t)), IH by lia. destruct (N.eqb_spec (N.of_nat t) (top width)); lia. }
  exists w, (S (N.to_nat (top width))). split; [split; auto|]. apply long_bad; auto.
  assert (E : count_of width (w (N.to_nat (top width))) = top width) by (rewrite X; lia).
  rewrite (long_full _ _ (H1 _) (H3 _)), (long_counts _ _ (H1 _) (H3 _)), E.
  rewrite !N.eqb_refl. auto.
Qed.

Lemma long_read : bad_latches_read long false.
Proof.
  intros l Hl Hv. exfalso. apply long_is_latch in Hv. unfold bad_literals in Hl. cbn [app] in Hl. rewrite app_nil_r in Hl.
  destruct Hl as [<-|[]]. unfold lit_var in Hv. lia.
Qed.

Lemma long_readable : states_readable long false.
Proof.
  right. right. left. exists (2 * (5 * W + 2)). split; [left; reflexivity|].
  eexists _, _. replace (lit_var (2 * (5 * W + 2))) with (5 * W + 2) by (unfold lit_var; lia). exact long_last_in.
Qed.

End Long.
