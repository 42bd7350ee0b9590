(** Counters of any width: circuits with [n] latches whose shortest counterexample has
    [2 ^ n - 1] steps. *)
From Verif Require Import Base Formulas Aig AigParse Fsts Spec SpecAig SpecAiger SpecFsts SpecAlg Tac AigFacts
  AigThms ParseFacts FstsThms BmcThms ConeThms.
Open Scope N_scope.

Section Counter.
Variable width : nat.
Notation W := (N.of_nat width).

(** The literal that is true if the bits below [i] are all set. *)
Definition carry (i : N) : N := if i =? 0 then 1 else 2 * (W + 1 + 3 * (i - 1)).
Definition bit_gates (i : N) : list (N * N) :=
  let bit := 2 * (i + 1) in
  [(N.max (carry i) bit, N.min (carry i) bit);
   (N.max (N.lxor (carry i) 1) (bit + 1), N.min (N.lxor (carry i) 1) (bit + 1));
   (2 * (W + 1 + 3 * i + 1) + 1, 2 * (W + 1 + 3 * i) + 1)].
Definition bits : list N := map N.of_nat (seq 0 width).
(** Counts the clocks; bad when all bits are set. *)
Definition counter : circuit :=
  mkCircuit 0 (map (fun i => (2 * (W + 1 + 3 * i + 2), 0)) bits) [] [carry W] [] (flat_map bit_gates bits).

Definition bit_ok (w : valuation) (i : N) : Prop :=
  w (W + 1 + 3 * i) = lit_value w (carry i) && w (i + 1) /\
  w (W + 1 + 3 * i + 2) = xorb (lit_value w (carry i)) (w (i + 1)).

Lemma bits_nth j : (j < width)%nat -> nth_error bits j = Some (N.of_nat j).
Proof.
  intros H. unfold bits. rewrite nth_error_map. replace (nth_error (seq 0 width) j) with (Some j); [reflexivity|].
  symmetry. rewrite (nth_error_nth' _ 0%nat) by (rewrite seq_length; auto). rewrite seq_nth; auto.
Qed.

Lemma bits_length : length bits = width.
Proof. unfold bits. rewrite map_length, seq_length. reflexivity. Qed.

Lemma bits_in i : In i bits -> i < W.
Proof. intros H. apply in_map_iff in H. destruct H as (j & <- & H). apply in_seq in H. lia. Qed.

Lemma flat_nth l j k i : nth_error l j = Some i -> (k < 3)%nat ->
  nth_error (flat_map bit_gates l) (3 * j + k) = nth_error (bit_gates i) k.
Proof.
  revert j. induction l as [|x l IH]; intros j Hj Hk; [destruct j; discriminate|].
  destruct j as [|j]; cbn [flat_map].
  - injection Hj as ->. rewrite nth_error_app1 by (cbn; lia). f_equal.
  - cbn [nth_error] in Hj. rewrite nth_error_app2 by (cbn; lia). rewrite <- (IH j Hj Hk). f_equal. cbn [length bit_gates]. lia.
Qed.

Lemma flat_length l : length (flat_map bit_gates l) = (3 * length l)%nat.
Proof. induction l as [|x l IH]; auto. cbn [flat_map]. rewrite app_length, IH. cbn [length bit_gates]. lia. Qed.

Lemma counter_latches : lenN (c_latches counter) = W.
Proof. unfold lenN. cbn [c_latches counter]. rewrite map_length, bits_length. reflexivity. Qed.

Lemma counter_max : c_max counter = 4 * W.
Proof.
  unfold c_max. rewrite counter_latches. unfold lenN. cbn [c_ands counter c_inputs]. rewrite flat_length, bits_length. lia.
Qed.

Lemma counter_gate i k r0 r1 : i < W -> (k < 3)%nat -> nth_error (bit_gates i) k = Some (r0, r1) ->
  gate counter (W + 1 + 3 * i + N.of_nat k) r0 r1.
Proof.
  intros Hi Hk H. exists (3 * N.to_nat i + k)%nat. split.
  - cbn [c_ands counter]. rewrite (flat_nth bits (N.to_nat i) k i); auto.
    rewrite bits_nth by lia. f_equal. lia.
  - unfold gate_var. rewrite counter_latches. cbn [c_inputs counter]. lia.
Qed.

Lemma gate_of v r0 r1 : gate counter v r0 r1 ->
  exists i k, i < W /\ (k < 3)%nat /\ v = W + 1 + 3 * i + N.of_nat k /\ nth_error (bit_gates i) k = Some (r0, r1).
Proof.
  intros (j & Hj & ->). unfold gate_var. rewrite counter_latches. cbn [c_inputs counter].
  assert (L : (j < 3 * width)%nat).
  { assert (X : nth_error (c_ands counter) j <> None) by congruence. apply nth_error_Some in X.
    cbn [c_ands counter] in X. rewrite flat_length, bits_length in X. exact X. }
  pose proof (Nat.div_mod j 3 ltac:(lia)) as D. pose proof (Nat.mod_upper_bound j 3 ltac:(lia)) as B.
  set (q := (j / 3)%nat) in *. set (k := (j mod 3)%nat) in *. clearbody q k.
  exists (N.of_nat q), k. split; [lia|]. split; [exact B|]. split; [lia|].
  rewrite <- Hj. cbn [c_ands counter]. rewrite D. symmetry. apply flat_nth; auto. apply bits_nth. lia.
Qed.

Lemma counter_latch i : i < W -> latch counter (i + 1) (2 * (W + 1 + 3 * i + 2)) 0.
Proof.
  intros Hi. exists (N.to_nat i). split.
  - cbn [c_latches counter]. rewrite nth_error_map, bits_nth by lia. cbn. rewrite N2Nat.id. reflexivity.
  - unfold latch_var. cbn [c_inputs counter]. lia.
Qed.

Lemma latch_of v nx r : latch counter v nx r -> exists i, i < W /\ v = i + 1 /\ nx = 2 * (W + 1 + 3 * i + 2) /\ r = 0.
Proof.
  intros (j & Hj & ->). unfold latch_var. cbn [c_inputs counter c_latches] in *.
  rewrite nth_error_map in Hj. destruct (nth_error bits j) as [i|] eqn:E; [|discriminate].
  assert (L : (j < width)%nat).
  { assert (X : nth_error bits j <> None) by congruence. apply nth_error_Some in X. rewrite bits_length in X. exact X. }
  rewrite bits_nth in E by exact L. injection E as <-. injection Hj as <- <-. exists (N.of_nat j). repeat split; lia.
Qed.

Lemma lit_value_pair w x y : lit_value w (N.max x y) && lit_value w (N.min x y) = lit_value w x && lit_value w y.
Proof.
  destruct (N.le_ge_cases x y).
  - rewrite N.max_r, N.min_l by auto. apply andb_comm.
  - rewrite N.max_l, N.min_r by auto. reflexivity.
Qed.

Lemma lit_value_even w v : lit_value w (2 * v) = w v.
Proof.
  unfold lit_value, lit_var, lit_neg. replace (2 * v / 2) with v by lia.
  replace (N.odd (2 * v)) with false by (destruct v; reflexivity). apply xorb_false_r.
Qed.

Lemma lit_value_odd w v : lit_value w (2 * v + 1) = negb (w v).
Proof.
  unfold lit_value, lit_var, lit_neg. replace ((2 * v + 1) / 2) with v by lia.
  replace (N.odd (2 * v + 1)) with true by (destruct v; reflexivity). apply xorb_true_r.
Qed.

Lemma flip_cases l : exists v, (l = 2 * v /\ N.lxor l 1 = 2 * v + 1) \/ (l = 2 * v + 1 /\ N.lxor l 1 = 2 * v).
Proof.
  exists (l / 2). assert (H : l = 2 * (l / 2) \/ l = 2 * (l / 2) + 1) by lia. set (v := l / 2) in *. clearbody v.
  destruct H as [-> | ->]; [left|right]; (split; [reflexivity|destruct v; reflexivity]).
Qed.

Lemma lit_value_flip w l : lit_value w (N.lxor l 1) = negb (lit_value w l).
Proof.
  destruct (flip_cases l) as (v & [(-> & ->)|(-> & ->)]); rewrite lit_value_even, lit_value_odd; auto.
  symmetry. apply negb_involutive.
Qed.

Lemma counter_bits w : wires_ok counter w -> forall i, i < W -> bit_ok w i.
Proof.
  intros (_ & Hw) i Hi.
  pose proof (Hw _ _ _ (counter_gate i 0 _ _ Hi ltac:(lia) eq_refl)) as G0.
  pose proof (Hw _ _ _ (counter_gate i 1 _ _ Hi ltac:(lia) eq_refl)) as G1.
  pose proof (Hw _ _ _ (counter_gate i 2 _ _ Hi ltac:(lia) eq_refl)) as G2.
  rewrite lit_value_pair, lit_value_even in G0. rewrite lit_value_pair, lit_value_odd, lit_value_flip in G1.
  rewrite !lit_value_odd in G2. change (N.of_nat 0) with 0 in G0. change (N.of_nat 1) with 1 in G1.
  change (N.of_nat 2) with 2 in G2. rewrite N.add_0_r in G0.
  split; [exact G0|]. rewrite G2, G1, G0. destruct (lit_value w (carry i)), (w (i + 1)); reflexivity.
Qed.

Lemma carry_next w i : lit_value w (carry (N.succ i)) = w (W + 1 + 3 * i).
Proof.
  unfold carry. destruct (N.eqb_spec (N.succ i) 0); [lia|]. rewrite lit_value_even. f_equal. lia.
Qed.

(** The number in the first [k] latches. *)
Fixpoint value (w : valuation) (k : nat) : N :=
  match k with
  | O => 0
  | S k => value w k + 2 ^ N.of_nat k * (if w (N.of_nat k + 1) then 1 else 0)
  end.

Lemma pow_succ k : 2 ^ N.of_nat (S k) = 2 * 2 ^ N.of_nat k.
Proof. rewrite Nat2N.inj_succ, N.pow_succ_r'. reflexivity. Qed.

Lemma value_bound w k : value w k < 2 ^ N.of_nat k.
Proof.
  induction k as [|k IH]; [reflexivity|]. rewrite pow_succ. cbn [value]. destruct (w (N.of_nat k + 1)); lia.
Qed.

Lemma value_step w w' : wires_ok counter w -> step_values counter w w' -> forall k, (k <= width)%nat ->
  value w' k + 2 ^ N.of_nat k * (if lit_value w (carry (N.of_nat k)) then 1 else 0) = value w k + 1.
Proof.
  intros Hw Hs. induction k as [|k IH]; intros Hk.
  - change (carry (N.of_nat 0)) with 1. unfold lit_value. change (lit_var 1) with 0. rewrite (proj1 Hw). reflexivity.
  - specialize (IH ltac:(lia)). rewrite pow_succ. cbn [value].
    destruct (counter_bits w Hw (N.of_nat k) ltac:(lia)) as (B1 & B2).
    rewrite (Hs _ _ _ (counter_latch (N.of_nat k) ltac:(lia))), lit_value_even, B2.
    rewrite Nat2N.inj_succ, carry_next, B1.
    destruct (lit_value w (carry (N.of_nat k))), (w (N.of_nat k + 1)); cbn [xorb andb]; lia.
Qed.

Lemma value_init w : initial_values counter w -> forall k, (k <= width)%nat -> value w k = 0.
Proof.
  intros H. induction k as [|k IH]; intros Hk; cbn [value]; auto. rewrite IH by lia.
  destruct (H _ _ _ (counter_latch (N.of_nat k) ltac:(lia))) as (E & _). rewrite (E eq_refl). lia.
Qed.

Lemma counter_bad w : is_bad counter false w <-> lit_value w (carry W) = true.
Proof.
  unfold is_bad, bad_literals. cbn [app]. rewrite app_nil_r. change (c_bad counter) with [carry W].
  split; [intros (l & [<-|[]] & H); auto|]. intros H. exists (carry W). split; [left|]; auto.
Qed.

Lemma counter_carry w w' : wires_ok counter w -> step_values counter w w' ->
  if lit_value w (carry W) then value w width + 1 = 2 ^ W else value w' width = value w width + 1.
Proof.
  intros Hw Hs. pose proof (value_step w w' Hw Hs width (le_n _)) as H.
  pose proof (value_bound w width) as B. destruct (lit_value w (carry W)); lia.
Qed.

Lemma counter_counts w : run counter w -> forall t, N.of_nat t < 2 ^ W -> value (w t) width = N.of_nat t.
Proof.
  intros (H1 & H2 & H3). induction t as [|t IH]; intros Ht.
  - rewrite value_init; auto.
  - specialize (IH ltac:(lia)). pose proof (counter_carry _ _ (H1 t) (H3 t)) as C.
    destruct (lit_value (w t) (carry W)); lia.
Qed.

Lemma counter_bad_at w t : run counter w -> N.of_nat t < 2 ^ W ->
  (is_bad counter false (w t) <-> N.of_nat t + 1 = 2 ^ W).
Proof.
  intros Hr Ht. pose proof (counter_counts w Hr t Ht) as E. rewrite counter_bad.
  destruct Hr as (H1 & H2 & H3). pose proof (counter_carry _ _ (H1 t) (H3 t)) as C.
  pose proof (value_bound (w (S t)) width) as B.
  destruct (lit_value (w t) (carry W)); split; intros X; try discriminate; auto; lia.
Qed.

Lemma carry_below i : carry i < 2 * (W + 1 + 3 * i).
Proof. unfold carry. destruct (N.eqb_spec i 0); lia. Qed.

Lemma counter_wf : circuit_wf counter.
Proof.
  split; [|split; [constructor|split; [|split; [constructor|]]]].
  - intros v nx r L. destruct (latch_of _ _ _ L) as (i & Hi & -> & -> & ->). split; auto.
    unfold lit_in_range, lit_var. rewrite counter_max. lia.
  - constructor; [|constructor]. unfold lit_in_range, lit_var. rewrite counter_max. pose proof (carry_below W).
    unfold carry in *. destruct (N.eqb_spec W 0); lia.
  - intros v r0 r1 G. destruct (gate_of _ _ _ G) as (i & k & Hi & Hk & -> & E). pose proof (carry_below i) as B.
    destruct (flip_cases (carry i)) as (u & [(E1 & E2)|(E1 & E2)]);
    (destruct k as [|[|[|k]]]; [..|lia]; cbn in E; injection E as <- <-; lia).
Qed.

Lemma counter_run : exists w, run counter w.
Proof.
  set (w0 := ev counter (fun _ => false)).
  destruct (extend_path counter (fun _ => w0) 0 counter_wf) as (w & Hw & _); [..|exists w; exact Hw].
  - split; [intros t _; apply ev_wires_ok, counter_wf|]. intros t Ht. lia.
  - intros v nx r L. unfold w0. rewrite ev_src by (right; left; exists nx, r; exact L).
    split; auto. destruct (latch_of _ _ _ L) as (i & _ & _ & _ & ->). discriminate.
Qed.

Lemma counter_shortest n : N.of_nat n + 1 = 2 ^ W -> shortest counter false n.
Proof.
  intros Hn. split.
  - intros w Hr t Ht Hb. apply (counter_bad_at w t Hr) in Hb; lia.
  - destruct counter_run as (w & Hr). exists w. split; [exact Hr|]. apply (counter_bad_at w n Hr); lia.
Qed.

Lemma counter_numbering : (0 < width)%nat -> 8 * W <= 2147483647 -> numbering_fits counter false.
Proof.
  intros H0 H. split; [rewrite counter_max; lia|]. unfold bad_literals. cbn [app]. rewrite app_nil_r.
  change (c_bad counter) with [carry W]. constructor; [|constructor]. unfold carry, lit_var.
  destruct (N.eqb_spec W 0); lia.
Qed.

Lemma counter_system b : (0 < width)%nat -> 8 * W <= 2147483647 -> exists s, system_of b counter false s.
Proof.
  intros H0 H. assert (F : circuit_fits counter) by (unfold circuit_fits; rewrite counter_max; lia).
  destruct (from_aig_accepts b (fun l => l) (graph counter) counter false (graph_represents _) counter_wf F
    id_order eq_refl (counter_numbering H0 H)) as (s & E).
  exists s, (fun l => l), (graph counter). split; [apply graph_represents|]. split; [exact counter_wf|].
  split; [exact F|]. split; [exact id_order|exact E].
Qed.

End Counter.
