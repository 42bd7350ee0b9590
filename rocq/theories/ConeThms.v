(** The number of latches in the cone of influence of the bad literals bounds the length of a
    shortest counterexample (C59). *)
From Verif Require Import Base Formulas FormulaLogic Aig Fsts Bmc Solvers Spec SpecAig SpecFsts SpecAlg Tac
  FormulasFacts LogicFacts AigFacts SimFacts AigThms FstsFacts FstsSem TagFacts FstsThms BmcThms.
Open Scope nat_scope.

Fixpoint bits (n : nat) : list (list bool) :=
  match n with O => [[]] | S n => map (cons true) (bits n) ++ map (cons false) (bits n) end.

Lemma bits_length n : length (bits n) = 2 ^ n.
Proof. induction n as [|n IH]; auto. cbn [bits Nat.pow]. rewrite app_length, !map_length, IH. lia. Qed.

Lemma bits_all l : In l (bits (length l)).
Proof.
  induction l as [|x l IH]; [left; auto|]. cbn [bits length]. apply in_or_app.
  destruct x; [left|right]; apply in_map; auto.
Qed.

Lemma values_repeat (f : nat -> list bool) n :
  NoDup (map f (seq 0 n)) \/ exists i j, i < j < n /\ f i = f j.
Proof.
  induction n as [|n [IH|(i & j & H & E)]]; [left; constructor| |right; exists i, j; split; auto; lia].
  destruct (in_dec (list_eq_dec Bool.bool_dec) (f n) (map f (seq 0 n))) as [H|H].
  - right. apply in_map_iff in H. destruct H as (i & E & Hi). apply in_seq in Hi. exists i, n. split; auto; lia.
  - left. rewrite seq_S, map_app. cbn [map plus]. apply NoDup_Add with (a := f n) (l := map f (seq 0 n)).
    + rewrite <- (app_nil_r (map f (seq 0 n))) at 1. apply Add_app.
    + auto.
Qed.

(** Among more than [2 ^ length ls] clocks two have the same values of [ls]. *)
Lemma clocks_repeat (w : nat -> valuation) ls n : 2 ^ length ls < n ->
  exists i j, i < j < n /\ forall v, In v ls -> w i v = w j v.
Proof.
  intros H. destruct (values_repeat (fun t => map (w t) ls) n) as [Hn|(i & j & Hij & E)].
  - assert (X : length (map (fun t => map (w t) ls) (seq 0 n)) <= length (bits (length ls))).
    { apply NoDup_incl_length; auto. intros x Hx. apply in_map_iff in Hx. destruct Hx as (t & <- & _).
      replace (length ls) with (length (map (w t) ls)) by apply map_length. apply bits_all. }
    rewrite map_length, seq_length, bits_length in X. lia.
  - exists i, j. split; auto. intros v Hv. clear - E Hv. induction ls as [|u ls IH]; [destruct Hv|].
    cbn [map] in E. injection E as A1 A2. destruct Hv as [<-|Hv]; auto.
Qed.

Lemma bad_in_range c flag l : circuit_wf c -> In l (bad_literals c flag) -> (lit_var l <= c_max c)%N.
Proof.
  intros (_ & Ho & Hb & _) H. rewrite Forall_forall in Ho, Hb. unfold bad_literals in H.
  apply in_app_or in H. destruct H as [H|H]; [apply (Hb l H)|]. destruct flag; [apply (Ho l H)|destruct H].
Qed.

Section Splice.
Variables (c : circuit) (flag : bool) (ls : list N) (w : nat -> valuation) (i j : nat).
Hypothesis (Hwf : circuit_wf c) (Hr : run c w) (Hc : covers_bad c flag ls) (Hij : i < j).
Hypothesis Hsame : forall v, In v ls -> w i v = w j v.

(** The clock of the old run shown at clock [k] of the new one. *)
Let old (k : nat) : nat := if k <? i then k else k + (j - i).

Fixpoint spliced (k : nat) : valuation :=
  match k with
  | O => ev c (fun v => if (v <=? c_inputs c)%N then w (old 0) v else w 0 v)
  | S k' => succ c (spliced k') (w (old k))
  end.

Lemma spliced_run : run c spliced.
Proof.
  split; [|split].
  - intros [|k]; [apply ev_wires_ok; auto|apply succ_wires; auto].
  - intros v nx r L. pose proof (latch_range _ _ _ _ L). cbn [spliced].
    rewrite ev_src by (right; left; exists nx, r; auto).
    destruct (v <=? c_inputs c)%N eqn:E; [lia|]. apply (proj1 (proj2 Hr) _ _ _ L).
  - intros k. apply succ_step.
Qed.

Lemma spliced_inputs k : same_inputs c (spliced k) (w (old k)).
Proof.
  destruct k as [|k]; [|apply succ_inputs]. intros v Hv. cbn [spliced]. rewrite ev_src by auto.
  unfold is_input in Hv. destruct (v <=? c_inputs c)%N eqn:E; [auto|lia].
Qed.

Lemma spliced_wires k :
  (forall v, is_latch c v -> influences c (bad_literals c flag) v -> spliced k v = w (old k) v) ->
  forall v, (v <= c_max c)%N -> influences c (bad_literals c flag) v -> spliced k v = w (old k) v.
Proof.
  intros Hl. apply (well_founded_induction N.lt_wf_0
    (fun v => (v <= c_max c)%N -> influences c (bad_literals c flag) v -> spliced k v = w (old k) v)).
  destruct (proj1 spliced_run k) as (S0 & Sg). destruct (proj1 Hr (old k)) as (W0 & Wg).
  intros v IH Hv Hi. destruct (classify c v Hv) as [->|[Hin|[Hla|(r0 & r1 & G)]]].
  - rewrite S0, W0. auto.
  - apply spliced_inputs; auto.
  - auto.
  - rewrite (Sg _ _ _ G), (Wg _ _ _ G). pose proof (gate_operands _ _ _ _ Hwf G). f_equal; apply lit_value_ext, IH; try lia;
      eapply influences_gate; eauto.
Qed.

Lemma old_0 : old 0 = if i =? 0 then j else 0.
Proof. unfold old. destruct (0 <? i) eqn:E, (i =? 0) eqn:E'; try lia. Qed.
Lemma old_S k : old (S k) = if S k =? i then j else S (old k).
Proof. unfold old. destruct (S k <? i) eqn:E, (k <? i) eqn:E', (S k =? i) eqn:E''; try lia. Qed.

Lemma spliced_same k : forall v, (v <= c_max c)%N -> influences c (bad_literals c flag) v ->
  spliced k v = w (old k) v.
Proof.
  induction k as [|k IH]; apply spliced_wires; intros v (nx & r & L) Hi;
    pose proof (latch_range _ _ _ _ L); pose proof (proj1 (proj1 Hwf _ _ _ L)) as Hnx; unfold lit_in_range in Hnx.
  - cbn [spliced]. rewrite ev_src by (right; left; exists nx, r; auto).
    destruct (v <=? c_inputs c)%N eqn:E; [lia|]. rewrite old_0. destruct (i =? 0) eqn:E0; auto.
    replace 0 with i by lia. apply Hsame, Hc; auto. exists nx, r; auto.
  - assert (X : spliced (S k) v = w (S (old k)) v).
    { rewrite (proj2 (proj2 spliced_run) k _ _ _ L), (proj2 (proj2 Hr) (old k) _ _ _ L).
      apply lit_value_ext, IH; auto. eapply influences_latch; eauto. }
    rewrite X, old_S. destruct (S k =? i) eqn:E; auto. replace (S (old k)) with i.
    + apply Hsame, Hc; auto. exists nx, r; auto.
    + unfold old. destruct (k <? i) eqn:E'; lia.
Qed.

Lemma spliced_bad t : j <= t -> is_bad c flag (w t) -> is_bad c flag (spliced (t - (j - i))).
Proof.
  intros Ht (l & Hl & Hv). exists l. split; auto. rewrite <- Hv. apply lit_value_ext.
  rewrite spliced_same; [|apply (bad_in_range c flag l Hwf Hl)|constructor; auto].
  unfold old. replace (_ <? i) with false by (symmetry; apply Nat.ltb_ge; lia).
  f_equal. lia.
Qed.
End Splice.

(** Every counterexample can be shortened below the number of states of the cone. *)
Lemma short_counterexample c flag ls w t : circuit_wf c -> covers_bad c flag ls -> run c w -> is_bad c flag (w t) ->
  exists w' t', run c w' /\ is_bad c flag (w' t') /\ t' < 2 ^ length ls.
Proof.
  intros Hwf Hc. revert w. induction t as [t IH] using (well_founded_induction Nat.lt_wf_0). intros w Hr Hb.
  destruct (Nat.lt_ge_cases t (2 ^ length ls)) as [H|H]; [exists w, t; auto|].
  destruct (clocks_repeat w ls (S t)) as (i & j & Hij & Hs); [lia|].
  apply (IH (t - (j - i))) with (w := spliced c w i j); [lia|eapply spliced_run; eauto; lia|].
  eapply spliced_bad; eauto; lia.
Qed.

Lemma latches_cover c flag : covers_bad c flag (numbers (c_inputs c + 1) (lenN (c_latches c))).
Proof. intros v Hv _. apply in_states; auto. Qed.

(* ------------------------------------------------------------------------------- C59 *)

Lemma safe_up_to c flag ls n : circuit_wf c -> covers_bad c flag ls -> 2 ^ length ls <= n ->
  safe_before c flag n -> safe c flag.
Proof.
  intros Hwf Hc Hn Hb w Hr t Hw. destruct (short_counterexample c flag ls w t Hwf Hc Hr Hw) as (w' & t' & A & B & C).
  apply (Hb w' A t'); auto. lia.
Qed.

Lemma shortest_bounded c flag ls n : circuit_wf c -> covers_bad c flag ls -> shortest c flag n -> n < 2 ^ length ls.
Proof.
  intros Hwf Hc (Hb & w & Hr & Hw). destruct (Nat.lt_ge_cases n (2 ^ length ls)) as [|H]; auto.
  elim (safe_up_to c flag ls n Hwf Hc H Hb w Hr n Hw).
Qed.

Lemma bmc_noctx_safe m b c flag s T clk limit z ls :
  system_of b c flag s -> well_numbered b c flag -> solver_sound_below m T ->
  (limit < 4294967296)%N -> b = Debug /\ m = 2147483648%N \/ ((limit + 1) * c_max c < m <= 2147483648)%N ->
  bmc_search b T clk s limit = Ok (NoCTX z) ->
  covers_bad c flag ls -> (2 ^ Z.of_nat (length ls) <= z + 1)%Z -> safe c flag.
Proof.
  intros Hs Hw HT Hl Hm E Hc Hz. assert (Hwf : circuit_wf c) by (destruct Hs as (o & a & _ & H & _); exact H).
  destruct (bmc_noctx_sound m b c flag s T clk limit z Hs Hw HT Hl Hm E) as (_ & H).
  apply (safe_up_to c flag ls (2 ^ length ls) Hwf Hc); auto.
  intros w Hr t Ht. apply H; auto. assert (X : Z.of_nat (2 ^ length ls) = (2 ^ Z.of_nat (length ls))%Z); [|lia].
  rewrite Nat2Z.inj_pow. reflexivity.
Qed.

Lemma bmc_decides m b c flag s T clk limit ls :
  system_of b c flag s -> well_numbered b c flag -> solver_correct_below m T ->
  (limit <= 2147483647)%N -> ((limit + 1) * c_max c < m <= 2147483648)%N -> never_times_out clk ->
  covers_bad c flag ls -> (2 ^ lenN ls <= limit + 1)%N ->
  (bmc_search b T clk s limit = Ok (NoCTX (Z.of_N limit)) <-> safe c flag) /\
  ((exists asg d, bmc_search b T clk s limit = Ok (CTX asg d) /\ (d < 2 ^ lenN ls)%N) <-> unsafe c flag).
Proof.
  intros Hs Hw HT Hl Hm Hclk Hc Hn. assert (Hwf : circuit_wf c) by (destruct Hs as (o & a & _ & H & _); exact H).
  assert (HT' : solver_sound_below m T) by (apply correct_sound; auto).
  assert (Hl' : (limit < 4294967296)%N) by lia.
  assert (Hp : N.of_nat (2 ^ length ls) = (2 ^ lenN ls)%N) by (rewrite Nat2N.inj_pow; reflexivity).
  destruct (bmc_complete m b c flag s T clk limit Hs Hw HT Hl Hm Hclk) as (H1 & H2).
  split; split.
  - intros E. apply (bmc_noctx_safe m b c flag s T clk limit _ ls Hs Hw HT' Hl' (or_intror Hm) E Hc).
    change 2%Z with (Z.of_N 2). change (Z.of_nat (length ls)) with (Z.of_nat (length ls)).
    rewrite <- nat_N_Z, <- N2Z.inj_pow. unfold lenN in Hn. lia.
  - intros Hsafe. apply H2. intros w t Hr _. apply Hsafe; auto.
  - intros (asg & d & E & _).
    destruct (bmc_ctx_sound m b c flag s T clk limit asg d Hs Hw HT' Hl' (or_intror Hm) E) as (_ & _ & H).
    destruct (H (complete asg)) as (w & Hr & Hb & _); [apply complete_agrees|]. exists w, (N.to_nat d). auto.
  - intros (w & t & Hr & Hb). destruct (short_counterexample c flag ls w t Hwf Hc Hr Hb) as (w' & t' & A & B & C).
    destruct H1 as (asg & d & E); [exists w', t'; split; auto; split; auto; lia|].
    exists asg, d. split; auto.
    destruct (bmc_ctx_sound m b c flag s T clk limit asg d Hs Hw HT' Hl' (or_intror Hm) E) as (_ & Hd & _).
    destruct (N.lt_ge_cases d (2 ^ lenN ls)) as [|X]; auto. elim (Hd w' A t'); auto. lia.
Qed.
