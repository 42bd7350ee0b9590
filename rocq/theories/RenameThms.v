(** Circuits with the same logic behind the bad literals get the same answers (C60). *)
From Verif Require Import Base Formulas FormulaLogic Aig Fsts Bmc Solvers Ic3 Pdr Brute Spec SpecAig SpecFsts SpecAlg
  SpecRename Tac BruteFacts FormulasFacts LogicFacts AigFacts SimFacts AigThms FstsFacts FstsSem FstsThms BmcThms ConeThms SoundThms.
Open Scope N_scope.

Lemma renamed_var f l : lit_var (renamed f l) = f (lit_var l).
Proof. unfold renamed. unfold lit_var at 1. destruct (lit_neg l); lia. Qed.

Lemma renamed_neg f l : lit_neg (renamed f l) = lit_neg l.
Proof.
  unfold renamed. unfold lit_neg at 1. destruct (lit_neg l).
  - rewrite N.add_1_r, N.odd_succ, N.even_mul. reflexivity.
  - rewrite N.add_0_r, N.odd_mul. reflexivity.
Qed.

Lemma renamed_value f l w1 w2 : w2 (f (lit_var l)) = w1 (lit_var l) ->
  lit_value w2 (renamed f l) = lit_value w1 l.
Proof. intros H. unfold lit_value. rewrite renamed_var, renamed_neg, H. auto. Qed.

(* ------------------------------------------------------- the run with given stimulus *)

Section Driven.
Variables (c : circuit) (x : nat -> valuation).
Hypothesis Hwf : circuit_wf c.

Definition reset_values : valuation := fun v =>
  match latch_dec c v with
  | inleft (exist _ (_, r) _) => if r =? 0 then false else if r =? 1 then true else x 0%nat v
  | inright _ => x 0%nat v
  end.

Fixpoint driven (k : nat) : valuation :=
  match k with
  | O => ev c reset_values
  | S k' => succ c (driven k') (x k)
  end.

Lemma reset_values_latch v nx r : latch c v nx r ->
  reset_values v = if r =? 0 then false else if r =? 1 then true else x 0%nat v.
Proof.
  intros L. unfold reset_values. destruct (latch_dec c v) as [((nx', r') & L')|H].
  - cbn [fst snd] in L'. destruct (latch_fun _ _ _ _ _ _ L L') as (-> & ->). auto.
  - elim H. exists nx, r. auto.
Qed.

Lemma driven_run : run c driven.
Proof.
  split; [|split].
  - intros [|k]; [apply ev_wires_ok; auto|apply succ_wires; auto].
  - intros v nx r L. cbn [driven]. rewrite ev_src by (right; left; exists nx, r; auto).
    rewrite (reset_values_latch _ _ _ L). split; intros ->; auto.
  - intros k. apply succ_step.
Qed.

Lemma driven_inputs k v : is_input c v -> driven k v = x k v.
Proof.
  intros Hv. destruct k as [|k]; [|apply succ_inputs; auto]. cbn [driven]. rewrite ev_src by auto.
  unfold reset_values. destruct (latch_dec c v) as [(nr & L)|H]; auto.
  apply latch_range in L. unfold is_input in Hv. lia.
Qed.

Lemma driven_latches v nx r : latch c v nx r ->
  (r = 0 -> x 0%nat v = false) -> (r = 1 -> x 0%nat v = true) -> driven 0 v = x 0%nat v.
Proof.
  intros L H0 H1. cbn [driven]. rewrite ev_src by (right; left; exists nx, r; auto).
  rewrite (reset_values_latch _ _ _ L). destruct (r =? 0) eqn:E; [symmetry; apply H0; lia|].
  destruct (r =? 1) eqn:E'; [symmetry; apply H1; lia|auto].
Qed.
End Driven.

(* ------------------------------------------------------------------- transfer of runs *)

Section Transfer.
Variables (f : N -> N) (c1 : circuit) (flag1 : bool) (c2 : circuit) (flag2 : bool).
Hypothesis (H1 : circuit_wf c1) (H2 : circuit_wf c2) (Hf : renames f c1 flag1 c2 flag2).
Let cone (v : N) : Prop := influences c1 (bad_literals c1 flag1) v.

Lemma cone_range v : cone v -> v <= c_max c1.
Proof.
  intros H. induction H as [l Hl|v r0 r1 r Hi IH G Hr|v nx r Hi IH L].
  - eapply bad_in_range; eauto.
  - pose proof (gate_operands _ _ _ _ H1 G). destruct Hr as [-> | ->]; lia.
  - apply (proj1 H1) in L. exact (proj1 L).
Qed.

(** Two runs that agree on the inputs at all clocks and on the latches at the first one. *)
Lemma same_values w1 w2 : run c1 w1 -> run c2 w2 ->
  (forall t v, cone v -> is_input c1 v -> w2 t (f v) = w1 t v) ->
  (forall v, cone v -> is_latch c1 v -> w2 0%nat (f v) = w1 0%nat v) ->
  forall t v, cone v -> w2 t (f v) = w1 t v.
Proof.
  intros R1 R2 Hi Hl. destruct Hf as (F0 & _ & _ & Fl & Fg & _).
  assert (Step : forall t, (forall v, cone v -> is_latch c1 v -> w2 t (f v) = w1 t v) ->
                 forall v, cone v -> w2 t (f v) = w1 t v).
  { intros t Ht. apply (well_founded_induction N.lt_wf_0 (fun v => cone v -> w2 t (f v) = w1 t v)).
    destruct (proj1 R1 t) as (A0 & Ag). destruct (proj1 R2 t) as (B0 & Bg).
    intros v IH Hv. destruct (classify c1 v (cone_range v Hv)) as [->|[Hin|[Hla|(r0 & r1 & G)]]]; auto.
    - rewrite F0, A0, B0. auto.
    - pose proof (gate_operands _ _ _ _ H1 G) as (O0 & O1). rewrite (Ag _ _ _ G).
      assert (V0 : lit_value (w2 t) (renamed f r0) = lit_value (w1 t) r0)
        by (apply renamed_value, IH; auto; eapply influences_gate; eauto).
      assert (V1 : lit_value (w2 t) (renamed f r1) = lit_value (w1 t) r1)
        by (apply renamed_value, IH; auto; eapply influences_gate; eauto).
      destruct (Fg _ _ _ Hv G) as [G'|G']; rewrite (Bg _ _ _ G'), V0, V1; [auto|apply andb_comm]. }
  induction t as [|t IH]; apply Step; auto.
  intros v Hv (nx & r & L). rewrite (proj2 (proj2 R1) t _ _ _ L), (proj2 (proj2 R2) t _ _ _ (Fl _ _ _ Hv L)).
  apply renamed_value, IH. eapply influences_latch; eauto.
Qed.

Lemma latch_renamed v nx r : cone v -> latch c1 v nx r ->
  latch c2 (f v) (renamed f nx) (renamed f r) /\ (renamed f r = 0 <-> r = 0) /\ (renamed f r = 1 <-> r = 1).
Proof.
  intros Hv L. destruct Hf as (F0 & _ & _ & Fl & _ & _). pose proof (Fl _ _ _ Hv L) as L'. split; auto.
  pose proof (latch_range _ _ _ _ L') as Hr.
  destruct (proj2 (proj1 H1 _ _ _ L)) as [->|[->| ->]].
  - unfold renamed. change (lit_var 0) with 0. change (lit_neg 0) with false. rewrite F0. split; split; lia.
  - unfold renamed. change (lit_var 1) with 0. change (lit_neg 1) with true. rewrite F0. split; split; lia.
  - assert (E : lit_var (renamed f (2 * v)) = f v).
    { rewrite renamed_var. f_equal. unfold lit_var. lia. }
    pose proof (latch_range _ _ _ _ L). split; split; intros X; try lia; rewrite X in E; unfold lit_var in E;
      cbn in E; lia.
Qed.

(** Every run of [c2] shows a run of [c1]. *)
Lemma run_back w2 : run c2 w2 -> exists w1, run c1 w1 /\ forall t v, cone v -> w2 t (f v) = w1 t v.
Proof.
  intros R2. exists (driven c1 (fun t v => w2 t (f v))). assert (R1 := driven_run c1 (fun t v => w2 t (f v)) H1).
  split; auto. apply same_values; auto.
  - intros t v Hv Hi. rewrite driven_inputs; auto.
  - intros v Hv (nx & r & L). destruct (latch_renamed v nx r Hv L) as (L' & E0 & E1).
    destruct (proj1 (proj2 R2) _ _ _ L') as (I0 & I1). symmetry.
    apply (driven_latches c1 (fun t v => w2 t (f v)) v nx r L); intros X; [apply I0, E0|apply I1, E1]; auto.
Qed.

Lemma cone_decided n : ~ ~ exists d : N -> bool, forall v, v <= n -> (d v = true <-> cone v).
Proof.
  induction n as [|n IH] using N.peano_ind; intros K.
  - assert (X : ~ ~ (cone 0 \/ ~ cone 0)) by tauto. apply X. intros [H|H]; apply K.
    + exists (fun _ => true). intros v Hv. replace v with 0 by lia. tauto.
    + exists (fun _ => false). intros v Hv. replace v with 0 by lia. split; [discriminate|tauto].
  - apply IH. intros (d & Hd).
    assert (X : ~ ~ (cone (N.succ n) \/ ~ cone (N.succ n))) by tauto. apply X. intros [H|H]; apply K.
    + exists (fun v => if v =? N.succ n then true else d v). intros v Hv.
      destruct (v =? N.succ n) eqn:E; [replace v with (N.succ n) by lia; tauto|apply Hd; lia].
    + exists (fun v => if v =? N.succ n then false else d v). intros v Hv.
      destruct (v =? N.succ n) eqn:E; [replace v with (N.succ n) by lia; split; [discriminate|tauto]|apply Hd; lia].
Qed.

(** Every run of [c1] is shown by a run of [c2]. *)
Lemma run_forth w1 : run c1 w1 -> ~ ~ exists w2, run c2 w2 /\ forall t v, cone v -> w2 t (f v) = w1 t v.
Proof.
  intros R1 K. apply (cone_decided (c_max c1)). intros (d & Hd). apply K. clear K.
  set (g := fun u => find (fun v => d v && (f v =? u)) (numbers 0 (c_max c1 + 1))).
  assert (Hg : forall v, cone v -> g (f v) = Some v).
  { intros v Hv. unfold g. destruct (find _ _) as [u|] eqn:E.
    - apply find_some in E. destruct E as (Hu & E). apply andb_true_iff in E. destruct E as (D & E).
      f_equal. apply (proj1 (proj2 Hf)); auto; [|lia]. apply Hd; auto.
      unfold numbers in Hu. apply in_map_iff in Hu. destruct Hu as (i & <- & Hi). apply in_seq in Hi. lia.
    - exfalso. pose proof (cone_range v Hv) as Hr.
      assert (X : d v && (f v =? f v) = false).
      { apply (find_none _ _ E v). unfold numbers. apply in_map_iff. exists (N.to_nat v). split; [lia|].
        apply in_seq. lia. }
      rewrite (proj2 (Hd v Hr) Hv), N.eqb_refl in X. discriminate X. }
  set (x := fun t u => match g u with Some v => w1 t v | None => false end).
  assert (Hx : forall t v, cone v -> x t (f v) = w1 t v) by (intros t v Hv; unfold x; rewrite Hg; auto).
  exists (driven c2 x). assert (R2 := driven_run c2 x H2). split; auto. apply same_values; auto.
  - intros t v Hv Hi. rewrite driven_inputs; auto. apply (proj1 (proj2 (proj2 Hf))); auto.
  - intros v Hv (nx & r & L). destruct (latch_renamed v nx r Hv L) as (L' & E0 & E1).
    destruct (proj1 (proj2 R1) _ _ _ L) as (I0 & I1).
    rewrite (driven_latches c2 x (f v) _ _ L'); rewrite ?Hx; auto; intros X; [apply I0, E0|apply I1, E1]; auto.
Qed.

Lemma bad_both w1 w2 : (forall v, cone v -> w2 (f v) = w1 v) -> (is_bad c1 flag1 w1 <-> is_bad c2 flag2 w2).
Proof.
  intros H. destruct Hf as (_ & _ & _ & _ & _ & Fb).
  assert (V : forall l, In l (bad_literals c1 flag1) -> lit_value w2 (renamed f l) = lit_value w1 l).
  { intros l Hl. apply renamed_value, H. constructor; auto. }
  split.
  - intros (l & Hl & Hv). exists (renamed f l). split; [apply Fb; eauto|]. rewrite V; auto.
  - intros (l & Hl & Hv). apply Fb in Hl. destruct Hl as (k & Hk & ->). exists k. split; auto. rewrite <- V; auto.
Qed.

Lemma same_before n : safe_before c1 flag1 n <-> safe_before c2 flag2 n.
Proof.
  split; intros H.
  - intros w2 R2 t Ht Hb. destruct (run_back w2 R2) as (w1 & R1 & E). apply (H w1 R1 t Ht).
    apply (bad_both (w1 t) (w2 t)); auto.
  - intros w1 R1 t Ht Hb. apply (run_forth w1 R1). intros (w2 & R2 & E). apply (H w2 R2 t Ht).
    apply (bad_both (w1 t) (w2 t)); auto.
Qed.

Lemma same_safe : safe c1 flag1 <-> safe c2 flag2.
Proof.
  assert (X : forall c flag, safe c flag <-> forall n, safe_before c flag n).
  { intros c flag. split; intros H; [intros n w R t _; auto|intros w R t; apply (H (S t) w R t); lia]. }
  rewrite !X. split; intros H n; apply same_before; auto.
Qed.
End Transfer.

(* ------------------------------------------------------------------------------- C60 *)

Lemma system_wf b c flag s : system_of b c flag s -> circuit_wf c.
Proof. intros (o & a & _ & H & _). exact H. Qed.

Lemma verdict_right b c flag s r : system_of b c flag s -> numbering_fits c flag ->
  gives_verdict b c flag s r ->
  (verdict_proof r <-> safe c flag) /\ forall d, r = ProofCTX d -> safe_before c flag (N.to_nat d).
Proof.
  intros Hs Hf H. assert (X : match r with
    | Proof _ => safe c flag | ProofCTX d => unsafe c flag /\ safe_before c flag (N.to_nat d) end).
  { destruct H as [(R & T & fuel & HR & HT & E)|[(R & SS & fuel & HR & HS & E)|(Hl & R & SS & fuel & HR & HS & E)]];
      destruct r as [inv|d].
    - apply (stateless_sound_proof b c flag s R T fuel inv Hs Hf HR HT E).
    - apply (stateless_sound_ctx b c flag s R T fuel d Hs Hf HR HT E).
    - apply (sound_proof b c flag s R SS fuel inv Hs Hf HR HS E).
    - apply (sound_ctx b c flag s R SS fuel d Hs Hf HR HS E).
    - apply (sound_pdr_proof c flag s b Hs Hf SS HS R HR fuel inv (or_intror Hl) E).
    - apply (sound_pdr_ctx c flag s b Hs Hf SS HS R HR fuel d Hl E). }
  destruct r as [inv|d].
  - split; [|intros d E; discriminate E]. split; auto. intros _. exists inv. auto.
  - destruct X as ((w & t & Hr & Hb) & Hd). split.
    + split; [intros (inv & E); discriminate E|]. intros Hsafe. elim (Hsafe w Hr t Hb).
    + intros d' E. injection E as <-. auto.
Qed.

Lemma same_verdict f c1 flag1 c2 flag2 b1 b2 s1 s2 r1 r2 :
  renames f c1 flag1 c2 flag2 ->
  system_of b1 c1 flag1 s1 -> numbering_fits c1 flag1 -> system_of b2 c2 flag2 s2 -> numbering_fits c2 flag2 ->
  gives_verdict b1 c1 flag1 s1 r1 -> gives_verdict b2 c2 flag2 s2 r2 ->
  (verdict_proof r1 <-> verdict_proof r2).
Proof.
  intros Hf S1 N1 S2 N2 V1 V2.
  rewrite (proj1 (verdict_right _ _ _ _ _ S1 N1 V1)), (proj1 (verdict_right _ _ _ _ _ S2 N2 V2)).
  apply (same_safe f); auto; eapply system_wf; eauto.
Qed.

Definition bmc_right (c : circuit) (flag : bool) (r : BMCResult) : Prop :=
  match r with
  | CTX _ d => safe_before c flag (N.to_nat d) /\ ~ safe_before c flag (S (N.to_nat d))
  | NoCTX z => safe_before c flag (Z.to_nat (z + 1))
  end.

Lemma bmc_gives_right b c flag s limit r : system_of b c flag s -> well_numbered b c flag ->
  bmc_gives b c s limit r -> bmc_right c flag r.
Proof.
  intros Hs Hw (m & T & clk & HT & Hl & Hm & E). destruct r as [z|asg d].
  - destruct (bmc_noctx_sound m b c flag s T clk limit z Hs Hw HT Hl Hm E) as (_ & H).
    intros w Hr t Ht. apply H; auto. lia.
  - destruct (bmc_ctx_sound m b c flag s T clk limit asg d Hs Hw HT Hl Hm E) as (_ & H & K). split; auto.
    destruct (K (complete asg)) as (w & Hr & Hb & _); [apply complete_agrees|].
    intros X. apply (X w Hr (N.to_nat d)); auto.
Qed.

Lemma before_less c flag n m : (n <= m)%nat -> safe_before c flag m -> safe_before c flag n.
Proof. intros H X w R t Ht. apply X; auto. lia. Qed.

Lemma same_bmc f c1 flag1 c2 flag2 b1 b2 s1 s2 limit1 limit2 r1 r2 :
  renames f c1 flag1 c2 flag2 ->
  system_of b1 c1 flag1 s1 -> well_numbered b1 c1 flag1 -> system_of b2 c2 flag2 s2 -> well_numbered b2 c2 flag2 ->
  bmc_gives b1 c1 s1 limit1 r1 -> bmc_gives b2 c2 s2 limit2 r2 -> compatible r1 r2.
Proof.
  intros Hf S1 N1 S2 N2 G1 G2. apply (bmc_gives_right _ _ flag1) in G1; auto. apply (bmc_gives_right _ _ flag2) in G2; auto.
  assert (X : forall n, safe_before c1 flag1 n <-> safe_before c2 flag2 n)
    by (intros n; apply (same_before f); auto; eapply system_wf; eauto).
  destruct r1 as [z1|a1 d1], r2 as [z2|a2 d2]; cbn [bmc_right compatible] in *; auto.
  - destruct G2 as (A1 & A2). rewrite X in G1. destruct (Z.lt_ge_cases z1 (Z.of_N d2)); auto. elim A2.
    apply (before_less _ _ _ (Z.to_nat (z1 + 1))); auto; lia.
  - destruct G1 as (A1 & A2). rewrite <- X in G2. destruct (Z.lt_ge_cases z2 (Z.of_N d1)); auto. elim A2.
    apply (before_less _ _ _ (Z.to_nat (z2 + 1))); auto; lia.
  - destruct G1 as (A1 & A2), G2 as (B1 & B2). rewrite <- X in B1, B2.
    destruct (N.lt_trichotomy d1 d2) as [H|[H|H]]; auto; exfalso.
    + apply A2. apply (before_less _ _ _ (N.to_nat d2)); auto; lia.
    + apply B2. apply (before_less _ _ _ (N.to_nat d1)); auto; lia.
Qed.

Lemma bmc_and_provers f c1 flag1 c2 flag2 b1 b2 s1 s2 r limit asg d :
  renames f c1 flag1 c2 flag2 \/ renames f c2 flag2 c1 flag1 ->
  system_of b1 c1 flag1 s1 -> numbering_fits c1 flag1 -> system_of b2 c2 flag2 s2 -> well_numbered b2 c2 flag2 ->
  gives_verdict b1 c1 flag1 s1 r -> bmc_gives b2 c2 s2 limit (CTX asg d) ->
  exists e, r = ProofCTX e /\ e <= d.
Proof.
  intros Hf S1 N1 S2 N2 V1 G2. apply (bmc_gives_right _ _ flag2) in G2; auto. cbn [bmc_right] in G2.
  destruct (verdict_right _ _ _ _ _ S1 N1 V1) as (Hv & Hd).
  assert (X : forall n, safe_before c1 flag1 n <-> safe_before c2 flag2 n).
  { intros n. destruct Hf as [Hf|Hf]; [|symmetry]; apply (same_before f); auto; eapply system_wf; eauto. }
  destruct r as [inv|e].
  - exfalso. apply (proj2 G2), X. assert (Hs : safe c1 flag1) by (apply Hv; exists inv; auto).
    intros w R t _. apply Hs; auto.
  - exists e. split; auto. specialize (Hd e eq_refl). apply X in Hd.
    destruct (N.le_gt_cases e d); auto. elim (proj2 G2). apply (before_less _ _ _ (N.to_nat e)); auto; lia.
Qed.

(** [shift_circuit] without its unused latch, the other two swapped, the bad literal an output. *)
Definition swapped_shift : circuit := mkCircuit 1 [(6, 0); (2, 0)] [8] [] [] [(6, 4)].
Definition shift_name (v : N) : N := match v with 2 => 3 | 3 => 2 | 5 => 4 | _ => v end.

Lemma shift_vars v : influences shift_circuit (bad_literals shift_circuit false) v ->
  v = 1 \/ v = 2 \/ v = 3 \/ v = 5.
Proof.
  intros Hi. induction Hi as [l Hl|v r0 r1 r Hi IH (j & Hj & Ej) Hr|v nx r Hi IH (j & Hj & Ej)].
  - destruct Hl as [<-|[]]. vm_compute. tauto.
  - destruct j as [|[|j]]; cbn in Hj; try discriminate. injection Hj as <- <-.
    destruct Hr as [-> | ->]; vm_compute; tauto.
  - destruct j as [|[|[|[|j]]]]; cbn in Hj; try discriminate; injection Hj as <- <-; vm_compute in Ej |- *;
      subst v; try tauto; intuition discriminate.
Qed.

Lemma shift_renamed : renames shift_name shift_circuit false swapped_shift true.
Proof.
  split; [reflexivity|]. split; [|split; [|split; [|split]]].
  - intros u v Hu Hv. apply shift_vars in Hu, Hv.
    destruct Hu as [->|[->|[->| ->]]], Hv as [->|[->|[->| ->]]]; vm_compute; congruence.
  - intros v _ Hv. unfold is_input in *. cbn [c_inputs shift_circuit swapped_shift] in *.
    replace v with 1 by lia. vm_compute. split; discriminate.
  - intros v nx r Hi (j & Hj & Ej). apply shift_vars in Hi. unfold latch_var in Ej. cbn [c_inputs shift_circuit] in Ej.
    destruct j as [|[|[|[|j]]]]; cbn in Hj; try discriminate; injection Hj as <- <-; vm_compute in Ej; subst v.
    + exists 1%nat. split; reflexivity.
    + exists 0%nat. split; reflexivity.
    + intuition discriminate.
  - intros v r0 r1 _ (j & Hj & Ej). destruct j as [|[|j]]; cbn in Hj; try discriminate. injection Hj as <- <-.
    right. exists 0%nat. split; [reflexivity|]. rewrite Ej. reflexivity.
  - intros l. split.
    + intros [<-|[]]. exists 10. split; [left; reflexivity|reflexivity].
    + intros (k & [<-|[]] & ->). left. reflexivity.
Qed.

(** [differ_circuit] with an unused input and an unused latch in front. *)
Definition wide_differ : circuit := mkCircuit 2 [(7, 0); (4, 0); (5, 1)] [] [12] [] [(10, 8)].
Definition differ_name (v : N) : N := match v with 0 => 0 | 1 => 2 | _ => v + 2 end.

Lemma differ_renamed : renames differ_name differ_circuit false wide_differ false.
Proof.
  split; [reflexivity|]. split; [|split; [|split; [|split]]].
  - intros u v _ _. unfold differ_name. destruct u as [|[p|p|]], v as [|[q|q|]]; lia.
  - intros v _ Hv. unfold is_input in *. cbn [c_inputs differ_circuit wide_differ] in *.
    replace v with 1 by lia. vm_compute. split; discriminate.
  - intros v nx r _ (j & Hj & Ej).
    destruct j as [|[|j]]; cbn in Hj; try (destruct j; discriminate); injection Hj as <- <-; vm_compute in Ej; subst v.
    + exists 1%nat. split; reflexivity.
    + exists 2%nat. split; reflexivity.
  - intros v r0 r1 _ (j & Hj & Ej). destruct j as [|[|j]]; cbn in Hj; try discriminate. injection Hj as <- <-.
    left. exists 0%nat. split; [reflexivity|]. rewrite Ej. reflexivity.
  - intros l. split.
    + intros [<-|[]]. exists 8. split; [left; reflexivity|reflexivity].
    + intros (k & [<-|[]] & ->). left. reflexivity.
Qed.
