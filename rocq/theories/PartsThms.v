(** Checking bad literals together or one by one (C66). *)
From Verif Require Import Base Formulas FormulaLogic Aig AigParse Fsts Bmc Solvers Ic3 Pdr Brute Spec SpecText SpecAig SpecAiger SpecFsts SpecAlg
  SpecRename SpecInv SpecParts Tac FormulasFacts LogicFacts BruteFacts AigFacts AigThms FstsFacts FstsSem TagFacts FstsThms BmcThms
  QueryFacts Ic3Thms PdrThms SoundThms RenameThms InvThms InvComb.
Open Scope N_scope.

Section Same.
Variables (c c' : circuit).
Hypothesis H : same_logic c c'.

Lemma same_latch v nx r : latch c v nx r <-> latch c' v nx r.
Proof. destruct H as (H1 & H2 & H3). unfold latch, latch_var. rewrite H1, H2. tauto. Qed.
Lemma same_is_latch v : is_latch c v <-> is_latch c' v.
Proof. unfold is_latch. split; intros (nx & r & L); exists nx, r; apply same_latch; exact L. Qed.
Lemma same_gate v r0 r1 : gate c v r0 r1 <-> gate c' v r0 r1.
Proof. destruct H as (H1 & H2 & H3). unfold gate, gate_var. rewrite H1, H2, H3. tauto. Qed.
Lemma same_wires w : wires_ok c w <-> wires_ok c' w.
Proof. split; intros (W0 & W); (split; [exact W0|]); intros v r0 r1 G; apply W, same_gate, G. Qed.
Lemma same_initial w : initial_values c w <-> initial_values c' w.
Proof. split; intros W v nx r L; apply (W v nx r), same_latch, L. Qed.
Lemma same_step w w' : step_values c w w' <-> step_values c' w w'.
Proof. split; intros W v nx r L; apply (W v nx r), same_latch, L. Qed.
Lemma same_run w : run c w <-> run c' w.
Proof.
  unfold run. rewrite same_initial.
  split; intros (W1 & W2 & W3); (split; [intros t; apply same_wires, W1|]); (split; [exact W2|]); intros t; apply same_step, W3.
Qed.
End Same.

Section Parts.
Variables (c : circuit) (flag : bool) (ps : list part).
Hypothesis H : splits c flag ps.

Lemma bad_parts w : is_bad c flag w <-> exists p, In p ps /\ is_bad (fst p) (snd p) w.
Proof.
  split.
  - intros (l & Hl & Hv). apply (proj2 H) in Hl. destruct Hl as (p & Hp & Hl). exists p. split; auto. exists l. auto.
  - intros (p & Hp & l & Hl & Hv). exists l. split; auto. apply (proj2 H). exists p. auto.
Qed.

Lemma before_parts n : safe_before c flag n <-> forall p, In p ps -> safe_before (fst p) (snd p) n.
Proof.
  split.
  - intros Hs p Hp w Hr t Ht Hb. apply (Hs w) with t; auto; [apply (same_run _ _ (proj1 H p Hp)); auto|].
    apply bad_parts. exists p. auto.
  - intros Hs w Hr t Ht Hb. apply bad_parts in Hb. destruct Hb as (p & Hp & Hb).
    apply (Hs p Hp w) with t; auto. apply (same_run _ _ (proj1 H p Hp)). exact Hr.
Qed.

Lemma safe_parts : safe c flag <-> forall p, In p ps -> safe (fst p) (snd p).
Proof.
  split.
  - intros Hs p Hp w Hr t Hb. apply (Hs w) with t; auto; [apply (same_run _ _ (proj1 H p Hp)); auto|].
    apply bad_parts. exists p. auto.
  - intros Hs w Hr t Hb. apply bad_parts in Hb. destruct Hb as (p & Hp & Hb).
    apply (Hs p Hp w) with t; auto. apply (same_run _ _ (proj1 H p Hp)). exact Hr.
Qed.

Lemma proof_of_all b s inv p b' s' r : system_of b c flag s -> numbering_fits c flag -> gives_verdict b c flag s (Proof inv) ->
  In p ps -> system_of b' (fst p) (snd p) s' -> numbering_fits (fst p) (snd p) -> gives_verdict b' (fst p) (snd p) s' r ->
  verdict_proof r.
Proof.
  intros Hs Hf V Hp Hs' Hf' V'. apply (proj1 (verdict_right _ _ _ _ _ Hs' Hf' V')). apply safe_parts; auto.
  apply (proj1 (verdict_right _ _ _ _ _ Hs Hf V)). exists inv. reflexivity.
Qed.

Lemma proof_of_parts b s r : system_of b c flag s -> numbering_fits c flag -> gives_verdict b c flag s r ->
  (forall p, In p ps -> proved_part p) -> verdict_proof r.
Proof.
  intros Hs Hf V Hp. apply (proj1 (verdict_right _ _ _ _ _ Hs Hf V)). apply safe_parts. intros p Hin.
  destruct (Hp p Hin) as (b' & s' & inv & Hs' & Hf' & V'). apply (proj1 (verdict_right _ _ _ _ _ Hs' Hf' V')). exists inv. reflexivity.
Qed.

Lemma searched_right p r : searched_part p r -> bmc_right (fst p) (snd p) r.
Proof. intros (b & s & limit & Hs & Hw & G). exact (bmc_gives_right b _ _ s limit r Hs Hw G). Qed.

Lemma counterexample_of_part b s limit r p asg d : system_of b c flag s -> well_numbered b c flag -> bmc_gives b c s limit r ->
  In p ps -> searched_part p (CTX asg d) ->
  match r with CTX _ e => e <= d | NoCTX z => (z < Z.of_N d)%Z end.
Proof.
  intros Hs Hw G Hp K. apply (bmc_gives_right _ _ flag) in G; auto. apply searched_right in K. destruct K as (_ & K).
  assert (X : ~ safe_before c flag (S (N.to_nat d))) by (intros X; apply K; apply before_parts; auto).
  destruct r as [z|a e]; cbn [bmc_right] in G.
  - destruct (Z.lt_ge_cases z (Z.of_N d)); auto. elim X. apply (before_less _ _ _ (Z.to_nat (z + 1))); auto; lia.
  - destruct (N.le_gt_cases e d); auto. elim X. apply (before_less _ _ _ (N.to_nat e)); [lia|apply G].
Qed.

Lemma some_part d l : incl l ps ->
  (forall p, In p l -> (exists asg e, searched_part p (CTX asg e)) \/ exists z, searched_part p (NoCTX z) /\ (Z.of_N d <= z)%Z) ->
  safe_before c flag (N.to_nat d) ->
  (exists p asg, In p l /\ searched_part p (CTX asg d)) \/ forall p, In p l -> safe_before (fst p) (snd p) (S (N.to_nat d)).
Proof.
  intros Hl Hall Hb. induction l as [|p l IH]; [right; intros p []|].
  destruct IH as [(q & asg & Hq & K)|IH].
  - intros q Hq. apply Hl. right. exact Hq.
  - intros q Hq. apply Hall. right. exact Hq.
  - left. exists q, asg. split; [right|]; auto.
  - assert (X : (exists asg, searched_part p (CTX asg d)) \/ safe_before (fst p) (snd p) (S (N.to_nat d))).
    { destruct (Hall p (or_introl eq_refl)) as [(asg & e & K)|(z & K & Hz)].
      - destruct (N.eq_dec e d) as [->|Hne]; [left; eauto|right]. apply searched_right in K. destruct K as (S1 & S2).
        assert (Hd : ~ (e < d)).
        { intros Hlt. apply S2. apply (proj1 (before_parts (S (N.to_nat e)))); [|apply Hl; left; reflexivity].
          apply (before_less _ _ _ (N.to_nat d)); auto; lia. }
        apply (before_less _ _ _ (N.to_nat e)); auto; lia.
      - right. apply searched_right in K. cbn [bmc_right] in K. apply (before_less _ _ _ (Z.to_nat (z + 1))); auto; lia. }
    destruct X as [(asg & K)|X]; [left; exists p, asg; split; [left|]; auto|right].
    intros q [<-|Hq]; auto.
Qed.

Lemma counterexample_of_all b s limit asg d : system_of b c flag s -> well_numbered b c flag ->
  bmc_gives b c s limit (CTX asg d) ->
  (forall p, In p ps -> (exists asg e, searched_part p (CTX asg e)) \/ exists z, searched_part p (NoCTX z) /\ (Z.of_N d <= z)%Z) ->
  exists p asg', In p ps /\ searched_part p (CTX asg' d).
Proof.
  intros Hs Hw G Hall. apply (bmc_gives_right _ _ flag) in G; auto. destruct G as (G1 & G2).
  destruct (some_part d ps (incl_refl ps) Hall G1) as [X|X]; auto. elim G2. apply before_parts. exact X.
Qed.

Lemma append_all_true a invs : forall f,
  cnf_true a (fold_left cnf_append invs f) <-> cnf_true a f /\ forall inv, In inv invs -> cnf_true a inv.
Proof.
  induction invs as [|inv invs IH]; intros f; cbn [fold_left].
  - split; [intros X; split; auto; intros ? []|tauto].
  - rewrite IH, cnf_append_true. split.
    + intros ((X1 & X2) & X3). split; auto. intros i [<-|Hi]; auto.
    + intros (X1 & X2). split; [split; auto; apply X2; left; reflexivity|]. intros i Hi. apply X2. right. exact Hi.
Qed.

Lemma append_all_vars P invs : forall f, api_cnf f -> cnf_vars P f ->
  (forall inv, In inv invs -> api_cnf inv /\ cnf_vars P inv) ->
  api_cnf (fold_left cnf_append invs f) /\ cnf_vars P (fold_left cnf_append invs f).
Proof.
  induction invs as [|inv invs IH]; intros f A V X; cbn [fold_left]; auto.
  destruct (X inv (or_introl eq_refl)) as (A' & V'). apply IH.
  - apply api_cnf_append; auto.
  - apply cnf_append_vars; auto.
  - intros i Hi. apply X. right. exact Hi.
Qed.

Lemma certificate_of_parts b s invs : system_of b c flag s -> numbering_fits c flag ->
  Forall2 certified_part ps invs -> accepted_for s (fold_left cnf_append invs cnf_new).
Proof.
  intros Hs Hf F.
  assert (X1 : forall inv, In inv invs -> exists p, In p ps /\ certified_part p inv).
  { clear H. induction F as [|p inv ps' invs' Hc F IH]; [intros i []|]. intros i [<-|Hi].
    - exists p. split; [left|]; auto.
    - destruct (IH i Hi) as (q & Hq & Hc'). exists q. split; [right|]; auto. }
  assert (X2 : forall p, In p ps -> exists inv, In inv invs /\ certified_part p inv).
  { clear H X1. induction F as [|p inv ps' invs' Hc F IH]; [intros q []|]. intros q [<-|Hq].
    - exists inv. split; [left|]; auto.
    - destruct (IH q Hq) as (i & Hi & Hc'). exists i. split; [right|]; auto. }
  assert (Ind : forall p inv, In p ps -> certified_part p inv ->
    inductive_safe (fst p) (snd p) (fun w => cnf_true w inv)).
  { intros p inv Hp (A & V & b' & s' & Hs' & Hf' & Hacc). apply (proj1 (latch_exact b' _ _ s' inv Hs' Hf' A V)). exact Hacc. }
  destruct (append_all_vars (is_latch c) invs cnf_new) as (A & V).
  { auto with api. } { intros d []. }
  { intros inv Hi. destruct (X1 inv Hi) as (p & Hp & A & V & _). split; auto.
    eapply cnf_vars_impl; [|exact V]. intros v. apply (same_is_latch _ _ (proj1 H p Hp)). }
  apply (proj2 (latch_exact b c flag s _ Hs Hf A V)). split; [|split].
  - intros w Hw H0. apply append_all_true. split; [intros d []|]. intros inv Hi. destruct (X1 inv Hi) as (p & Hp & Hc).
    destruct (Ind p inv Hp Hc) as (I1 & _). pose proof (proj1 H p Hp) as Hl.
    apply I1; [apply (same_wires _ _ Hl)|apply (same_initial _ _ Hl)]; auto.
  - intros w w' Hw Hw' Hst Hinv. apply append_all_true in Hinv. destruct Hinv as (_ & Hinv). apply append_all_true.
    split; [intros d []|]. intros inv Hi. destruct (X1 inv Hi) as (p & Hp & Hc).
    destruct (Ind p inv Hp Hc) as (_ & I2 & _). pose proof (proj1 H p Hp) as Hl.
    apply (I2 w); try apply (same_wires _ _ Hl); auto. apply (same_step _ _ Hl). exact Hst.
  - intros w Hw Hinv Hb. apply append_all_true in Hinv. destruct Hinv as (_ & Hinv). apply bad_parts in Hb.
    destruct Hb as (p & Hp & Hb). destruct (X2 p Hp) as (inv & Hi & Hc). destruct (Ind p inv Hp Hc) as (_ & _ & I3).
    apply (I3 w); auto. apply (same_wires _ _ (proj1 H p Hp)). exact Hw.
Qed.
End Parts.

(** Latch 2 takes the input, latch 3 stays 0.  Gates: 4 = latch 3 and input, 5 = latch 2 and input,
    6 = latch 3 and latch 2. *)
Definition with_bad (outputs bads : list N) : circuit :=
  mkCircuit 1 [(2, 0); (0, 0)] outputs bads [] [(6, 2); (4, 2); (6, 4)].

Ltac part_system := match goal with |- exists s, fsts_of ?b ?c ?f = Ok s /\ _ =>
  destruct (fsts_of b c f) as [s| |] eqn:E; [|destruct b; vm_compute in E; discriminate..];
  exists s; split; [reflexivity|]; split;
  [apply fsts_of_system; auto; vm_compute; repeat split|apply no_constants_ok; vm_compute; reflexivity] end.

Lemma both_system b : exists s, fsts_of b (with_bad [] [8; 10]) false = Ok s /\
  system_of b (with_bad [] [8; 10]) false s /\ numbering_fits (with_bad [] [8; 10]) false.
Proof. part_system. Qed.
Lemma first_system b : exists s, fsts_of b (with_bad [] [8]) false = Ok s /\
  system_of b (with_bad [] [8]) false s /\ numbering_fits (with_bad [] [8]) false.
Proof. part_system. Qed.
Lemma second_system b : exists s, fsts_of b (with_bad [10] []) true = Ok s /\
  system_of b (with_bad [10] []) true s /\ numbering_fits (with_bad [10] []) true.
Proof. part_system. Qed.
Lemma third_system b : exists s, fsts_of b (with_bad [12] []) true = Ok s /\
  system_of b (with_bad [12] []) true s /\ numbering_fits (with_bad [12] []) true.
Proof. part_system. Qed.
Lemma safe_system b : exists s, fsts_of b (with_bad [12] [8]) true = Ok s /\
  system_of b (with_bad [12] [8]) true s /\ numbering_fits (with_bad [12] [8]) true.
Proof. part_system. Qed.

(** The statements about the examples that need a search or a prover. *)
Lemma bmc_case b c flag s limit r : system_of b c flag s -> (limit <= 100) -> c_max c <= 100 ->
  bmc_search b brute (mkClock (fun _ => false) (fun _ => false)) s limit = Ok r -> bmc_gives b c s limit r.
Proof.
  intros _ Hl Hm E. exists 2147483648, brute, (mkClock (fun _ => false) (fun _ => false)).
  split; [exact (correct_sound _ _ (correct_below _ _ brute_correct))|]. split; [lia|]. split; [|exact E].
  right. pose proof (N.mul_le_mono (limit + 1) 101 (c_max c) 100 ltac:(lia) Hm). lia.
Qed.

Lemma ic3_case b c flag s fuel r : ic3_stateless b no_random brute fuel s = Ok r -> gives_verdict b c flag s r.
Proof.
  intros E. left. exists no_random, brute, fuel. split; [exact no_random_ok|].
  split; [exact (correct_sound _ _ (correct_below _ _ brute_correct))|exact E].
Qed.

Lemma accepted_case b s inv : check_invariant b brute brute brute (fun l => l) (fun l => l) s inv = Ok tt -> accepted_once s inv.
Proof.
  intros E. assert (HB : solver_sound_below 2147483647 brute) by exact (correct_sound _ _ (correct_below _ _ brute_correct)).
  exists b, brute, brute, brute, (fun l => l), (fun l => l). do 3 (split; [exact HB|]).
  do 2 (split; [intros l; apply Permutation_refl|]). exact E.
Qed.
