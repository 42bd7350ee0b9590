(** How many questions IC3 asks before it reports a counterexample. *)
From Coq Require Import Permutation.
From Verif Require Import Base Formulas FormulaLogic Aig Fsts Solvers Ic3 Spec SpecAig SpecFsts Tac
  FormulasFacts LogicFacts AigFacts SimFacts AigThms FstsFacts FstsSem TagFacts FstsThms BmcThms StateFacts
  Ic3Core.
Open Scope nat_scope.

(** A counter of questions: no operation lowers it, the two that show a state raise it. *)
Record counts (O : Ic3Ops) (calls : ox O -> nat) : Prop := {
  n_push : forall x x', o_push_frame O x = Ok x' -> calls x <= calls x';
  n_add : forall x j d x', o_add_clause O x j d = Ok x' -> calls x <= calls x';
  n_bad_0 : forall x r x', o_bad_in_0 O x = Ok (r, x') -> calls x < calls x';
  n_bad_1 : forall x r x', o_bad_in_1 O x = Ok (r, x') -> calls x < calls x';
  n_bad_from : forall x i r x', o_bad_from_fi O x i = Ok (r, x') -> calls x < calls x';
  n_reach : forall x i q r x', o_reach_from_fi O x i q = Ok (r, x') -> calls x < calls x';
  n_propagate : forall x i d r x', o_propagate_query O x i d = Ok (r, x') -> calls x <= calls x';
  n_not_s : forall x i q r x', o_not_s_and_s_tag O x i q = Ok (r, x') -> calls x <= calls x';
  n_inductive : forall x d i r x', o_clause_inductive O x d i = Ok (r, x') -> calls x <= calls x' }.

Lemma okay_and {A} (m : res A) (Q : A -> Prop) (P : A -> Prop) : okay m Q -> (forall x, m = Ok x -> P x) ->
  okay m (fun x => Q x /\ P x).
Proof. intros (x & E & H) H'. exists x. auto. Qed.

Lemma post_and {A} (m : res A) P F (Q Q' : A -> Prop) : post m P F Q -> post m True True Q' ->
  post m True True (fun x => Q x /\ Q' x).
Proof. destruct m; cbn; auto. Qed.

Lemma list_eq_nil {A} (l : list A) : l = [] \/ l <> [].
Proof. destruct l; [auto|right; discriminate]. Qed.

Section Bound.
Variables (c : circuit) (flag : bool) (s : FSTS).
Hypothesis Hwf : circuit_wf c.
Hypothesis Hn : numbered c flag.
Hypothesis He : encodes c flag s.

(** Some path of at most [n] steps from a state with these latch values reaches a bad clock. *)
Definition near (n : nat) (w : valuation) : Prop :=
  exists p d, d <= n /\ path c p d /\ same_latches c (p 0) w /\ is_bad c flag (p d).

Lemma near_le n m w : n <= m -> near n w -> near m w.
Proof. intros H (p & d & Hd & Hx). exists p, d. split; [lia|exact Hx]. Qed.

Lemma near_same n w w' : same_latches c w w' -> near n w -> near n w'.
Proof.
  intros H (p & d & Hd & Hp & Hs & Hb). exists p, d. split; auto. split; auto. split; auto.
  eapply same_latches_trans; eauto.
Qed.

Lemma near_bad w : bad_state c flag w -> near 0 w.
Proof.
  intros (x & Hw & Hs & Hb). exists (fun _ => x), 0. split; auto. split; [split; [auto|intros t Ht; lia]|auto].
Qed.

Lemma near_step n w w' : steps c w w' -> near n w' -> near (S n) w.
Proof.
  intros (Hw & Hst) (p & d & Hd & (Hp1 & Hp2) & Hs & Hb).
  exists (fun t => match t with O => w | S t => p t end), (S d). split; [lia|]. split; [split|split]; auto.
  - intros [|t] Ht; auto. apply Hp1. lia.
  - intros [|t] Ht.
    + intros v nx r L. rewrite (Hs v) by (exists nx, r; auto). apply (Hst _ _ _ L).
    + apply Hp2. lia.
  - apply same_latches_refl.
Qed.

(** Some run is bad before clock [n]. *)
Definition bad_before (n : nat) : Prop := exists w t, run c w /\ is_bad c flag (w t) /\ t < n.

Lemma near_run n w : initial_values c w -> near n w -> bad_before (S n).
Proof.
  intros Hi (p & d & Hd & Hp & Hs & Hb).
  destruct (extend_path c p d Hwf Hp) as (r & Hr & Hx).
  - eapply initial_same; [|eauto]. apply same_latches_sym; auto.
  - exists r, d. split; auto. rewrite Hx by auto. split; auto. lia.
Qed.

Lemma near_init n w w' u : steps c w w' -> initial_values c w -> same_latches c w' u -> near n u ->
  bad_before (n + 2).
Proof.
  intros Hst Hi Hs Hl. replace (n + 2) with (S (S n)) by lia. apply (near_run (S n) w); auto.
  apply (near_step n w w'); auto. eapply near_same; [|eauto]. apply same_latches_sym; auto.
Qed.

Lemma bad_before_le n m : n <= m -> bad_before n -> bad_before m.
Proof. intros H (w & t & H1 & H2 & H3). exists w, t. split; auto. split; auto. lia. Qed.

Section Run.
Hypothesis Hp0 : forall w, wires_ok c w -> initial_values c w -> ~ is_bad c flag w.
Variable (b : build) (R : Random) (O : Ic3Ops) (good : ox O -> Prop) (calls : ox O -> nat).
Hypothesis HR : random_ok R.
Hypothesis HO : ops_ok c flag s O good.
Hypothesis HC : counts O calls.
Notation cl := (fun st : Ic3State O => o_clauses O (st_ops st)).
Notation cs := (fun st : Ic3State O => calls (st_ops st)).

Definition after (n : nat) (x : ox O) : Prop := good x /\ n <= calls x.

Lemma okay_after {A} n x (m : res (A * ox O)) (Q : A * ox O -> Prop) :
  okay m (fun rx => good (snd rx) /\ Q rx) -> n <= calls x ->
  (forall r x', m = Ok (r, x') -> calls x <= calls x') ->
  okay m (fun rx => after n (snd rx) /\ Q rx).
Proof.
  intros ((r & x') & E & H1 & H2) Hx H. exists (r, x'). split; auto. split; auto. split; auto.
  cbn [snd]. apply H in E. lia.
Qed.

Lemma ops_after n : ops_ok c flag s O (after n).
Proof.
  destruct HC. split.
  - intros x (Hg & _). apply (ok_frames _ _ _ _ _ HO); auto.
  - intros x (Hg & Hx). destruct (ok_push _ _ _ _ _ HO x Hg) as (x' & E & H1 & H2).
    exists x'. split; auto. split; auto. split; auto. apply n_push0 in E. lia.
  - intros x j d (Hg & Hx) Hj Hd. destruct (ok_add _ _ _ _ _ HO x j d Hg Hj Hd) as (x' & E & H1 & H2).
    exists x'. split; auto. split; auto. split; auto. apply n_add0 in E. lia.
  - intros x (Hg & Hx). eapply (okay_after n x); [apply (ok_bad_0 _ _ _ _ _ HO); auto|auto|].
    intros r x' E. apply n_bad_2 in E. lia.
  - intros x (Hg & Hx). eapply (okay_after n x); [apply (ok_bad_1 _ _ _ _ _ HO); auto|auto|].
    intros r x' E. apply n_bad_3 in E. lia.
  - intros x i (Hg & Hx) Hi. eapply (okay_after n x); [apply (ok_bad_from _ _ _ _ _ HO); auto|auto|].
    intros r x' E. apply n_bad_from0 in E. lia.
  - intros x i q (Hg & Hx) Hi H1 H2. eapply (okay_after n x); [apply (ok_reach _ _ _ _ _ HO); auto|auto|].
    intros r x' E. apply n_reach0 in E. lia.
  - intros x i d (Hg & Hx) Hi H1. eapply (okay_after n x); [apply (ok_propagate _ _ _ _ _ HO); auto|auto|].
    intros r x' E. apply n_propagate0 in E. lia.
  - intros x i q (Hg & Hx) Hi H1 H2. eapply (okay_after n x); [apply (ok_not_s _ _ _ _ _ HO); auto|auto|].
    intros r x' E. apply n_not_s0 in E. lia.
  - intros x d i (Hg & Hx) Hi H1 H2. eapply (okay_after n x); [apply (ok_inductive _ _ _ _ _ HO); auto|auto|].
    intros r x' E. apply n_inductive0 in E. lia.
  - intros x i (Hg & _). apply (ok_get_fk _ _ _ _ _ HO); auto.
  - intros x (Hg & _). apply (ok_check _ _ _ _ _ HO); auto.
Qed.

Lemma op_count {A} (f : ox O -> res (A * ox O)) (st : Ic3State O) Q :
  okay (f (st_ops st)) Q -> (forall r x', f (st_ops st) = Ok (r, x') -> cs st < calls x') ->
  okay (op O f st) (fun r => Q (fst r, st_ops (snd r)) /\ cs st < cs (snd r)).
Proof.
  intros ((a & x) & E & H) Hx. unfold op. rewrite E. cbn [bind]. eexists. split; [reflexivity|].
  cbn [fst snd st_ops]. split; auto. eauto.
Qed.

Lemma generalize_calls k u (mn : Z) st : 1 <= k -> sinv c flag O good k st -> ~ initial_values c u ->
  (mn <= Z.of_nat k)%Z -> ((0 <= mn)%Z -> blocked c flag (cl st) (Z.to_nat mn) u) ->
  okay (inductively_generalize R O (state_of c u) mn k st) (fun r =>
    sinv c flag O good k (snd r) /\ cs st <= cs (snd r) /\ grow (cl st) (cl (snd r)) /\
    match fst r with
    | IG_Failure => exists w w', steps c w w' /\ initial_values c w /\ same_latches c w' u
    | IG_Success n => (mn <= Z.of_nat n)%Z /\ n <= k /\
        forall j, 1 <= j <= S n -> ~ cnf_true u (fr (cl (snd r)) j)
    end).
Proof.
  intros Hk (Hg & Hf) Hu Hm Hb.
  eapply okay_impl; [apply (generalize_ok c flag s Hp0 R O (after (cs st)) HR (ops_after (cs st)) k u mn st); auto|].
  - split; auto. split; auto.
  - intros (g & st') (((G1 & G2) & G3) & G4 & G5). cbn [fst snd] in *. split; [split; auto|auto].
Qed.

Definition close (n : nat) (e : Cube * nat) : Prop := exists u m, fst e = state_of c u /\ near m u /\ m + 2 <= n.

Lemma close_le n m e : n <= m -> close n e -> close m e.
Proof. intros H (u & i & H1 & H2 & H3). exists u, i. split; auto. split; auto. lia. Qed.

Lemma push_calls k : 1 <= k -> forall fuel q st, sinv c flag O good k st -> queue_ok c flag k (cl st) q ->
  Forall (close (cs st)) q ->
  post (push_generalization b R O s fuel q k st) True True (fun r =>
    match fst r with Success => True | Failure => bad_before (cs (snd r)) end).
Proof.
  intros Hk. induction fuel as [|fuel IH]; intros q st Hs Hq Hc; cbn [push_generalization]; [exact I|].
  destruct (list_eq_nil q) as [->|Hne].
  { unfold queue_pop. assert (P : Permutation (R (st_draws st) (Cube * nat)%type []) []) by apply HR.
    apply Permutation_sym, Permutation_nil in P. rewrite P. exact I. }
  destruct (queue_pop_spec (R (st_draws st)) q) as ((cube & n) & r & Ep & P & Min);
    [intros B l; apply HR|exact Hne|].
  rewrite Ep. cbn [unwrap bind]. cbn [snd] in Min.
  destruct Hq as (Hnd & Hf).
  assert (Hnd' : NoDup (map fst ((cube, n) :: r))) by (rewrite <- P; auto).
  simpl in Hnd'. inversion Hnd' as [|x y Hnin Hnd'']; subst x y.
  assert (Hf' : Forall (entry_ok c flag k (cl st)) ((cube, n) :: r)) by (rewrite <- P; auto).
  inversion Hf' as [|x y Hcube Hfr]; subst x y.
  assert (Hc' : Forall (close (cs st)) ((cube, n) :: r)) by (rewrite <- P; auto).
  inversion Hc' as [|x y Hclose Hcr]; subst x y.
  destruct (k <? n) eqn:Ekn; [exact I|]. apply Nat.ltb_ge in Ekn.
  destruct Hcube as (u & Eu & Hlead & Hrange & Hex). simpl in Eu, Hrange, Hex. subst cube.
  destruct Hclose as (u1 & mu & Eu & Hnu & Hmu). simpl in Eu.
  apply state_of_inj in Eu. apply (near_same mu _ u) in Hnu; [|apply same_latches_sym; exact Eu]. clear u1 Eu.
  eapply bind_okay.
  { apply op_count.
    - apply (ok_reach _ _ _ _ _ HO); [apply Hs| |apply state_of_api|apply state_of_vars].
      cbn [st_ops]. pose proof (f_len _ _ _ _ (proj2 Hs)). lia.
    - intros r' x' E. apply (n_reach _ _ HC) in E. exact E. }
  intros (resp & st1) ((Hg & Ec & Hans) & Hlt). cbn [fst snd st_ops] in *.
  assert (Hs1 : sinv c flag O good k st1) by (split; auto; rewrite Ec; apply Hs).
  destruct resp as [|asg].
  - eapply bind_okay.
    { apply (generalize_calls k u (Z.of_nat n) st1); auto.
      - intros Hi. apply (Hex 1); [lia|]. apply (f_init _ _ _ _ (proj2 Hs)); auto.
      - lia.
      - intros _. rewrite Nat2Z.id. rewrite Ec. intros w w' Hst Hw _ Hsame. apply (Hans w w' Hst).
        split; auto. apply state_of_true; auto. }
    intros (g & st2) (G1 & G0 & G2 & G3). cbn [fst snd] in *. rewrite Ec in G2. destruct g as [m|].
    + destruct G3 as (G3 & G4 & G5).
      rewrite queue_push_new by auto.
      apply (IH (r ++ [(state_of c u, m + 1)]) st2); auto.
      * apply queue_add; auto.
        -- split; auto. eapply Forall_impl; [|apply Hfr]. intros e. apply entry_grow; auto.
        -- exists u. cbn [fst snd]. split; auto. split; auto. split; [lia|]. intros j Hj. apply G5. lia.
      * apply Forall_app. split.
        -- eapply Forall_impl; [|apply Hcr]. intros e. apply close_le. lia.
        -- constructor; [|constructor]. exists u, mu. split; auto. split; auto. lia.
    + destruct G3 as (w & w' & G3 & G4 & G5). cbn. apply (bad_before_le (mu + 2)); [lia|]. eapply near_init; eauto.
  - destruct Hans as (w & w' & Hst & (Hin & Hcube) & Hval).
    apply state_of_true in Hcube.
    rewrite (extract_state b c flag s asg w Hn He Hval). cbn [bind].
    assert (Hout : ~ in_frame c flag (cl st) (n - 1) w).
    { intros Hin'. apply (Hex n); [lia|]. eapply latch_cnf_same; [apply (f_cnf _ _ _ _ (proj2 Hs))|exact Hcube|].
      replace n with (S (n - 1)) by lia. apply (f_step _ _ _ _ (proj2 Hs)) with w; auto. }
    destruct (new_in_frame c flag Hp0 k (cl st) n w (proj2 Hs)) as (Hni & Hbl); [lia|exact Hin|exact Hout|].
    assert (Hnw : near (S mu) w).
    { apply (near_step mu w w'); auto. eapply near_same; [|exact Hnu]. apply same_latches_sym; auto. }
    assert (Hlw : leads c flag w).
    { apply (leads_step c flag w w'); [apply Hst|apply Hst|]. eapply leads_same; [|eauto].
      apply same_latches_sym; auto. }
    assert (Hpn : ~ In (state_of c w) (map fst q)).
    { intros Hx. apply in_map_iff in Hx. destruct Hx as ((cb & m) & E0 & Hx). simpl in E0.
      rewrite Forall_forall in Hf. destruct (Hf _ Hx) as (u' & Eu & _ & Hm & Hex'). simpl in Eu, Hm, Hex'.
      specialize (Min _ Hx). simpl in Min. apply (Hex' n); [lia|].
      eapply latch_cnf_same; [apply (f_cnf _ _ _ _ (proj2 Hs))| |apply Hin].
      apply state_of_inj. rewrite <- E0. auto. }
    eapply bind_okay.
    { apply (generalize_calls k w (Z.of_nat n - 2) st1); auto; [lia|].
      intros Hz. rewrite Ec. replace (Z.to_nat (Z.of_nat n - 2)) with (n - 2) by lia. apply Hbl. lia. }
    intros (g & st2) (G1 & G0 & G2 & G3). cbn [fst snd] in *. rewrite Ec in G2. destruct g as [m|].
    + destruct G3 as (G3 & G4 & G5).
      assert (Hq1 : queue_ok c flag k (cl st2) (r ++ [(state_of c u, n)])).
      { apply queue_add; auto.
        - split; auto. eapply Forall_impl; [|apply Hfr]. intros e. apply entry_grow; auto.
        - apply (entry_grow c flag k (cl st)); auto. exists u. cbn [fst snd]. auto. }
      assert (Hpn' : ~ In (state_of c w) (map fst (r ++ [(state_of c u, n)]))).
      { intros Hx. apply Hpn. rewrite map_app in Hx. apply in_app_iff in Hx. rewrite P. simpl.
        simpl in Hx. tauto. }
      assert (Hq2 : queue_ok c flag k (cl st2) ((r ++ [(state_of c u, n)]) ++ [(state_of c w, m + 1)])).
      { apply queue_add; auto. exists w. cbn [fst snd]. split; auto. split; auto. split; [lia|].
        intros j Hj. apply G5. lia. }
      rewrite (queue_push_new r) by auto. rewrite queue_push_new by auto.
      apply (IH ((r ++ [(state_of c u, n)]) ++ [(state_of c w, m + 1)]) st2); auto.
      apply Forall_app. split; [apply Forall_app; split|].
      * eapply Forall_impl; [|apply Hcr]. intros e. apply close_le. lia.
      * constructor; [|constructor]. exists u, mu. split; auto. split; auto. lia.
      * constructor; [|constructor]. exists w, (S mu). split; auto. split; auto. lia.
    + destruct G3 as (x & x' & G3 & G4 & G5). cbn. apply (bad_before_le (S mu + 2)); [lia|]. eapply near_init; eauto.
Qed.

Lemma strengthen_calls inner k : 1 <= k -> forall fuel st, sinv c flag O good k st -> nobad c flag (cl st) (k - 1) ->
  2 <= cs st ->
  post (strengthen b R O s inner fuel k st) True True (fun r =>
    match fst r with Success => 2 <= cs (snd r) | Failure => bad_before (cs (snd r)) end).
Proof.
  intros Hk. induction fuel as [|fuel IH]; intros st Hs Hnb H2; cbn [strengthen]; [exact I|].
  eapply bind_okay.
  { apply op_count.
    - apply (ok_bad_from _ _ _ _ _ HO); [apply Hs|]. pose proof (f_len _ _ _ _ (proj2 Hs)). lia.
    - intros r' x' E. apply (n_bad_from _ _ HC) in E. exact E. }
  intros (resp & st1) ((Hg & Ec & Hans) & Hlt). cbn [fst snd] in *.
  assert (Hs1 : sinv c flag O good k st1) by (split; auto; rewrite Ec; apply Hs).
  destruct resp as [|asg]; [cbn; lia|].
  destruct Hans as (w & w' & Hst & (Hin & Hbad) & Hval).
  rewrite (extract_state b c flag s asg w Hn He Hval). cbn [bind].
  assert (Hout : ~ in_frame c flag (cl st) (k - 1) w) by (intros X; apply (Hnb w w' Hst X Hbad)).
  destruct (new_in_frame c flag Hp0 k (cl st) k w (proj2 Hs)) as (Hni & Hbl); [lia|exact Hin|exact Hout|].
  assert (Hlw : leads c flag w).
  { apply (leads_step c flag w w'); [apply Hst|apply Hst|]. apply bad_leads; auto. }
  assert (Hnw : near 1 w) by (apply (near_step 0 w w'); auto; apply near_bad; auto).
  eapply bind_okay.
  { apply (generalize_calls k w (Z.of_nat k - 2) st1); auto; [lia|].
    intros Hz. rewrite Ec. replace (Z.to_nat (Z.of_nat k - 2)) with (k - 2) by lia. apply Hbl. lia. }
  intros (g & st2) (G1 & G0 & G2 & G3). cbn [fst snd] in *. rewrite Ec in G2. destruct g as [n|].
  2:{ destruct G3 as (x & x' & G3 & G4 & G5). cbn. apply (bad_before_le (1 + 2)); [lia|]. eapply near_init; eauto. }
  destruct G3 as (G3 & G4 & G5).
  assert (Hq : queue_ok c flag k (cl st2) [(state_of c w, n + 1)]).
  { split; [simpl; constructor; auto; constructor|]. constructor; [|constructor].
    exists w. cbn [fst snd]. split; auto. split; auto. split; [lia|]. intros j Hj. apply G5. lia. }
  rewrite queue_push_new by (intros []). cbn [app].
  eapply post_bind.
  { eapply post_and; [apply (push_ok c flag s Hwf Hn He Hp0 b R O (after 2) HR (ops_after 2) k w Hk inner [(state_of c w, n + 1)] st2); auto|].
    - split; [split; [apply G1|lia]|apply G1].
    - left; auto.
    - apply (push_calls k Hk inner [(state_of c w, n + 1)] st2); auto.
      constructor; [|constructor]. exists w, 1. split; auto. split; auto. lia. }
  intros (o & st3) ((F1 & F2 & F3) & F4). cbn [fst snd] in *. destruct F1 as ((F1 & F1') & F1'').
  destruct o; [|exact F4].
  apply (IH st3); auto.
  - split; auto.
  - eapply nobad_grow; [|exact Hnb]. eapply grow_trans; eauto.
Qed.

Lemma prove_loop_calls inner : forall outer k0 st, sinv c flag O (after 2) k0 st -> nobad c flag (cl st) k0 ->
  post (prove_loop b R O s inner outer (S k0) st) True True (fun r =>
    forall d, fst r = ProofCTX d -> bad_before (cs (snd r))).
Proof.
  induction outer as [|outer IH]; intros k0 st Hs Hnb; cbn [prove_loop]; [exact I|].
  unfold op_ at 1. destruct (ok_push _ _ _ _ _ (ops_after 2) (st_ops st) (proj1 Hs)) as (x & Ex & Hgx & Ecx).
  rewrite Ex. cbn [bind].
  destruct (finv_new c flag k0 (cl st) (proj2 Hs)) as (Hf1 & Efr).
  rewrite <- Ecx in Hf1, Efr.
  cbn [st_ops]. destruct (debug_assert b _) as [[]| |]; cbn [bind post]; auto.
  rewrite (ok_check _ _ _ _ _ (ops_after 2) x Hgx) by (try apply (f_zero _ _ _ _ Hf1); pose proof (f_len _ _ _ _ Hf1); lia). cbn [bind].
  set (st1 := mkIc3State x (st_draws st)).
  assert (Hnb1 : nobad c flag (cl st1) (S k0 - 1)).
  { replace (S k0 - 1) with k0 by lia. intros w w' Hst (Hw & Hb). apply (Hnb w w' Hst). split; auto.
    unfold st1 in Hw. cbn [st_ops] in Hw. rewrite Efr in Hw. auto. }
  destruct Hgx as (Hgx & Hx2).
  eapply post_bind.
  { eapply post_and.
    - apply (strengthen_ok c flag s Hwf Hn He Hp0 b R O (after 2) HR (ops_after 2) inner (S k0) ltac:(lia) inner st1); auto.
      split; auto. split; auto.
    - apply (strengthen_calls inner (S k0) ltac:(lia) inner st1); auto. split; auto. }
  intros (o & st2) ((G1 & G2 & G3) & G4). cbn [fst snd] in *. destruct o.
  - unfold propagate_clauses.
    eapply bind_okay; [apply (propagate_frames c flag s Hp0 R O (after 2) HR (ops_after 2) (S k0) (S k0) 1 st2); auto; lia|].
    intros st3 (F1 & F2 & F3 & F4).
    assert (Hnb3 : nobad c flag (cl st3) (S k0)) by (eapply nobad_grow; eauto).
    destruct (find_fixpoint b O (seq 1 (S k0)) (st_ops st3)) as [[inv|]| |]; cbn [bind post]; auto.
    + intros d E. discriminate.
  - destruct (depth_of_frame (S k0)); cbn [bind post]; auto.
Qed.

End Run.

Lemma prove_calls (b : build) (R : Random) (O : Ic3Ops) (good : ox O -> Prop) (calls : ox O -> nat) :
  random_ok R -> ops_ok c flag s O good -> counts O calls ->
  forall fuel st, good (st_ops st) -> frames_ok c flag (o_clauses O (st_ops st)) ->
  forall d st', ic3_prove b R O s fuel st = Ok (ProofCTX d, st') -> bad_before (calls (st_ops st')).
Proof.
  intros HR HO HC fuel st Hg Hfr.
  assert (X : post (ic3_prove b R O s fuel st) True True (fun r =>
    forall d, fst r = ProofCTX d -> bad_before (calls (st_ops (snd r))))).
  2:{ intros d st' E. rewrite E in X. apply (X d). reflexivity. }
  unfold ic3_prove.
  eapply bind_okay.
  { apply op_count with (calls := calls); [apply (ok_bad_0 _ _ _ _ _ HO); auto|].
    intros r x' E. apply (n_bad_0 _ _ HC) in E. exact E. }
  intros (r0 & st1) ((Hg1 & Ec1 & H0) & L1). cbn [fst snd] in *. destruct r0 as [|asg].
  2:{ destruct H0 as (w & H1 & H2 & H3). destruct (bad_at_0 c flag Hwf w H1 H2 H3) as (r & Hr & Hb).
      cbn. intros d _. exists r, 0. split; auto. split; auto. lia. }
  eapply bind_okay.
  { apply op_count with (calls := calls); [apply (ok_bad_1 _ _ _ _ _ HO); auto|].
    intros r x' E. apply (n_bad_1 _ _ HC) in E. exact E. }
  intros (r1 & st2) ((Hg2 & Ec2 & H1) & L2). cbn [fst snd] in *. rewrite Ec1 in Ec2. destruct r1 as [|asg].
  2:{ destruct H1 as (w & w' & A1 & A3 & A4). destruct (bad_at_1 c flag Hwf w w' A1 A3 A4) as (r & Hr & Hb).
      cbn. intros d _. exists r, 1. split; auto. split; auto. lia. }
  unfold op_ at 1. destruct (ok_push _ _ _ _ _ HO (st_ops st2) Hg2) as (x & Ex & Hgx & Ecx).
  rewrite Ex. cbn [bind]. unfold op_ at 1. cbn [st_ops].
  destruct (ok_push _ _ _ _ _ HO x Hgx) as (x' & Ex' & Hgx' & Ecx'). rewrite Ex'. cbn [bind].
  assert (Ecls : o_clauses O x' = o_clauses O (st_ops st) ++ [cnf_new; cnf_new]).
  { rewrite Ecx', Ecx, Ec2, <- app_assoc. reflexivity. }
  apply (prove_loop_calls H0 b R O good calls HR HO HC fuel fuel 0).
  - split; [split; [auto|]|].
    + cbn [st_ops]. apply (n_push _ _ HC) in Ex. apply (n_push _ _ HC) in Ex'. lia.
    + cbn [st_ops]. rewrite Ecls. exact Hfr.
  - cbn [st_ops]. intros w w' Hst (_ & Hw). apply (H1 w w' Hst). exact Hw.
Qed.

End Bound.
