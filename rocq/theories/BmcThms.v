(** Lemmas behind the properties of bounded model checking (C32 - C34). *)
From Verif Require Import Base Formulas FormulaLogic Aig Fsts Bmc Solvers Spec SpecAig SpecFsts SpecAlg Tac
  FormulasFacts LogicFacts AigFacts SimFacts AigThms FstsFacts FstsSem TagFacts FstsThms.
Open Scope N_scope.

(* ----------------------------------------------------------------------------- paths *)

Definition path (c : circuit) (p : nat -> valuation) (d : nat) : Prop :=
  (forall t, (t <= d)%nat -> wires_ok c (p t)) /\
  (forall t, (t < d)%nat -> step_values c (p t) (p (S t))).

(** A finite path from an initial state is the beginning of a run. *)
Lemma extend_path c p d : circuit_wf c -> path c p d -> initial_values c (p 0%nat) ->
  exists w, run c w /\ forall t, (t <= d)%nat -> w t = p t.
Proof.
  intros Hwf (Hw & Hs) Hi.
  set (w := fun t => if Nat.leb t d then p t else Nat.iter (t - d) (fun x => succ c x x) (p d)).
  assert (E : forall t, (t <= d)%nat -> w t = p t).
  { intros t Ht. unfold w. destruct (Nat.leb t d) eqn:E; auto. apply Nat.leb_gt in E. lia. }
  assert (E' : forall t, (d <= t)%nat -> w t = Nat.iter (t - d) (fun x => succ c x x) (p d)).
  { intros t Ht. unfold w. destruct (Nat.leb t d) eqn:X; auto. apply Nat.leb_le in X.
    assert (t = d) by lia. subst t. rewrite Nat.sub_diag. reflexivity. }
  assert (E2 : forall t, (d <= t)%nat -> w (S t) = succ c (w t) (w t)).
  { intros t Ht. rewrite !E' by lia. replace (S t - d)%nat with (S (t - d)) by lia. reflexivity. }
  exists w. split; auto. split; [|split].
  - intros t. destruct (Nat.le_gt_cases t d) as [Ht|Ht]; [rewrite E by lia; auto|].
    destruct t as [|t]; [lia|]. rewrite E2 by lia. apply succ_wires; auto.
  - rewrite E by lia. auto.
  - intros t. destruct (Nat.lt_ge_cases t d) as [Ht|Ht].
    + rewrite !E by lia. auto.
    + rewrite E2 by lia. apply succ_step.
Qed.

Lemma bound_cases b limit n : limit < 4294967296 -> u32_add b limit 1 = Ok n ->
  n = limit + 1 \/ (n = 0 /\ 2147483647 < limit).
Proof.
  intros Hl E. unfold u32_add in E. destruct (limit + 1 <? u32_mod) eqn:E1.
  - injection E as <-. auto.
  - right. assert (E0 : limit + 1 = u32_mod) by (unfold u32_mod in *; lia).
    split; [|unfold u32_mod in *; lia].
    destruct b; [discriminate E|]. injection E as E. rewrite <- E, E0.
    apply N.mod_same. discriminate.
Qed.

Section Bmc.
  Variables (c : circuit) (flag : bool) (s : FSTS).
  Hypothesis Hwf : circuit_wf c.
  Hypothesis Hn : numbered c flag.
  Hypothesis He : encodes c flag s.
  Let M := c_max c.
  Let notp := cnf_append (clause_to_cnf (get_unsafety_property s)) (get_state_to_safety_translation s).

  Definition tag_ok (k : N) (f : CNF) : Prop :=
    M * k < 4294967296 /\ (M * k = 0 \/ cnf_vars (bumpable (M * k)) f).
  Definition unroll_ok (d : nat) : Prop :=
    (forall i, (i < d)%nat -> tag_ok (N.of_nat i) (transition s)) /\ tag_ok (N.of_nat d) notp.

  Lemma tag_ok_tag b k f : api_cnf f -> tag_ok k f ->
    add_tags_to_relation b s f k = Ok (tagged_cnf (M * k) f).
  Proof.
    intros Ha (H1 & H2). pose proof (add_tags_relation_ok b s f k Ha) as H.
    rewrite (e_max _ _ _ He) in H. auto.
  Qed.
  Lemma tag_debug k f f' : api_cnf f -> add_tags_to_relation Debug s f k = Ok f' -> tag_ok k f.
  Proof.
    intros Ha H. pose proof H as H'. apply add_tags_relation_debug in H; auto. destruct H as (H & _).
    rewrite (e_max _ _ _ He) in H. split; auto.
    unfold add_tags_to_relation in H'. apply bind_ok in H'. destruct H' as (n & E & _).
    apply u32_mul_debug in E. rewrite (e_max _ _ _ He) in E. unfold M. lia.
  Qed.

  Lemma notp_api : api_cnf notp.
  Proof.
    unfold notp. pose proof (unsafe_api c flag s He). pose proof (e_s_api _ _ _ He).
    unfold get_unsafety_property, get_state_to_safety_translation. auto with api.
  Qed.
  Lemma notp_vars : cnf_vars (fun v => 1 <= v <= M) notp.
  Proof.
    unfold notp. apply cnf_append_vars; [apply clause_to_cnf_vars, (unsafe_vars c flag s Hwf Hn He)|].
    apply (e_s_vars _ _ _ He).
  Qed.
  Lemma t_vars : cnf_vars (fun v => 1 <= v <= 2 * M) (transition s).
  Proof.
    eapply cnf_vars_impl; [|apply (e_t_vars _ _ _ He)]. intros v [Hv|Hv]; cbv beta; [unfold M; lia|].
    pose proof (latch_le_max _ _ Hv). apply is_latch_iff in Hv. unfold M. lia.
  Qed.

  Lemma range_unroll_ok d : N.of_nat (d + 1) * M <= 2147483647 -> unroll_ok d.
  Proof.
    intros H. assert (Hd : (N.of_nat d + 1) * M <= 2147483647) by lia. split.
    - intros i Hi. assert (Hm : (N.of_nat i + 2) * M <= (N.of_nat d + 1) * M)
        by (apply N.mul_le_mono_r; lia).
      split; [lia|]. right. eapply cnf_vars_impl; [|apply t_vars]. intros v Hv. cbv beta in Hv.
      unfold bumpable. lia.
    - split; [lia|]. right. eapply cnf_vars_impl; [|apply notp_vars]. intros v Hv. cbv beta in Hv.
      unfold bumpable. lia.
  Qed.

  Definition unrolled (d : nat) (f : CNF) : CNF :=
    fold_left (fun acc i => cnf_append acc (tagged_cnf (M * N.of_nat i) (transition s))) (seq 0 d) f.
  Definition formula (d : nat) : CNF :=
    cnf_append (unrolled d (cube_to_cnf (initial_states s))) (tagged_cnf (M * N.of_nat d) notp).

  Lemma foldM_append b : forall l f,
    (forall i, In i l -> tag_ok (N.of_nat i) (transition s)) ->
    foldM (fun acc i => t <- add_tags_to_relation b s (transition s) (N.of_nat i) ;; Ok (cnf_append acc t))
      l f = Ok (fold_left (fun acc i => cnf_append acc (tagged_cnf (M * N.of_nat i) (transition s))) l f).
  Proof.
    induction l as [|i l IH]; intros f H; simpl; auto.
    rewrite tag_ok_tag; [|apply (e_t_api _ _ _ He)|apply H; simpl; auto]. cbn [bind].
    apply IH. intros j Hj. apply H. simpl; auto.
  Qed.

  Lemma bmc_formula_ok b d : unroll_ok (N.to_nat d) -> bmc_formula b s d = Ok (formula (N.to_nat d)).
  Proof.
    intros (H1 & H2). unfold bmc_formula, bmc_unroll, get_transition_relation, get_initial_relation.
    rewrite foldM_append.
    - cbn [bind]. fold notp. rewrite N2Nat.id in H2. rewrite (tag_ok_tag b d notp notp_api H2).
      cbn [bind]. unfold formula, unrolled. rewrite N2Nat.id. reflexivity.
    - intros i Hi. apply in_seq in Hi. apply H1. lia.
  Qed.

  Lemma bmc_formula_debug d f : bmc_formula Debug s d = Ok f -> unroll_ok (N.to_nat d).
  Proof.
    intros H. unfold bmc_formula in H. apply bind_ok in H. destruct H as (g & E & H).
    apply bind_ok in H. destruct H as (p & E2 & _). fold notp in E2.
    apply tag_debug in E2; [|apply notp_api]. split; [|rewrite N2Nat.id; auto].
    intros i Hi. unfold bmc_unroll in E.
    destruct (foldM_ok_in _ _ _ _ i E) as (st & st' & E'); [apply in_seq; lia|].
    apply bind_ok in E'. destruct E' as (t & E' & _). eapply tag_debug; eauto.
    apply (e_t_api _ _ _ He).
  Qed.

  Lemma notp_legal : cnf_legal notp.
  Proof.
    pose proof (unsafe_legal c flag s Hwf Hn He). pose proof (e_s_legal _ _ _ He).
    unfold notp, get_unsafety_property, get_state_to_safety_translation. auto with api.
  Qed.

  Lemma tagged_ok_legal k f : cnf_legal f -> tag_ok k f -> cnf_legal (tagged_cnf (M * k) f).
  Proof.
    intros Hl (_ & [E|Hv]); [rewrite E; exact Hl|apply tagged_cnf_legal; auto].
  Qed.

  Lemma unrolled_api_legal : forall l f, api_cnf f -> cnf_legal f ->
    (forall i, In i l -> tag_ok (N.of_nat i) (transition s)) ->
    let g := fold_left (fun acc i => cnf_append acc (tagged_cnf (M * N.of_nat i) (transition s))) l f in
    api_cnf g /\ cnf_legal g.
  Proof.
    induction l as [|i l IH]; intros f Ha Hl H; simpl; auto. apply IH.
    - pose proof (tagged_cnf_api (M * N.of_nat i) _ (e_t_api _ _ _ He)). auto with api.
    - pose proof (tagged_ok_legal (N.of_nat i) _ (e_t_legal _ _ _ He)
        (H i (or_introl eq_refl))). auto with api.
    - intros j Hj. apply H. simpl; auto.
  Qed.

  Lemma formula_api_legal d : unroll_ok d -> api_cnf (formula d) /\ cnf_legal (formula d).
  Proof.
    intros (H1 & H2). unfold formula, unrolled.
    destruct (unrolled_api_legal (seq 0 d) (cube_to_cnf (initial_states s))) as (A & L).
    - pose proof (init_api c flag s He). auto with api.
    - pose proof (init_legal c flag s Hn He). auto with api.
    - intros i Hi. apply in_seq in Hi. apply H1. lia.
    - pose proof (tagged_cnf_api (M * N.of_nat d) _ notp_api).
      pose proof (tagged_ok_legal (N.of_nat d) _ notp_legal H2). auto with api.
  Qed.

  Lemma unrolled_vars P : forall l f, cnf_vars P f ->
    (forall i, In i l -> cnf_vars (fun v => P (v + M * N.of_nat i)) (transition s)) ->
    cnf_vars P (fold_left (fun acc i => cnf_append acc (tagged_cnf (M * N.of_nat i) (transition s))) l f).
  Proof.
    induction l as [|i l IH]; intros f Hf Hl; auto. cbn [fold_left].
    apply IH; [|intros k Hk; apply Hl; right; auto].
    apply cnf_append_vars; auto. apply tagged_cnf_vars. apply Hl. left; auto.
  Qed.

  Lemma formula_max d m : 0 < m -> unroll_ok d -> N.of_nat (d + 1) * M < m -> cnf_max (formula d) < m.
  Proof.
    intros H0 Hu H. assert (Hd : (N.of_nat d + 1) * M < m) by lia.
    apply vars_below; auto; [apply formula_api_legal; auto|]. unfold formula, unrolled.
    apply cnf_append_vars; [apply unrolled_vars|].
    - apply cube_to_cnf_vars. eapply cube_vars_impl; [|apply (init_vars c flag s He)].
      intros v Hv. cbv beta in Hv |- *. apply latch_le_max in Hv. fold M in Hv. lia.
    - intros i Hin. apply in_seq in Hin.
      assert ((N.of_nat i + 2) * M <= (N.of_nat d + 1) * M) by (apply N.mul_le_mono_r; lia).
      eapply cnf_vars_impl; [|apply t_vars]. intros v Hv. cbv beta in Hv |- *. lia.
    - apply tagged_cnf_vars. eapply cnf_vars_impl; [|apply notp_vars].
      intros v Hv. cbv beta in Hv |- *. lia.
  Qed.

  Lemma unrolled_true a : forall l f,
    cnf_true a (fold_left (fun acc i => cnf_append acc (tagged_cnf (M * N.of_nat i) (transition s))) l f) <->
    cnf_true a f /\ forall i, In i l -> cnf_true (shift (M * N.of_nat i) a) (transition s).
  Proof.
    induction l as [|i l IH]; intros f; simpl.
    - split; [intros H; split; auto; intros i []|intros (H & _); auto].
    - rewrite IH, cnf_append_true, tagged_cnf_true. split.
      + intros ((H1 & H2) & H3). split; auto. intros j [<-|Hj]; auto.
      + intros (H1 & H2). repeat split; auto.
  Qed.

  Lemma formula_true a d : cnf_true a (formula d) <->
    initial_values c a /\
    (forall i, (i < d)%nat -> cnf_true (shift (M * N.of_nat i) a) (transition s)) /\
    cnf_true (shift (M * N.of_nat d) a) (state_to_safety_translation s) /\
    clause_true (shift (M * N.of_nat d) a) (unsafety_property s).
  Proof.
    unfold formula, unrolled. rewrite cnf_append_true, unrolled_true, cube_to_cnf_true, tagged_cnf_true.
    rewrite (init_true c flag s He). unfold notp, get_unsafety_property, get_state_to_safety_translation.
    rewrite cnf_append_true, clause_to_cnf_true. setoid_rewrite in_seq. split.
    - intros ((H1 & H2) & H3 & H4). split; auto. split; auto. intros i Hi. apply H2. lia.
    - intros (H1 & H2 & H3 & H4). split; [split|]; auto. intros i Hi. apply H2. lia.
  Qed.

  (** The path described by a valuation of all time frames. *)
  Definition decoded (a : valuation) (t : nat) : valuation := ev c (shift (M * N.of_nat t) a).

  Lemma decoded_src a t v : is_input c v \/ is_latch c v -> decoded a t v = a (v + N.of_nat t * M).
  Proof. intros H. unfold decoded. rewrite ev_src by tauto. unfold shift. f_equal. lia. Qed.

  Lemma decoded_path a d : cnf_true a (formula d) ->
    path c (decoded a) d /\ initial_values c (decoded a 0%nat) /\ is_bad c flag (decoded a d).
  Proof.
    intros H. apply formula_true in H. destruct H as (Hi & HT & HS & HU).
    split; [split|split].
    - intros t _. apply ev_wires_ok; auto.
    - intros t Ht v nx r L. rewrite decoded_src by (right; exists nx, r; auto).
      pose proof (trans_sound c flag s Hwf Hn He _ (HT t Ht) v nx r L) as E.
      unfold decoded. rewrite <- E. unfold shift, M. f_equal. lia.
    - intros v nx r L. rewrite decoded_src by (right; exists nx, r; auto).
      simpl N.of_nat. rewrite N.mul_0_l, N.add_0_r. apply (Hi _ _ _ L).
    - apply (unsafe_bad c flag s Hwf Hn He); auto.
  Qed.

  Lemma no_variables_no_bad w : M = 0 -> ~ is_bad c flag w.
  Proof.
    intros HM (l & Hl & _).
    pose proof (bad_range c flag Hwf) as R. rewrite Forall_forall in R. specialize (R l Hl). red in R.
    destruct Hn as (_ & _ & Hb). rewrite Forall_forall in Hb. specialize (Hb l Hl). unfold M in *. lia.
  Qed.

  Lemma run_formula w d : run c w -> is_bad c flag (w d) -> cnf_true (unroll M w) (formula d).
  Proof.
    intros (Hw & Hi & Hs) Hb. destruct (N.eq_dec M 0) as [HM|HM]; [elim (no_variables_no_bad _ HM Hb)|].
    assert (U : forall t x, 1 <= x -> shift (M * N.of_nat t) (unroll M w) x = unroll M (fun i => w (i + t)%nat) x).
    { intros t x Hx. unfold shift. rewrite (N.mul_comm M), unroll_shift by auto. rewrite Nat2N.id. reflexivity. }
    assert (A : forall tr v, 1 <= v <= M -> unroll M tr v = tr 0%nat v).
    { intros tr v Hv. pose proof (unroll_at M tr 0 v Hv) as E. rewrite N.mul_0_l, N.add_0_r in E. auto. }
    apply formula_true. split; [|split; [|split]].
    - intros v nx r L. rewrite A; [apply (Hi _ _ _ L)|].
      assert (Lv : is_latch c v) by (exists nx, r; auto). pose proof (latch_range _ _ _ _ L).
      apply latch_le_max in Lv. unfold M. lia.
    - intros t Ht. apply (cnf_true_ext _ (unroll M (fun i => w (i + t)%nat)) _ _ t_vars).
      + intros v Hv. cbv beta in Hv. symmetry. apply U. lia.
      + apply (unroll_trans c flag s Hwf He); simpl; auto.
    - apply (cnf_true_ext _ (w d) _ _ (e_s_vars _ _ _ He)).
      + intros v Hv. cbv beta in Hv. rewrite U by lia. rewrite A by (unfold M; lia). reflexivity.
      + apply (safety_complete c flag s He); auto.
    - apply (unsafe_true c flag s He). apply (is_bad_ext c flag s Hwf Hn He (w d)); auto.
      intros v Hv. rewrite U by lia. rewrite A by (unfold M; lia). reflexivity.
  Qed.

  Lemma unsat_safe d : (forall a, ~ cnf_true a (formula d)) -> forall w, run c w -> ~ is_bad c flag (w d).
  Proof. intros H w Hr Hb. apply (H _ (run_formula w d Hr Hb)). Qed.

  (* ------------------------------------------------------------------------ the loop *)

  Definition ctx_ok (asg : Assignment) (d : nat) : Prop :=
    satisfies_clauses asg (cnf_clauses (formula d)) /\ safe_before c flag d.

  Lemma bmc_loop_ok m b T clk limit : solver_sound_below m T ->
    forall remaining depth r,
    (b = Debug /\ m = 2147483648 \/ N.of_nat (depth + remaining) * M < m <= 2147483648) ->
    safe_before c flag depth -> (N.to_nat limit < depth + remaining)%nat -> 
    (depth + remaining <= S (N.to_nat limit))%nat ->
    bmc_loop b T clk s limit remaining (N.of_nat depth) = Ok r ->
    match r with
    | CTX asg d => (N.to_nat d <= N.to_nat limit)%nat /\ ctx_ok asg (N.to_nat d)
    | NoCTX z => (z <= Z.of_N limit)%Z /\ (-1 <= z)%Z /\ safe_before c flag (Z.to_nat (z + 1))
    end.
  Proof.
    intros HT. induction remaining as [|rem IH]; intros depth r Hb Hsafe Hlim Hlim2 H; simpl in H.
    - unfold i32_of_u32 in H. apply bind_ok in H. destruct H as (z & E & H). inv H.
      apply bind_ok in E. destruct E as ([] & _ & E). inv E. split; [lia|]. split; [lia|].
      replace (Z.to_nat (Z.of_N limit + 1)) with depth; auto. lia.
    - assert (Stop : forall z, i32_of_u32 (N.of_nat depth) = Ok z ->
        (z - 1 <= Z.of_N limit)%Z /\ (-1 <= z - 1)%Z /\ safe_before c flag (Z.to_nat (z - 1 + 1))).
      { intros z E. unfold i32_of_u32 in E. apply bind_ok in E. destruct E as ([] & _ & E). inv E.
        split; [lia|]. split; [lia|]. replace (Z.to_nat (Z.of_N (N.of_nat depth) - 1 + 1)) with depth; auto. lia. }
      destruct (expired_before clk (N.of_nat depth)).
      { apply bind_ok in H. destruct H as (z & E & H). inv H. auto. }
      apply bind_ok in H. destruct H as (f & Ef & H).
      assert (Hu : unroll_ok depth).
      { destruct Hb as [(-> & _)|Hb]; [apply bmc_formula_debug in Ef; rewrite Nat2N.id in Ef; auto|].
        apply range_unroll_ok. assert (N.of_nat (depth + 1) * M <= N.of_nat (depth + S rem) * M)
          by (apply N.mul_le_mono_r; lia). lia. }
      rewrite bmc_formula_ok in Ef by (rewrite Nat2N.id; auto). rewrite Nat2N.id in Ef. inv Ef.
      destruct (formula_api_legal depth Hu) as (Ha & Hl).
      apply bind_ok in H. destruct H as (tr & Et & H). unfold timed_sat_call in Et.
      destruct (call_times_out clk (N.of_nat depth)).
      { inv Et. apply bind_ok in H. destruct H as (z & E & H). inv H. auto. }
      apply bind_ok in Et. destruct Et as (resp & Er & Et). inv Et.
      assert (Hmax : cnf_max (formula depth) < m).
      { destruct Hb as [(_ & ->)|Hb]; [apply legal_max; auto|].
        assert (N.of_nat (depth + 1) * M <= N.of_nat (depth + S rem) * M) by (apply N.mul_le_mono_r; lia).
        apply formula_max; auto; lia. }
      pose proof (HT (N.to_nat (N.of_nat depth)) (formula depth) Ha Hl Hmax) as Hr'. rewrite Er in Hr'.
      destruct resp as [|asg].
      + replace (N.of_nat depth + 1) with (N.of_nat (S depth)) in H by lia.
        apply IH in H; auto; try lia.
        * destruct Hb as [Hb|Hb]; [left; auto|]. right. replace (S depth + rem)%nat with (depth + S rem)%nat by lia. auto.
        * intros w Hw t Ht. destruct (Nat.eq_dec t depth) as [->|Hne].
          -- apply unsat_safe; auto. intros a Hx. apply Hr'. exists a. exact Hx.
          -- apply Hsafe; auto. lia.
      + inv H. rewrite Nat2N.id. split; [lia|]. split; auto.
  Qed.

  Lemma bmc_loop_total m b T clk limit : solver_correct_below m T -> m <= 2147483648 ->
    forall remaining depth,
    N.of_nat (depth + remaining) * M < m ->
    safe_before c flag depth -> limit <= 2147483647 -> (depth + remaining = S (N.to_nat limit))%nat ->
    exists r, bmc_loop b T clk s limit remaining (N.of_nat depth) = Ok r /\
      (never_times_out clk -> forall z, r = NoCTX z -> z = Z.of_N limit).
  Proof.
    intros HT H31. induction remaining as [|rem IH]; intros depth Hb Hsafe Hlim Hlim2; simpl.
    - unfold i32_of_u32. destruct (limit <=? 2147483647) eqn:E; [|lia]. cbn [assert_ bind].
      eexists. split; [reflexivity|]. intros _ z Ez. inv Ez. auto.
    - assert (Stop : exists z, i32_of_u32 (N.of_nat depth) = Ok z).
      { unfold i32_of_u32. destruct (N.of_nat depth <=? 2147483647) eqn:E; [|lia]. simpl. eauto. }
      destruct Stop as (z0 & Stop). rewrite Stop. cbn [bind].
      destruct (expired_before clk (N.of_nat depth)) eqn:Ex.
      { eexists. split; [reflexivity|]. intros Hnt. destruct (Hnt (N.of_nat depth)). congruence. }
      assert (Hu : unroll_ok depth).
      { apply range_unroll_ok. assert (N.of_nat (depth + 1) * M <= N.of_nat (depth + S rem) * M)
          by (apply N.mul_le_mono_r; lia). lia. }
      rewrite bmc_formula_ok by (rewrite Nat2N.id; auto). rewrite Nat2N.id. cbn [bind].
      destruct (formula_api_legal depth Hu) as (Ha & Hl).
      unfold timed_sat_call. destruct (call_times_out clk (N.of_nat depth)) eqn:Ec.
      { cbn [bind]. eexists. split; [reflexivity|]. intros Hnt. destruct (Hnt (N.of_nat depth)). congruence. }
      assert (Hmax : cnf_max (formula depth) < m).
      { assert (N.of_nat (depth + 1) * M <= N.of_nat (depth + S rem) * M) by (apply N.mul_le_mono_r; lia).
        apply formula_max; auto; lia. }
      destruct (solver_sat_below m T (N.to_nat (N.of_nat depth)) (formula depth) HT Ha Hl Hmax) as (r' & Er' & Hr').
      rewrite Er'. cbn [bind]. destruct r' as [|asg].
      + replace (N.of_nat depth + 1) with (N.of_nat (S depth)) by lia. apply IH; auto; try lia.
        * intros w Hw t Ht. destruct (Nat.eq_dec t depth) as [->|Hne].
          -- apply unsat_safe; auto.
          -- apply Hsafe; auto. lia.
      + eexists. split; [reflexivity|]. intros _ z Ez. discriminate.
  Qed.

  Lemma no_iterations b T clk limit r : 2147483647 < limit ->
    bmc_loop b T clk s limit 0 0 <> Ok r.
  Proof.
    intros H. cbn [bmc_loop]. unfold i32_of_u32. destruct (limit <=? 2147483647) eqn:E2; [lia|].
    cbn [assert_ bind]. discriminate.
  Qed.

  Lemma bmc_search_result m b T clk limit r : solver_sound_below m T ->
    (b = Debug /\ m = 2147483648 \/ (limit + 1) * M < m <= 2147483648) -> (limit < 4294967296) ->
    bmc_search b T clk s limit = Ok r ->
    match r with
    | CTX asg d => d <= limit /\ ctx_ok asg (N.to_nat d)
    | NoCTX z => (z <= Z.of_N limit)%Z /\ (-1 <= z)%Z /\ safe_before c flag (Z.to_nat (z + 1))
    end.
  Proof.
    intros HT Hb Hlim H. unfold bmc_search in H. apply bind_ok in H. destruct H as (n & E & H).
    destruct (bound_cases b limit n Hlim E) as [->|(-> & E0)].
    - apply (bmc_loop_ok m b T clk limit HT (N.to_nat (limit + 1)) 0) in H; try lia.
      + destruct r; auto. destruct H as (H & H'). split; auto. lia.
      + destruct Hb as [Hb|Hb]; [left; auto|]. right. replace (N.of_nat (0 + N.to_nat (limit + 1))) with (limit + 1) by lia. auto.
      + intros w Hw t Ht. lia.
    - elim (no_iterations _ _ _ _ _ E0 H).
  Qed.
End Bmc.

Lemma safe_before_at c flag n : safe_before c flag n -> forall w, run c w -> forall t, (t < n)%nat -> ~ is_bad c flag (w t).
Proof. auto. Qed.

(* ------------------------------------------------------------------------ C32 *)

Lemma bmc_ctx_sound m b c flag s T clk limit asg d :
  system_of b c flag s -> well_numbered b c flag -> solver_sound_below m T ->
  limit < 4294967296 -> b = Debug /\ m = 2147483648 \/ (limit + 1) * c_max c < m <= 2147483648 ->
  bmc_search b T clk s limit = Ok (CTX asg d) ->
  d <= limit /\ safe_before c flag (N.to_nat d) /\
  forall a, agrees asg a -> exists w, run c w /\ is_bad c flag (w (N.to_nat d)) /\
    forall t v, N.of_nat t <= d -> is_input c v \/ is_latch c v ->
      w t v = a (v + N.of_nat t * c_max c).
Proof.
  intros Hs Hw HT Hl Hb E. destruct (system_encodes _ _ _ _ Hs Hw) as (Hwf & Hn & He).
  apply (bmc_search_result c flag s Hwf Hn He m) in E; auto. destruct E as (Hd & Hsat & Hsafe).
  split; auto. split; auto. intros a Ha.
  assert (Ht : cnf_true a (formula c s (N.to_nat d))) by (apply Hsat; auto).
  destruct (decoded_path c flag s Hwf Hn He a _ Ht) as (Hp & Hi & Hbad).
  destruct (extend_path c (decoded c a) (N.to_nat d) Hwf Hp Hi) as (w & Hr & Hx).
  exists w. split; auto. split; [rewrite Hx by lia; auto|].
  intros t v Htd Hv. rewrite Hx by lia. apply decoded_src; auto.
Qed.

Lemma keys_map {A} (f : N -> A) l : map fst (map (fun v => (v, f v)) l) = l.
Proof. rewrite map_map. cbn [fst]. apply map_id. Qed.

(** A path from an initial state is what [simulate] computes from its inputs and latches. *)
Lemma simulate_path g c a w n : represents g c -> circuit_wf c -> circuit_fits c ->
  path c w (N.to_nat n) -> initial_values c (w 0%nat) ->
  (forall t v, N.of_nat t <= n -> is_input c v \/ is_latch c v -> w t v = a (v + N.of_nat t * c_max c)) ->
  exists r, simulate g (frame_inputs c a n) (frame_latches c a) = Ok r /\
    length r = S (N.to_nat n) /\
    forall t v, N.of_nat t <= n -> v <= c_max c -> nth (N.to_nat v) (nth t r []) false = w t v.
Proof.
  intros Hr Hwf Hf (P1 & P2) Hi Hval.
  assert (Hkeys : forall m, In m (frame_inputs c a n) -> keys m = numbers 1 (c_inputs c)).
  { intros m Hm. apply in_map_iff in Hm. destruct Hm as (t & <- & _). apply keys_map. }
  assert (Hkl : keys (frame_latches c a) = numbers (c_inputs c + 1) (lenN (c_latches c)))
    by (apply keys_map).
  assert (Hc : complete_stimulus c (frame_inputs c a n) (frame_latches c a)).
  { split; [discriminate|]. split; [|split; [|split]].
    - intros m Hm. rewrite (Hkeys m Hm). split; [apply numbers_nodup|]. intros v. apply in_inputs.
    - rewrite Hkl. apply numbers_nodup.
    - intros v. rewrite Hkl. apply in_states.
    - intros v nx r L _. rewrite Hkl. apply in_states. exists nx, r. auto. }
  destruct (simulate_total g c Hr Hwf Hf _ _ Hc) as (r & Er).
  { intros nx L. rewrite Hkl. apply in_states. exists nx, 1. auto. }
  destruct (simulate_full g c Hr Hwf Hf (frame_inputs c a n) (frame_latches c a) r) as (Hlen & _ & _ & Hu); auto.
  { apply Forall_forall. intros m Hm. rewrite (Hkeys m Hm). apply numbers_nodup. }
  { rewrite Hkl. apply numbers_nodup. }
  assert (Hlen' : length (frame_inputs c a n) = S (N.to_nat n)).
  { unfold frame_inputs. rewrite map_length, seq_length. auto. }
  assert (Htr : sim_trace c (frame_inputs c a n) (frame_latches c a) w).
  { intros t m Hm.
    assert (Ht : (t < S (N.to_nat n))%nat) by (rewrite <- Hlen'; apply nth_error_Some; congruence).
    unfold frame_inputs in Hm. rewrite nth_error_map in Hm.
    assert (En : nth_error (seq 0 (S (N.to_nat n))) t = Some t).
    { rewrite nth_error_nth' with (d := 0%nat); [|rewrite seq_length; auto]. rewrite seq_nth; auto. }
    rewrite En in Hm. cbn [option_map] in Hm. injection Hm as <-.
    split; [apply P1; lia|]. split; [|split].
    - intros v Hv. apply in_map_iff. exists v. split; [|apply in_inputs; auto].
      rewrite Hval by (auto; lia). reflexivity.
    - intros -> v nx rs L. destruct (Hi _ _ _ L) as (A & B). split; auto. split; auto. intros _.
      apply in_map_iff. exists v. assert (Lv : is_latch c v) by (exists nx, rs; auto).
      split; [|apply in_states; auto]. rewrite Hval by (auto; lia).
      simpl N.of_nat. rewrite N.mul_0_l, N.add_0_r. reflexivity.
    - intros t' ->. apply P2. lia. }
  exists r. split; auto. split; [etransitivity; [exact Hlen|exact Hlen']|].
  intros t v Ht Hv. symmetry. apply Hu; auto.
  assert (X : (t < length (frame_inputs c a n))%nat) by (rewrite Hlen'; lia). exact X.
Qed.

Lemma bmc_ctx_replays top b c flag s T clk limit asg d g :
  system_of b c flag s -> well_numbered b c flag -> solver_sound_below top T ->
  limit < 4294967296 -> b = Debug /\ top = 2147483648 \/ (limit + 1) * c_max c < top <= 2147483648 ->
  bmc_search b T clk s limit = Ok (CTX asg d) ->
  represents g c -> circuit_fits c ->
  exists r, simulate g (ctx_inputs c asg d) (ctx_latches c asg) = Ok r /\
    length r = S (N.to_nat d) /\
    bad_in c flag (nth (N.to_nat d) r []) /\
    forall t, (t < N.to_nat d)%nat -> ~ bad_in c flag (nth t r []).
Proof.
  intros Hs Hw HT Hl Hb E Hr Hf.
  destruct (system_encodes _ _ _ _ Hs Hw) as (Hwf & Hn & He).
  destruct (bmc_ctx_sound _ _ _ _ _ _ _ _ _ _ Hs Hw HT Hl Hb E) as (Hd & Hsafe & HA).
  assert (Hag : agrees asg (value_of asg)) by (intros v x Hv; unfold value_of; rewrite Hv; auto).
  destruct (HA _ Hag) as (w & Hrun & Hbad & Hval). pose proof Hrun as (R1 & R2 & R3).
  destruct (simulate_path g c (value_of asg) w d Hr Hwf Hf) as (r & Er & Hlen & Hv); auto.
  { split; intros; auto. }
  assert (Hb' : forall t, (t <= N.to_nat d)%nat -> (bad_in c flag (nth t r []) <-> is_bad c flag (w t))).
  { intros t Ht. apply (is_bad_ext c flag s Hwf Hn He (fun v => nth (N.to_nat v) (nth t r []) false)).
    intros v Hx. apply Hv; lia. }
  exists r. split; auto. split; auto. split; [apply Hb'; auto|].
  intros t Ht Hx. apply Hb' in Hx; [|lia]. apply (Hsafe w Hrun t Ht Hx).
Qed.

(* ------------------------------------------------------------------------ C33, C34 *)

Lemma bmc_noctx_sound m b c flag s T clk limit z :
  system_of b c flag s -> well_numbered b c flag -> solver_sound_below m T ->
  limit < 4294967296 -> b = Debug /\ m = 2147483648 \/ (limit + 1) * c_max c < m <= 2147483648 ->
  bmc_search b T clk s limit = Ok (NoCTX z) ->
  (-1 <= z <= Z.of_N limit)%Z /\
  forall w, run c w -> forall t, (Z.of_nat t <= z)%Z -> ~ is_bad c flag (w t).
Proof.
  intros Hs Hw HT Hl Hb E. destruct (system_encodes _ _ _ _ Hs Hw) as (Hwf & Hn & He).
  apply (bmc_search_result c flag s Hwf Hn He m) in E; auto. destruct E as (H1 & H2 & Hsafe).
  split; [lia|]. intros w Hr t Ht. apply Hsafe; auto. lia.
Qed.

Lemma bmc_total m b c flag s T clk limit :
  system_of b c flag s -> well_numbered b c flag -> solver_correct_below m T ->
  limit <= 2147483647 -> (limit + 1) * c_max c < m <= 2147483648 ->
  exists r, bmc_search b T clk s limit = Ok r.
Proof.
  intros Hs Hw HT Hl Hm. destruct (system_encodes _ _ _ _ Hs Hw) as (Hwf & Hn & He).
  unfold bmc_search, u32_add. destruct (limit + 1 <? u32_mod) eqn:E; [|unfold u32_mod in E; lia]. cbn [bind].
  destruct (bmc_loop_total c flag s Hwf Hn He m b T clk limit HT (proj2 Hm) (N.to_nat (limit + 1)) 0) as (r & Er & _);
    try lia.
  - intros w Hw' t Ht. lia.
  - exists r. exact Er.
Qed.

Lemma bmc_complete m b c flag s T clk limit :
  system_of b c flag s -> well_numbered b c flag -> solver_correct_below m T ->
  limit <= 2147483647 -> (limit + 1) * c_max c < m <= 2147483648 -> never_times_out clk ->
  ((exists w t, run c w /\ N.of_nat t <= limit /\ is_bad c flag (w t)) ->
     exists asg d, bmc_search b T clk s limit = Ok (CTX asg d)) /\
  ((forall w t, run c w -> N.of_nat t <= limit -> ~ is_bad c flag (w t)) ->
     bmc_search b T clk s limit = Ok (NoCTX (Z.of_N limit))).
Proof.
  intros Hs Hw HT Hl Hm Hnt. destruct (system_encodes _ _ _ _ Hs Hw) as (Hwf & Hn & He).
  assert (X : exists r, bmc_search b T clk s limit = Ok r /\ (forall z, r = NoCTX z -> z = Z.of_N limit)).
  { unfold bmc_search, u32_add. destruct (limit + 1 <? u32_mod) eqn:E; [|unfold u32_mod in E; lia]. cbn [bind].
    destruct (bmc_loop_total c flag s Hwf Hn He m b T clk limit HT (proj2 Hm) (N.to_nat (limit + 1)) 0) as (r & Er & Hz);
      try lia.
    - intros w Hw' t Ht. lia.
    - exists r. split; [exact Er|auto]. }
  destruct X as (r & Er & Hz). destruct r as [z|asg d].
  - rewrite (Hz z eq_refl) in Er. split; [|auto]. intros (w & t & Hr & Ht & Hb).
    assert (HS : forall w, run c w -> forall t, (Z.of_nat t <= Z.of_N limit)%Z -> ~ is_bad c flag (w t)).
    { apply (bmc_noctx_sound m b c flag s T clk limit (Z.of_N limit)); auto using correct_sound. lia. }
    exfalso. apply (HS w Hr t); auto. lia.
  - split; [eauto|]. intros H.
    destruct (bmc_ctx_sound m b c flag s T clk limit asg d Hs Hw (correct_sound _ _ HT)) as (Hd & _ & HA); auto; try lia.
    destruct (HA _ (complete_agrees asg)) as (w & Hr & Hb & _).
    exfalso. apply (H w (N.to_nat d) Hr); auto. lia.
Qed.
