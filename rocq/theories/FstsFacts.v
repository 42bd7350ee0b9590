(** Facts about the construction of transition systems from circuits. *)
From Verif Require Import Base Formulas FormulaLogic Aig Fsts Solvers Spec SpecAig SpecFsts Tac
  FormulasFacts LogicFacts AigFacts SimFacts.
Open Scope N_scope.

(* --------------------------------------------------------------- literals *)

Lemma negate_double n x : negate_if_true (2 * n) x = if x then 2 * n + 1 else 2 * n.
Proof. destruct x; simpl; auto. unfold literal_not. apply lxor1_even. Qed.

Lemma literal_of_aig_ok b l : (b = Release \/ lit_var l <> 0) -> lit_var l <= 2147483647 ->
  literal_of_aig b l = Ok l.
Proof.
  intros Hb Hl. unfold literal_of_aig, u32_of_usize. rewrite shiftr_var.
  destruct (lit_var l <? u32_mod) eqn:E; [|unfold u32_mod in *; lia]. cbn [assert_ bind].
  assert (E2 : literal_new b (lit_var l) = Ok (2 * lit_var l)).
  { destruct (N.eq_dec (lit_var l) 0) as [Z|Z].
    - rewrite Z. destruct Hb as [->|Hb]; [reflexivity|lia].
    - apply literal_new_ok. lia. }
  rewrite E2. cbn [bind]. rewrite negate_double.
  f_equal. unfold lit_var. destruct (l mod 2 =? 1) eqn:E3; lia.
Qed.

Lemma literal_of_aig_debug l l' : literal_of_aig Debug l = Ok l' ->
  1 <= lit_var l <= 2147483647 /\ l' = l.
Proof.
  intros H. unfold literal_of_aig in H. rewrite shiftr_var in H. binds.
  unfold u32_of_usize in E. binds.
  pose proof (literal_new_inv _ _ _ E0) as (Hr & ->). specialize (Hr eq_refl).
  split; auto. rewrite (N.mod_small (2 * _)) by lia.
  rewrite negate_double. unfold lit_var. destruct (l mod 2 =? 1) eqn:E3; lia.
Qed.

(** Variable 0 stands for the constant false. *)
Definition zero (a : valuation) : valuation := fun v => if v =? 0 then false else a v.

Lemma zero_pos a v : v <> 0 -> zero a v = a v.
Proof. unfold zero. intros. destruct (v =? 0) eqn:E; auto. lia. Qed.

Lemma lit_value_zero a l : lit_var l <> 0 -> lit_value (zero a) l = lit_value a l.
Proof. intros. apply lit_value_ext. apply zero_pos; auto. Qed.

Lemma lit_value_0 a : lit_value (zero a) 0 = false. Proof. reflexivity. Qed.
Lemma lit_value_1 a : lit_value (zero a) 1 = true. Proof. reflexivity. Qed.

Lemma lit_true_value a l : lit_true a l <-> lit_value a l = true.
Proof. reflexivity. Qed.
Lemma lit_not_value a l : lit_true a (literal_not l) <-> lit_value a l = false.
Proof. rewrite lit_true_not, lit_true_value. destruct (lit_value a l); split; congruence. Qed.

(* ------------------------------------------------------- adding several clauses *)

Definition adds (f : CNF) (lss : list (list N)) : CNF :=
  fold_left (fun f ls => cnf_add_clause f (clause_new ls)) lss f.

Lemma adds_app f l1 l2 : adds f (l1 ++ l2) = adds (adds f l1) l2.
Proof. apply fold_left_app. Qed.

Lemma in_adds lss : forall f c, In c (cnf_clauses (adds f lss)) <->
  In c (cnf_clauses f) \/ exists ls, In ls lss /\ c = clause_new ls.
Proof.
  induction lss as [|ls lss IH]; intros f c.
  - simpl. split; auto. intros [H|(x & [] & _)]; auto.
  - change (adds f (ls :: lss)) with (adds (cnf_add_clause f (clause_new ls)) lss).
    rewrite IH, in_add_clause. simpl. split.
    + intros [[H|H]|(x & H & H')]; eauto.
    + intros [H|(x & [<-|H] & H')]; eauto.
Qed.

Lemma adds_api lss : forall f, api_cnf f -> api_cnf (adds f lss).
Proof.
  induction lss as [|ls lss IH]; intros f Hf; auto.
  change (adds f (ls :: lss)) with (adds (cnf_add_clause f (clause_new ls)) lss).
  apply IH. auto with api.
Qed.

Lemma adds_legal f lss : cnf_legal f -> Forall (Forall lit_legal) lss -> cnf_legal (adds f lss).
Proof.
  intros Hf Hl. apply Forall_forall. intros c Hc. apply in_adds in Hc.
  destruct Hc as [Hc|(ls & Hin & ->)]. { eapply cnf_legal_in; eauto. }
  apply clause_new_legal. rewrite Forall_forall in Hl. auto.
Qed.

Definition lss_true (a : valuation) (lss : list (list N)) : Prop :=
  forall ls, In ls lss -> exists l, In l ls /\ lit_true a l.

Lemma adds_true a f lss : cnf_true a (adds f lss) <-> cnf_true a f /\ lss_true a lss.
Proof.
  unfold cnf_true, clauses_true, lss_true. split.
  - intros H. split.
    + intros c Hc. apply H. apply in_adds; auto.
    + intros ls Hl. apply clause_new_true. apply H. apply in_adds; eauto.
  - intros (H1 & H2) c Hc. apply in_adds in Hc. destruct Hc as [Hc|(ls & Hl & ->)]; auto.
    apply clause_new_true; auto.
Qed.

Lemma lss_true_app a l1 l2 : lss_true a (l1 ++ l2) <-> lss_true a l1 /\ lss_true a l2.
Proof.
  unfold lss_true. split.
  - intros H. split; intros; apply H; rewrite in_app_iff; auto.
  - intros (H1 & H2) ls Hl. apply in_app_iff in Hl. destruct Hl; auto.
Qed.

Lemma lss_true_cons a ls l : lss_true a (ls :: l) <->
  (exists x, In x ls /\ lit_true a x) /\ lss_true a l.
Proof.
  unfold lss_true. simpl. split.
  - intros H; split; auto.
  - intros (H1 & H2) x [<-|Hx]; auto.
Qed.
Lemma lss_true_nil a : lss_true a [] <-> True.
Proof. unfold lss_true; simpl; intuition. Qed.
Lemma one_true a x : (exists l, In l [x] /\ lit_true a l) <-> lit_true a x.
Proof. simpl. split; [intros (l & [<-|[]] & H); auto|eauto]. Qed.
Lemma two_true a x y : (exists l, In l [x; y] /\ lit_true a l) <-> lit_true a x \/ lit_true a y.
Proof. simpl. split; [intros (l & [<-|[<-|[]]] & H); auto|intros [|]; eauto]. Qed.
Lemma three_true a x y z : (exists l, In l [x; y; z] /\ lit_true a l) <->
  lit_true a x \/ lit_true a y \/ lit_true a z.
Proof. simpl. split; [intros (l & [<-|[<-|[<-|[]]]] & H); auto|intros [|[|]]; eauto 8]. Qed.

(* ------------------------------------------------------------------------- gates *)

Definition gate_holds (a : valuation) (v r0 r1 : N) : Prop :=
  a v = lit_value (zero a) r0 && lit_value (zero a) r1.

Definition occurs (v : N) (lss : list (list N)) : Prop :=
  exists ls l, In ls lss /\ In l ls /\ lit_var l = v.
Definition lss_vars (P : N -> Prop) (lss : list (list N)) : Prop :=
  forall ls l, In ls lss -> In l ls -> P (lit_var l).

Lemma lit_var_even v : lit_var (2 * v) = v. Proof. unfold lit_var. lia. Qed.

(** Variable [x] is an operand of the encoding of a gate with operands [r0] and [r1]. *)
Definition reads (x r0 r1 : N) : Prop :=
  r0 <> 0 /\ r1 <> 0 /\ x <> 0 /\ (lit_var r0 = x \/ lit_var r1 = x).

Lemma occurs_nil x : occurs x [] <-> False.
Proof. split; [|tauto]. intros (ls & l & [] & _). Qed.

Lemma occurs_cons x ls lss : occurs x (ls :: lss) <-> (exists l, In l ls /\ lit_var l = x) \/ occurs x lss.
Proof.
  split.
  - intros (k & l & [<-|H] & Hl & E); [left; eauto|right; exists k, l; auto].
  - intros [(l & Hl & E)|(k & l & H & Hl & E)]; [exists ls, l|exists k, l]; simpl; auto.
Qed.

Lemma occurs_app x l1 l2 : occurs x (l1 ++ l2) <-> occurs x l1 \/ occurs x l2.
Proof.
  split.
  - intros (k & l & H & Hl & E). apply in_app_iff in H. destruct H; [left|right]; exists k, l; auto.
  - intros [(k & l & H & Hl & E)|(k & l & H & Hl & E)]; exists k, l; rewrite in_app_iff; auto.
Qed.

Lemma some_lit_nil x : (exists l, In l [] /\ lit_var l = x) <-> False.
Proof. split; [|tauto]. intros (l & [] & _). Qed.

Lemma some_lit_cons x k ls : (exists l, In l (k :: ls) /\ lit_var l = x) <->
  lit_var k = x \/ exists l, In l ls /\ lit_var l = x.
Proof.
  split.
  - intros (l & [<-|H] & E); eauto.
  - intros [E|(l & H & E)]; [exists k|exists l]; simpl; auto.
Qed.

Ltac occ := intros ?x; repeat rewrite ?occurs_cons, ?occurs_nil, ?some_lit_cons, ?some_lit_nil,
  ?lit_var_not, ?lit_var_even; unfold reads.

Lemma encode_gate_ok b f v r0 r1 : r1 <= r0 < 2 * v -> v <= 2147483647 ->
  exists lss, encode_gate b f (2 * v, r0, r1) = Ok (adds f lss) /\
    lss_vars (fun x => 1 <= x <= v) lss /\
    (forall x, occurs x lss <-> x = v \/ reads x r0 r1) /\
    (forall a, lss_true a lss <-> gate_holds a v r0 r1).
Proof.
  intros Hr Hv. unfold encode_gate.
  assert (V0 : v <> 0) by lia.
  rewrite (literal_of_aig_ok b (2 * v)) by (rewrite lit_var_even; lia). cbn [bind].
  assert (Hn : is_negated (2 * v) = false).
  { rewrite is_negated_odd, odd_mod. lia. }
  rewrite Hn. cbn [negb assert_ bind].
  assert (TV : forall a, lit_value a (2 * v) = a v) by (intros; apply lit_value_even).
  assert (B : forall r, r < 2 * v -> r <> 0 -> r <> 1 -> 1 <= lit_var r < v).
  { intros r. unfold lit_var. lia. }
  destruct (r0 =? 0) eqn:E0; [|destruct (r1 =? 0) eqn:E1].
  1-2: cbn [orb]; exists [[literal_not (2 * v)]]; (split; [reflexivity|]); (split; [|split]).
  - intros ls l [<-|[]] [<-|[]]. rewrite lit_var_not, lit_var_even. lia.
  - occ. lia.
  - intros a. rewrite lss_true_cons, lss_true_nil, one_true, lit_not_value, TV.
    unfold gate_holds. apply N.eqb_eq in E0. subst r0. rewrite lit_value_0. simpl. tauto.
  - intros ls l [<-|[]] [<-|[]]. rewrite lit_var_not, lit_var_even. lia.
  - occ. lia.
  - intros a. rewrite lss_true_cons, lss_true_nil, one_true, lit_not_value, TV.
    unfold gate_holds. apply N.eqb_eq in E1. subst r1. rewrite lit_value_0, andb_false_r. tauto.
  - cbn [orb]. destruct (r0 =? 1) eqn:F0; [destruct (r1 =? 1) eqn:F1|].
    + cbn [andb]. exists [[2 * v]]. split; [reflexivity|]. split; [|split].
      * intros ls l [<-|[]] [<-|[]]. rewrite lit_var_even. lia.
      * occ. apply N.eqb_eq in F0, F1. subst r0 r1. change (lit_var 1) with 0. lia.
      * intros a. rewrite lss_true_cons, lss_true_nil, one_true, lit_true_value, TV.
        unfold gate_holds. apply N.eqb_eq in F0, F1. subst r0 r1. rewrite lit_value_1. simpl. tauto.
    + cbn [andb]. destruct (B r1) as (B1 & B2); try lia.
    + cbn [andb]. destruct (r1 =? 1) eqn:F1.
      * destruct (B r0) as (B1 & B2); try lia.
        rewrite (literal_of_aig_ok b r0) by lia. cbn [bind].
        exists [[literal_not r0; 2 * v]; [r0; literal_not (2 * v)]].
        split; [reflexivity|]. split; [|split].
        -- intros ls l [<-|[<-|[]]] [<-|[<-|[]]]; rewrite ?lit_var_not, ?lit_var_even; lia.
        -- occ. apply N.eqb_eq in F1. subst r1. change (lit_var 1) with 0. lia.
        -- intros a. rewrite !lss_true_cons, lss_true_nil, !two_true, !lit_not_value, !lit_true_value, TV.
           unfold gate_holds. apply N.eqb_eq in F1. subst r1. rewrite lit_value_1, andb_true_r.
           rewrite lit_value_zero by lia.
           destruct (a v), (lit_value a r0); intuition congruence.
      * destruct (B r0) as (B1 & B2); try lia. destruct (B r1) as (B3 & B4); try lia.
        rewrite (literal_of_aig_ok b r0), (literal_of_aig_ok b r1) by lia. cbn [bind].
        exists [[literal_not (2 * v); r0]; [literal_not (2 * v); r1];
                [2 * v; literal_not r0; literal_not r1]].
        split; [reflexivity|]. split; [|split].
        -- intros ls l [<-|[<-|[<-|[]]]]; simpl; intuition subst; rewrite ?lit_var_not, ?lit_var_even; lia.
        -- occ. lia.
        -- intros a. rewrite !lss_true_cons, lss_true_nil, !two_true, three_true, !lit_not_value, !lit_true_value, TV.
           unfold gate_holds. rewrite !lit_value_zero by lia.
           destruct (a v), (lit_value a r0), (lit_value a r1); simpl; intuition congruence.
Qed.

Section Circuit.
Variable (b : build) (a : AIG) (c : circuit).
Hypothesis (Hr : represents a c) (Hwf : circuit_wf c) (Hf : circuit_fits c).
Hypothesis (Hm : c_max c < 2147483647).

Lemma wires_cnf_ok order wires : order_ok order -> Forall (lit_in_range c) wires ->
  exists lss, wires_cnf b order a wires = Ok (adds cnf_new lss) /\
    lss_vars (fun x => 1 <= x <= c_max c) lss /\
    (forall x, occurs x lss <->
       exists v r0 r1, gate c v r0 r1 /\ fan_in c wires v /\ (x = v \/ reads x r0 r1)) /\
    (forall w, lss_true w lss <->
       forall v r0 r1, gate c v r0 r1 -> fan_in c wires v -> gate_holds w v r0 r1).
Proof.
  intros Ho Hw. unfold wires_cnf.
  destruct (cone_ok a c order wires Hr Hwf Hf Ho Hw) as (gs & E & _ & Hgs).
  rewrite E. cbn [bind].
  destruct (foldM_total (encode_gate b)
    (fun pre f => exists lss, f = adds cnf_new lss /\
       lss_vars (fun x => 1 <= x <= c_max c) lss /\
       (forall x, occurs x lss <-> exists lhs r0 r1, In (lhs, r0, r1) pre /\
          (x = lit_var lhs \/ reads x r0 r1)) /\
       (forall w, lss_true w lss <->
          forall lhs r0 r1, In (lhs, r0, r1) pre -> gate_holds w (lit_var lhs) r0 r1))
    gs cnf_new) as (f & Ef & lss & -> & H1 & H2 & H3).
  - exists []. split; auto. split; [intros ? ? []|]. split.
    { intros x. rewrite occurs_nil. split; [tauto|]. intros (? & ? & ? & [] & _). }
    intros w. rewrite lss_true_nil. split; auto. intros _ ? ? ? [].
  - intros pre ((lhs, r0), r1) suf f Eg (lss & -> & H1 & H2 & H3).
    assert (Hin : In (lhs, r0, r1) gs) by (rewrite Eg, in_app_iff; simpl; auto).
    apply Hgs in Hin. destruct Hin as (v & -> & G & _).
    assert (Hb : r1 <= r0 < 2 * v) by (destruct Hwf as (_ & _ & _ & _ & H); apply H; auto).
    pose proof (gate_range _ _ _ _ G) as Rg.
    destruct (encode_gate_ok b (adds cnf_new lss) v r0 r1 Hb) as (l2 & E2 & V2 & O2 & T2); [lia|].
    rewrite E2. eexists; split; [reflexivity|].
    exists (lss ++ l2). rewrite adds_app. split; auto. split; [|split].
    + intros ls l Hls Hl. apply in_app_iff in Hls. destruct Hls as [Hls|Hls].
      * eapply H1; eauto.
      * specialize (V2 _ _ Hls Hl). cbv beta in V2. lia.
    + intros x. rewrite occurs_app, H2, O2. split.
      * intros [(lhs & s0 & s1 & Hin & Hx)|Hx].
        -- exists lhs, s0, s1. rewrite in_app_iff. auto.
        -- exists (2 * v), r0, r1. rewrite in_app_iff, lit_var_even. simpl. auto.
      * intros (lhs & s0 & s1 & Hin & Hx). apply in_app_iff in Hin. destruct Hin as [Hin|[Eq|[]]].
        -- left. exists lhs, s0, s1. auto.
        -- right. inv Eq. rewrite lit_var_even in Hx. auto.
    + intros w. rewrite lss_true_app, H3, T2. split.
      * intros (Ha & Hb2) lhs s0 s1 Hin. apply in_app_iff in Hin. destruct Hin as [Hin|[Eq|[]]]; eauto.
        inv Eq. rewrite lit_var_even. auto.
      * intros H. split.
        -- intros lhs s0 s1 Hin. apply H. apply in_app_iff; auto.
        -- specialize (H (2 * v) r0 r1). rewrite lit_var_even in H. apply H.
           apply in_app_iff; simpl; auto.
  - exists lss. split; auto. split; auto. split.
    + intros x. rewrite H2. split.
      * intros (lhs & r0 & r1 & Hin & Hx). apply Hgs in Hin. destruct Hin as (v & -> & G & F).
        rewrite lit_var_even in Hx. exists v, r0, r1. auto.
      * intros (v & r0 & r1 & G & F & Hx). exists (2 * v), r0, r1. rewrite lit_var_even.
        split; auto. apply Hgs. eauto.
    + intros w. rewrite H3. split.
      * intros H v r0 r1 G F. rewrite <- (lit_var_even v). apply H. apply Hgs. eauto.
      * intros H lhs r0 r1 Hin. apply Hgs in Hin. destruct Hin as (v & -> & G & F).
        rewrite lit_var_even. auto.
Qed.

(** The wires in the cone have the values the circuit computes. *)
Lemma fan_in_value w wires : Forall (lit_in_range c) wires ->
  (forall v r0 r1, gate c v r0 r1 -> fan_in c wires v -> gate_holds w v r0 r1) ->
  forall l, In l wires -> lit_value (zero w) l = lit_value (ev c w) l.
Proof.
  intros Hw H.
  assert (G : forall v, (v = 0 \/ is_input c v \/ is_latch c v \/ (is_gate c v /\ fan_in c wires v)) ->
                zero w v = ev c w v).
  { apply (well_founded_induction N.lt_wf_0 (fun v =>
      (v = 0 \/ is_input c v \/ is_latch c v \/ (is_gate c v /\ fan_in c wires v)) ->
      zero w v = ev c w v)).
    intros v IH [->|[Hi|[Hl|(Hg & Hfan)]]].
    - reflexivity.
    - rewrite ev_src by auto. apply zero_pos. unfold is_input in Hi; lia.
    - rewrite ev_src by auto. apply zero_pos. apply is_latch_iff in Hl; lia.
    - destruct Hg as (r0 & r1 & Hg). rewrite (ev_gate _ _ _ _ _ Hwf Hg).
      pose proof (gate_range _ _ _ _ Hg). rewrite zero_pos by lia.
      rewrite (H _ _ _ Hg Hfan).
      pose proof (gate_operands _ _ _ _ Hwf Hg) as (O1 & O2).
      assert (K : forall r, r = r0 \/ r = r1 -> lit_value (zero w) r = lit_value (ev c w) r).
      { intros r Hrr. apply lit_value_ext. apply IH. { destruct Hrr; subst; auto. }
        assert (lit_var r <= c_max c) by (destruct Hrr; subst; lia).
        destruct (classify c (lit_var r)) as [|[|[|]]]; auto.
        right; right; right. split; auto. eapply fan_in_step; eauto. }
      rewrite !K by auto. reflexivity. }
  intros l Hl. apply lit_value_ext. apply G.
  rewrite Forall_forall in Hw. specialize (Hw _ Hl). red in Hw.
  destruct (classify c (lit_var l) Hw) as [|[|[|Hg]]]; auto.
  right; right; right. split; auto. constructor; auto.
Qed.

Lemma wires_hold w : wires_ok c w -> forall v r0 r1, gate c v r0 r1 -> gate_holds w v r0 r1.
Proof.
  intros (H0 & Hg) v r0 r1 G. unfold gate_holds. rewrite (Hg _ _ _ G).
  f_equal; apply lit_value_ext; unfold zero.
  all: match goal with |- context [?x =? 0] => destruct (x =? 0) eqn:E; auto end;
       apply N.eqb_eq in E; rewrite E; auto.
Qed.

(* ------------------------------------------------------------------ initial cube *)

Lemma create_initial_ok : exists lits, create_initial_cnf b a = Ok (cube_new lits) /\
  forall l, In l lits <-> exists v nx r, latch c v nx r /\
    (r = 0 /\ l = 2 * v + 1 \/ r = 1 /\ l = 2 * v).
Proof.
  unfold create_initial_cnf. rewrite (get_latch_information_ok a c) by auto. cbn [bind].
  destruct (foldM_total (initial_step b)
    (fun pre lits => forall l, In l lits <-> exists v nx r, In (2 * v, nx, r) pre /\
       (r = 0 /\ l = 2 * v + 1 \/ r = 1 /\ l = 2 * v)) (latch_infos c) [])
    as (lits & E & H).
  - simpl. intros l; split; [tauto|]. intros (v & nx & r & [] & _).
  - intros pre ((lhs, nx), r) suf lits El H.
    assert (Hin : In (lhs, nx, r) (latch_infos c)) by (rewrite El, in_app_iff; simpl; auto).
    apply in_latch_infos in Hin. destruct Hin as (v & nx' & r' & L & Eq). inv Eq.
    pose proof (latch_range _ _ _ _ L) as Rg.
    assert (v <= c_max c) by (apply latch_le_max; exists nx', r'; auto).
    assert (Hres : r' = 0 \/ r' = 1 \/ r' = 2 * v) by (destruct Hwf as (Hl & _); eapply Hl; eauto).
    unfold initial_step.
    assert (Ext : forall Q : N -> Prop, (forall l, Q l <-> (r' = 0 /\ l = 2 * v + 1 \/ r' = 1 /\ l = 2 * v)) ->
              forall l, (In l lits \/ Q l) <-> exists v0 nx0 r0, In (2 * v0, nx0, r0) (pre ++ [(2 * v, nx', r')]) /\
                 (r0 = 0 /\ l = 2 * v0 + 1 \/ r0 = 1 /\ l = 2 * v0)).
    { intros Q HQ l. rewrite HQ, H. split.
      - intros [(v0 & n0 & r0 & Hi & Hx)|Hx].
        + exists v0, n0, r0. rewrite in_app_iff. auto.
        + exists v, nx', r'. rewrite in_app_iff. simpl. auto.
      - intros (v0 & n0 & r0 & Hi & Hx). apply in_app_iff in Hi. destruct Hi as [Hi|[Hi|[]]].
        + left. exists v0, n0, r0. auto.
        + injection Hi as Ev En Er. assert (v0 = v) by lia. subst. auto. }
    destruct (r' =? 2 * v) eqn:Er.
    + eexists; split; [reflexivity|]. intros l. rewrite <- (Ext (fun _ => False)); [tauto|].
      intros; split; [tauto|]. lia.
    + rewrite (literal_of_aig_ok b (2 * v)) by (rewrite lit_var_even; lia). cbn [bind].
      destruct (r' =? 0) eqn:E0; [|destruct (r' =? 1) eqn:E1].
      * eexists; split; [reflexivity|]. intros l. rewrite <- (Ext (fun l => l = 2 * v + 1)).
        { rewrite in_app_iff. simpl. unfold literal_not. rewrite lxor1_even. intuition. }
        intros; split; lia.
      * eexists; split; [reflexivity|]. intros l. rewrite <- (Ext (fun l => l = 2 * v)).
        { rewrite in_app_iff. simpl. intuition. }
        intros; split; lia.
      * exfalso. lia.
  - exists lits. rewrite E. split; auto. intros l. rewrite H.
    split; intros (v & nx & r & Hi & Hx); exists v, nx, r; split; auto.
    + apply in_latch_infos in Hi. destruct Hi as (v' & nx' & r' & L & Eq). injection Eq as Ev -> ->.
      assert (v = v') by lia. subst; auto.
    + apply in_latch_infos. eauto 6.
Qed.

(* --------------------------------------------------------------- transition CNF *)

Definition latch_nexts : list N := map fst (c_latches c).

Lemma in_latch_nexts nx : In nx latch_nexts <-> exists v r, latch c v nx r.
Proof.
  unfold latch_nexts. rewrite in_map_iff. split.
  - intros ((nx', r) & <- & H). apply In_nth_error in H. destruct H as (j & H).
    exists (latch_var c j), r. exists j. auto.
  - intros (v & r & j & Hj & _). exists (nx, r). split; auto. eapply nth_error_In; eauto.
Qed.

Lemma latch_nexts_range : Forall (lit_in_range c) latch_nexts.
Proof.
  apply Forall_forall. intros l Hl. apply in_latch_nexts in Hl. destruct Hl as (v & r & L).
  destruct Hwf as (H & _). eapply H; eauto.
Qed.

Hypothesis Hlatch : forall v, is_latch c v -> v + c_max c <= 2147483647.

Lemma create_transition_ok order : order_ok order ->
  exists f, create_transition_cnf b order a (c_max c) = Ok f /\
    api_cnf f /\ cnf_legal f /\
    cnf_vars (fun x => 1 <= x <= c_max c \/ is_latch c (x - c_max c)) f /\
    (forall x, In x (variable_numbers f) <->
       (exists v nx r, latch c v nx r /\ (x = v + c_max c \/ x <> 0 /\ x = lit_var nx)) \/
       exists v r0 r1, gate c v r0 r1 /\ fan_in c latch_nexts v /\ (x = v \/ reads x r0 r1)) /\
    (forall w, cnf_true w f <->
       (forall v nx r, latch c v nx r -> w (v + c_max c) = lit_value (zero w) nx) /\
       (forall v r0 r1, gate c v r0 r1 -> fan_in c latch_nexts v -> gate_holds w v r0 r1)).
Proof.
  intros Ho. unfold create_transition_cnf.
  rewrite (get_latch_information_ok a c) by auto. cbn [bind].
  set (M := c_max c) in *.
  destruct (foldM_total (transition_step b M)
    (fun pre st => exists lss, st = (adds cnf_new lss, map (fun e => snd (fst e)) pre) /\
       Forall (Forall lit_legal) lss /\
       lss_vars (fun x => 1 <= x <= M \/ is_latch c (x - M)) lss /\
       (forall x, occurs x lss <-> exists v nx r, In (2 * v, nx, r) pre /\
          (x = v + M \/ x <> 0 /\ x = lit_var nx)) /\
       (forall w, lss_true w lss <-> forall v nx r, In (2 * v, nx, r) pre ->
          w (v + M) = lit_value (zero w) nx))
    (latch_infos c) (cnf_new, [])) as (st & E & lss & -> & Hleg & Hvars & Hocc & Htrue).
  - exists []. split; auto. split; auto. split; [intros ? ? []|]. split.
    { intros x. rewrite occurs_nil. split; [tauto|]. intros (? & ? & ? & [] & _). }
    intros w. rewrite lss_true_nil. split; auto. intros _ ? ? ? [].
  - intros pre ((lhs, nx), r) suf st El (lss & -> & Hleg & Hvars & Hocc & Htrue).
    assert (Hin : In (lhs, nx, r) (latch_infos c)) by (rewrite El, in_app_iff; simpl; auto).
    apply in_latch_infos in Hin. destruct Hin as (v & nx' & r' & L & Eq). inv Eq.
    pose proof (latch_range _ _ _ _ L) as Rg.
    assert (IL : is_latch c v) by (exists nx', r'; auto).
    pose proof (Hlatch v IL) as Hv.
    assert (Vm : v <= M) by (apply latch_le_max; auto).
    assert (Hnx : lit_var nx' <= M) by (destruct Hwf as (Hl & _); eapply Hl; eauto).
    assert (Step : exists l2, transition_step b M (adds cnf_new lss, map (fun e => snd (fst e)) pre) (2 * v, nx', r')
        = Ok (adds (adds cnf_new lss) l2, map (fun e => snd (fst e)) (pre ++ [(2 * v, nx', r')])) /\
        Forall (Forall lit_legal) l2 /\ lss_vars (fun x => 1 <= x <= M \/ is_latch c (x - M)) l2 /\
        (forall x, occurs x l2 <-> x = v + M \/ x <> 0 /\ x = lit_var nx') /\
        (forall w, lss_true w l2 <-> w (v + M) = lit_value (zero w) nx')).
    { unfold transition_step.
      rewrite debug_assert_true by lia. cbn [bind].
      rewrite (literal_of_aig_ok b (2 * v)) by (rewrite lit_var_even; lia). cbn [bind].
      rewrite get_number_div. fold (lit_var (2 * v)). rewrite lit_var_even.
      unfold u32_add. destruct (v + M <? u32_mod) eqn:Eu; [|unfold u32_mod in *; lia]. cbn [bind].
      rewrite literal_new_ok by lia. cbn [bind].
      assert (Hn : is_negated (2 * v) = false) by (rewrite is_negated_odd, odd_mod; lia).
      rewrite Hn. cbn [negate_if_true]. rewrite map_app. cbn [map fst snd].
      assert (TV : forall w, lit_value w (2 * (v + M)) = w (v + M)) by (intros; apply lit_value_even).
      assert (LV : lit_legal (2 * (v + M))) by (apply lit_legal_var; rewrite lit_var_even; lia).
      assert (PV : is_latch c (v + M - M)) by (replace (v + M - M) with v by lia; auto).
      destruct (nx' =? 0) eqn:E0; [|destruct (nx' =? 1) eqn:E1].
      - exists [[literal_not (2 * (v + M))]]. split; [reflexivity|]. split; [|split; [|split]].
        + apply Forall_forall; intros ? [<-|[]]. apply Forall_forall; intros ? [<-|[]]. apply lit_legal_not; auto.
        + intros ls l [<-|[]] [<-|[]]. rewrite lit_var_not, lit_var_even. auto.
        + occ. apply N.eqb_eq in E0. subst nx'. change (lit_var 0) with 0. lia.
        + intros w. rewrite lss_true_cons, lss_true_nil, one_true, lit_not_value, TV.
          apply N.eqb_eq in E0. subst nx'. rewrite lit_value_0. tauto.
      - exists [[2 * (v + M)]]. split; [reflexivity|]. split; [|split; [|split]].
        + apply Forall_forall; intros ? [<-|[]]. apply Forall_forall; intros ? [<-|[]]. auto.
        + intros ls l [<-|[]] [<-|[]]. rewrite lit_var_even. auto.
        + occ. apply N.eqb_eq in E1. subst nx'. change (lit_var 1) with 0. lia.
        + intros w. rewrite lss_true_cons, lss_true_nil, one_true, lit_true_value, TV.
          apply N.eqb_eq in E1. subst nx'. rewrite lit_value_1. tauto.
      - assert (N0 : lit_var nx' <> 0) by (unfold lit_var; lia).
        rewrite (literal_of_aig_ok b nx') by lia. cbn [bind].
        exists [[literal_not (2 * (v + M)); nx']; [2 * (v + M); literal_not nx']].
        assert (LN : lit_legal nx') by (apply lit_legal_var; lia).
        split; [reflexivity|]. split; [|split; [|split]].
        + apply Forall_forall; intros ? [<-|[<-|[]]]; apply Forall_forall; intros ? [<-|[<-|[]]]; auto using lit_legal_not.
        + intros ls l [<-|[<-|[]]] [<-|[<-|[]]]; rewrite ?lit_var_not, ?lit_var_even; auto; left; lia.
        + occ. lia.
        + intros w. rewrite !lss_true_cons, lss_true_nil, !two_true, !lit_not_value, !lit_true_value, TV.
          rewrite lit_value_zero by auto. destruct (w (v + M)), (lit_value w nx'); intuition congruence. }
    destruct Step as (l2 & E2 & G2 & V2 & O2 & T2). rewrite E2.
    eexists; split; [reflexivity|]. exists (lss ++ l2). rewrite adds_app. split; auto.
    split; [apply Forall_app; auto|]. split; [|split].
    + intros ls l Hls Hl. apply in_app_iff in Hls. destruct Hls as [Hls|Hls]; [eapply Hvars|eapply V2]; eauto.
    + intros x. rewrite occurs_app, Hocc, O2. split.
      * intros [(u & n0 & s0 & Hi & Hx)|Hx].
        -- exists u, n0, s0. rewrite in_app_iff. auto.
        -- exists v, nx', r'. rewrite in_app_iff. simpl. auto.
      * intros (u & n0 & s0 & Hi & Hx). apply in_app_iff in Hi. destruct Hi as [Hi|[Hi|[]]].
        -- left. exists u, n0, s0. auto.
        -- right. injection Hi as Hi <- _. assert (u = v) by lia. subst. auto.
    + intros w. rewrite lss_true_app, Htrue, T2. split.
      * intros (H1 & H2) u n0 s0 Hi. apply in_app_iff in Hi. destruct Hi as [Hi|[Hi|[]]]; eauto.
        injection Hi as Hi <- _. assert (u = v) by lia. subst. auto.
      * intros H. split.
        -- intros u n0 s0 Hi. apply (H _ _ s0). apply in_app_iff; auto.
        -- apply (H v nx' r'). apply in_app_iff; simpl; auto.
  - rewrite E. cbn [bind].
    assert (Ew : map (fun e => snd (fst e)) (latch_infos c) = latch_nexts).
    { unfold latch_infos, latch_nexts. rewrite map_map. cbn [fst snd].
      rewrite <- (map_map snd fst). f_equal.
      assert (K : forall (l : list (N * N)) n, map snd (combine (seq n (length l)) l) = l).
      { induction l as [|x l IH]; intros n; simpl; auto. f_equal. auto. }
      apply K. }
    rewrite Ew.
    destruct (wires_cnf_ok order latch_nexts Ho latch_nexts_range) as (l2 & E2 & V2 & O2 & T2).
    rewrite E2. cbn [bind]. eexists; split; [reflexivity|].
    assert (Leg2 : Forall (Forall lit_legal) l2).
    { apply Forall_forall. intros ls Hls. apply Forall_forall. intros l Hl.
      specialize (V2 _ _ Hls Hl). cbv beta in V2. apply lit_legal_var. lia. }
    split; [apply api_cnf_append; apply adds_api; auto with api|].
    split; [apply cnf_legal_append; apply adds_legal; auto with api|].
    split; [|split].
    + intros d Hd l Hl. apply in_append in Hd. rewrite !in_adds in Hd.
      destruct Hd as [[[]|(ls & Hls & ->)]|[[]|(ls & Hls & ->)]]; rewrite in_clause_new in Hl.
      * eapply Hvars; eauto.
      * left. eapply V2; eauto.
    + intros x. rewrite <- O2, in_variable_numbers. split.
      * intros (d & l & Hd & Hl & E3). apply in_append in Hd. rewrite !in_adds in Hd.
        destruct Hd as [[[]|(ls & Hls & ->)]|[[]|(ls & Hls & ->)]]; rewrite in_clause_new in Hl.
        -- left. assert (Hx : occurs x lss) by (exists ls, l; auto).
           apply Hocc in Hx. destruct Hx as (v & nx & r & Hi & Hx). exists v, nx, r. split; auto.
           apply in_latch_infos in Hi. destruct Hi as (v' & nx' & r' & L & Eq).
           injection Eq as Ev -> ->. assert (v = v') by lia. subst. auto.
        -- right. exists ls, l. auto.
      * intros [(v & nx & r & L & Hx)|Hx].
        -- assert (Ho2 : occurs x lss).
           { apply Hocc. exists v, nx, r. split; auto. apply in_latch_infos. eauto 6. }
           destruct Ho2 as (ls & l & H1 & H2 & H3). exists (clause_new ls), l. split.
           ++ apply in_append. left. apply in_adds. eauto.
           ++ rewrite in_clause_new. auto.
        -- destruct Hx as (ls & l & H1 & H2 & H3). exists (clause_new ls), l. split.
           ++ apply in_append. right. apply in_adds. eauto.
           ++ rewrite in_clause_new. auto.
    + intros w. rewrite cnf_append_true, !adds_true, Htrue, T2. split.
      * intros ((_ & H1) & _ & H2). split; auto. intros v nx r L. apply (H1 v nx r).
        apply in_latch_infos. eauto 6.
      * intros (H1 & H2). split; split; auto using cnf_new_true.
        intros v nx r Hi. apply in_latch_infos in Hi. destruct Hi as (v' & nx' & r' & L & Eq).
        injection Eq as Ev -> ->. assert (v = v') by lia. subst. eauto.
Qed.

End Circuit.
