(** PDR: its solvers hold the frames, and each question to them means what PDR uses it for. *)
From Coq Require Import Permutation.
From Verif Require Import Base Formulas FormulaLogic Aig Fsts Solvers Ic3 Pdr Brute Spec SpecAig SpecFsts SpecAlg Tac
  FormulasFacts LogicFacts AigFacts SimFacts AigThms FstsFacts FstsSem TagFacts FstsThms BmcThms BruteFacts
  StateFacts Ic3Core QueryFacts Ic3Thms PdrCore.
Open Scope nat_scope.

Section Query.
Variables (c : circuit) (flag : bool) (J : Prop) (s : FSTS) (b : build).
Hypothesis Hsys : system_of b c flag s.
Hypothesis Hf : numbering_fits c flag.
Hypothesis Hwf : circuit_wf c.
Hypothesis Hn : numbered c flag.
Hypothesis He : encodes c flag s.
Variable SS : StatefulSolver.
Hypothesis HS : stateful_correct SS.
Notation M := (c_max c).
Notation C := (pdr_cache s).
Notation St := (PdrState SS).

Definition notp_base (i : nat) : CNF := if i =? 0 then p_initial_and_not_p C else p_ri_and_not_p C.
Definition ri_base (i : nat) : CNF := if i =? 0 then p_initial C else cnf_new.
Definition rit_base (i : nat) : CNF := if i =? 0 then p_initial_and_t C else p_ri_and_t C.

Lemma notp_base_true i a : cnf_true a (notp_base i) <->
  (i = 0 -> initial_values c a) /\ cnf_true a (state_to_safety_translation s) /\ clause_true a (unsafety_property s).
Proof.
  unfold notp_base. pose proof (cnf_new_true a). pose proof (init_raw c flag s He a).
  destruct (Nat.eqb_spec i 0) as [->|Hi]; cbn [pdr_cache p_initial_and_not_p p_ri_and_not_p];
    rewrite cnf_add_clause_true, ?cnf_append_true; unfold get_unsafety_property, get_state_to_safety_translation; tauto.
Qed.
Lemma ri_base_true i a : cnf_true a (ri_base i) <-> (i = 0 -> initial_values c a).
Proof.
  unfold ri_base. pose proof (cnf_new_true a). pose proof (init_raw c flag s He a).
  destruct (Nat.eqb_spec i 0) as [->|Hi]; cbn [pdr_cache p_initial]; tauto.
Qed.
Lemma rit_base_true i a : cnf_true a (rit_base i) <-> (i = 0 -> initial_values c a) /\ cnf_true a (transition s).
Proof.
  unfold rit_base. pose proof (cnf_new_true a). pose proof (init_raw c flag s He a).
  destruct (Nat.eqb_spec i 0) as [->|Hi]; cbn [pdr_cache p_initial_and_t p_ri_and_t];
    rewrite ?cnf_append_true; unfold get_transition_relation; tauto.
Qed.
Lemma unsafe_in_notp i : In (unsafety_property s) (cnf_clauses (notp_base i)).
Proof. unfold notp_base. destruct (i =? 0); apply in_add_clause; auto. Qed.
Lemma trans_in_rit i d : In d (cnf_clauses (transition s)) -> In d (cnf_clauses (rit_base i)).
Proof. intros H. unfold rit_base. destruct (i =? 0); apply in_append; auto. Qed.

Lemma base_fine i : (api_cnf (notp_base i) /\ cnf_legal (notp_base i)) /\
  (api_cnf (ri_base i) /\ cnf_legal (ri_base i)) /\ (api_cnf (rit_base i) /\ cnf_legal (rit_base i)).
Proof.
  pose proof (e_t_api _ _ _ He) as At. pose proof (e_t_legal _ _ _ He) as Lt.
  pose proof (e_s_api _ _ _ He) as As. pose proof (e_s_legal _ _ _ He) as Ls.
  pose proof (unsafe_api _ _ _ He) as Au. pose proof (unsafe_legal _ _ _ Hwf Hn He) as Lu.
  pose proof (init_legal c flag s Hn He) as Li.
  assert (Lii : cnf_legal (cube_to_cnf (get_initial_relation s))) by (apply cube_to_cnf_legal; exact Li).
  assert (Aii : api_cnf (cube_to_cnf (get_initial_relation s))) by apply api_cube_to_cnf.
  pose proof api_cnf_new as An. assert (Ln : cnf_legal cnf_new) by constructor.
  unfold notp_base, ri_base, rit_base, get_unsafety_property.
  destruct (i =? 0);
    cbn [pdr_cache p_initial_and_not_p p_ri_and_not_p p_initial_and_t p_ri_and_t p_initial];
    unfold get_unsafety_property, get_state_to_safety_translation, get_transition_relation;
    split; [| split| |split]; split; auto 8 with api.
Qed.

(** The solver holds [base] and clauses that say "in frame [i]". *)
Definition holds (x : ss_state SS) (base : CNF) (f : list (list Cube)) (i : nat) : Prop :=
  exists E : Clause -> Prop, tracks SS x (fun d => In d (cnf_clauses base) \/ E d) /\
    forall a, (forall d, E d -> clause_true a d) <-> rf f i a.

Lemma holds_iff x base f f' i : (forall a, rf f i a <-> rf f' i a) -> holds x base f i -> holds x base f' i.
Proof. intros H (E & H1 & H2). exists E. split; auto. intros a. rewrite H2. apply H. Qed.

Lemma holds_new base f i : (forall a, rf f i a) -> api_cnf base -> cnf_legal base ->
  okay (solver_with SS base) (fun x => holds x base f i).
Proof.
  intros H A L. eapply okay_impl; [apply (tracks_add SS HS _ _ base (tracks_new SS HintNone) A L)|].
  intros x T. cbv beta in T. exists (fun _ => False). split.
  - eapply tracks_iff; [|exact T]. intros d. cbv beta. tauto.
  - intros a. split; auto. intros _ d [].
Qed.
Lemma holds_empty f i : (forall a, rf f i a) -> holds (ss_new SS HintNone) cnf_new f i.
Proof.
  intros H. exists (fun _ => False). split.
  - eapply tracks_iff; [|apply (tracks_new SS HintNone)]. intros d. simpl. tauto.
  - intros a. split; auto. intros _ d [].
Qed.

Lemma holds_solve x base f i cube clause : holds x base f i -> cube_fine cube -> clause_fine clause ->
  okay (ss_solve SS x cube clause) (fun rs => holds (snd rs) base f i /\
    exists cs, (forall d, In d (cnf_clauses base) -> In d cs) /\
      (forall a, clauses_true a cs <-> cnf_true a base /\ rf f i a /\ clauses_true a (temp_clauses cube clause)) /\
      match fst rs with
      | UnSat => ~ satisfiable cs
      | Sat asg => satisfies_clauses asg cs /\ defined_upto asg (max_var cs)
      end).
Proof.
  intros (E & HT & HE) A B. eapply okay_impl; [apply (tracks_solve SS HS); eauto|].
  intros (r & x') (Ht & cs & Hcs & Hr). cbn [fst snd] in *. split; [exists E; auto|].
  exists cs. split; [|split]; auto.
  - intros d Hd. apply Hcs. auto.
  - intros a. rewrite <- HE. split.
    + intros H. split; [|split]; intros d Hd; apply H, Hcs; auto.
    + intros (H1 & H2 & H3) d Hd. apply Hcs in Hd. destruct Hd as [[Hd|Hd]|Hd]; auto.
Qed.

Lemma holds_add x base f f' i q : holds x base f i -> state_like c q ->
  (forall a, rf f' i a <-> rf f i a /\ ~ cube_true a q) ->
  okay (ss_add_cnf SS x (cnf_add_clause cnf_new (cube_not q))) (fun x' => holds x' base f' i).
Proof.
  intros (E & HT & HE) (A & V) H.
  eapply okay_impl; [apply (tracks_add SS HS _ _ (cnf_add_clause cnf_new (cube_not q)) HT)|].
  - apply api_cnf_add; [apply api_cnf_new|apply cube_not_api].
  - apply cnf_legal_add; [constructor|]. apply (latch_clause_legal c flag Hf). apply cube_not_vars; auto.
  - intros x' T. cbv beta in T. exists (fun d => E d \/ d = cube_not q). split.
    + eapply tracks_iff; [|exact T]. intros d. cbv beta. rewrite in_add_clause. simpl. tauto.
    + intros a. rewrite H, <- HE, <- cube_not_true. split.
      * intros X. split; auto.
      * intros (X & Y) d [Hd| ->]; auto.
Qed.

(** All solvers of one kind. *)
Definition solvers (D : nat) (base : nat -> CNF) (f : list (list Cube)) (l : list (ss_state SS)) : Prop :=
  length l = D + 1 /\ forall i x, nth_error l i = Some x -> holds x (base i) f i.

Record pinv (D : nat) (st : St) : Prop := mkPinv {
  v_frames : finv c flag J D (pdr_f st);
  v_notp : solvers D notp_base (pdr_f st) (pdr_notp st);
  v_ri : solvers D ri_base (pdr_f st) (pdr_ri st);
  v_rit : solvers D rit_base (pdr_f st) (pdr_rit st) }.

Lemma solvers_index D base f l i : solvers D base f l -> i <= D ->
  exists x, indexn l i = Ok x /\ holds x (base i) f i.
Proof.
  intros (Hl & H) Hi. destruct (indexn_error l i) as (x & E1 & E2); [lia|]. eauto.
Qed.
Lemma solvers_set D base f l i x : solvers D base f l -> i <= D -> holds x (base i) f i ->
  solvers D base f (set_nth l i x).
Proof.
  intros (Hl & H) Hi Hx. split; [rewrite set_nth_length; auto|]. intros j y.
  rewrite nth_error_set_nth by lia. destruct (Nat.eqb_spec j i) as [->|]; auto. intros [= <-]. auto.
Qed.

Lemma pdr_depth_ok D st : pinv D st -> pdr_depth SS st = Ok D.
Proof.
  intros H. unfold pdr_depth, nat_sub. rewrite (f_len _ _ _ _ _ (v_frames _ _ H)).
  replace (2 <=? D + 2) with true by (symmetry; apply Nat.leb_le; lia). f_equal. lia.
Qed.

(** Latches from [w2], inputs from [w]. *)
Definition mix (w w2 : valuation) : valuation :=
  ev c (fun v => if ((1 <=? v) && (v <=? c_inputs c))%N then w v else w2 v).
Lemma mix_wires w w2 : wires_ok c (mix w w2).
Proof. apply ev_wires_ok; auto. Qed.
Lemma mix_latches w w2 : same_latches c (mix w w2) w2.
Proof.
  intros v Hv. unfold mix. rewrite ev_src by auto.
  destruct ((1 <=? v) && (v <=? c_inputs c))%N eqn:E; auto. exfalso.
  destruct Hv as (nx & r & j & Hj & ->). unfold latch_var in E. lia.
Qed.
Lemma mix_inputs w w2 : same_inputs c w (mix w w2).
Proof.
  intros v Hv. unfold mix. rewrite ev_src by auto. unfold is_input in Hv.
  replace ((1 <=? v) && (v <=? c_inputs c))%N with true; auto. symmetry. lia.
Qed.

Lemma in_cut (P : N -> bool) q l :
  In l (cube_lits (cube_new (filter (fun l => P (get_number l)) (cube_iter q)))) -> In l (cube_lits q).
Proof. rewrite in_cube_new, filter_In. unfold cube_iter. tauto. Qed.

Lemma cut_state w z : z = state_of c w \/ z = intersect_cube_with_cone_of_transition s (state_of c w) \/
    z = intersect_cube_with_cone_of_safety s (state_of c w) ->
  state_like c z /\ (forall l, In l (cube_lits z) -> In l (cube_lits (state_of c w))) /\ cube_true w z.
Proof.
  intros Hz. assert (Hsub : forall l, In l (cube_lits z) -> In l (cube_lits (state_of c w))).
  { destruct Hz as [->|[->| ->]]; auto; intros l; apply in_cut with (P := fun n => set_mem N.eqb n _). }
  split; [split|split]; auto.
  - destruct Hz as [->|[->| ->]]; apply cube_new_api.
  - intros l Hl. apply (state_of_vars c w). auto.
  - intros l Hl. assert (T : cube_true w (state_of c w)) by (apply state_of_true, same_latches_refl). apply T; auto.
Qed.

(** A predecessor cube: every state of it steps like [w]. *)
Definition pred_cube (w w' : valuation) (z : Cube) : Prop :=
  state_like c z /\ cube_true w z /\
  forall w2, cube_true w2 z -> exists w3, same_latches c w3 w2 /\ steps c w3 w'.

Lemma pred_ok w w' z : steps c w w' ->
  z = state_of c w \/ z = intersect_cube_with_cone_of_transition s (state_of c w) -> pred_cube w w' z.
Proof.
  intros (Hw & Hst) Hz. destruct (cut_state w z) as (H1 & H2 & H3); [tauto|].
  split; auto. split; auto. intros w2 H. exists (mix w w2). split; [apply mix_latches|].
  split; [apply mix_wires|].
  apply (transition_cone b c flag s (state_of c w) w (mix w w2) Hsys (proj1 (well_numbered_parts _ _ _ (or_intror Hf))) Hw (mix_wires w w2)
    (state_of_state c w)); auto; [|apply mix_inputs].
  assert (Hm : cube_true (mix w w2) z).
  { eapply latch_cube_same; [apply H1| |exact H]. apply same_latches_sym, mix_latches. }
  destruct Hz as [->| ->]; auto. intros l Hl. apply Hm.
  apply in_cut with (P := fun n => set_mem N.eqb n _) in Hl. auto.
Qed.

(** A bad cube: every state of it can be bad. *)
Lemma bad_ok w z : wires_ok c w -> is_bad c flag w ->
  z = state_of c w \/ z = intersect_cube_with_cone_of_safety s (state_of c w) ->
  state_like c z /\ cube_true w z /\ (bad_latches_read c flag -> forall w2, cube_true w2 z -> bad_state c flag w2).
Proof.
  intros Hw Hb Hz. destruct (cut_state w z) as (H1 & H2 & H3); [tauto|].
  split; auto. split; auto. intros Hnl w2 H. exists (mix w w2). split; [apply mix_wires|]. split; [apply mix_latches|].
  apply (safety_cone b c flag s (state_of c w) w (mix w w2) Hsys Hnl Hw (mix_wires w w2)
    (state_of_state c w)); auto; [|apply mix_inputs].
  assert (Hm : cube_true (mix w w2) z).
  { eapply latch_cube_same; [apply H1| |exact H]. apply same_latches_sym, mix_latches. }
  destruct Hz as [->| ->]; auto. intros l Hl. apply Hm.
  apply in_cut with (P := fun n => set_mem N.eqb n _) in Hl. auto.
Qed.

Lemma cut_smaller (P : N -> bool) q :
  api_cube q -> (cube_len (cube_new (filter (fun l => P (get_number l)) (cube_iter q))) <=? cube_len q)%N = true.
Proof.
  intros _. unfold cube_len, cube_new, lenN. cbn [cube_lits]. apply N.leb_le.
  rewrite (Permutation_length (sort_perm N.leb _)). unfold cube_iter.
  pose proof (filter_length_le (fun l => P (get_number l)) (fun _ => true) (cube_lits q)) as H.
  assert (E : forall l : list Literal, filter (fun _ => true) l = l).
  { induction l as [|x l IH]; auto. cbn [filter]. f_equal; auto. }
  rewrite E in H. assert (L : forall x y : nat, x <= y -> (N.of_nat x <= N.of_nat y)%N) by (intros; lia).
  apply L. auto.
Qed.

(* --------------------------------------------------------------------- questions *)

Lemma pinv_notp D st l : pinv D st -> solvers D notp_base (pdr_f st) l -> pinv D (with_notp SS st l).
Proof. intros [H1 H2 H3 H4] H. split; auto. Qed.
Lemma pinv_ri D st l : pinv D st -> solvers D ri_base (pdr_f st) l -> pinv D (with_ri SS st l).
Proof. intros [H1 H2 H3 H4] H. split; auto. Qed.
Lemma pinv_rit D st l : pinv D st -> solvers D rit_base (pdr_f st) l -> pinv D (with_rit SS st l).
Proof. intros [H1 H2 H3 H4] H. split; auto. Qed.
Lemma pinv_cut_pred D st x : pinv D st -> pinv D (with_cut_pred SS st x).
Proof. intros [H1 H2 H3 H4]. split; auto. Qed.
Lemma pinv_cut_bad D st x : pinv D st -> pinv D (with_cut_bad SS st x).
Proof. intros [H1 H2 H3 H4]. split; auto. Qed.
Lemma pinv_draws D st x : pinv D st -> pinv D (with_draws SS st x).
Proof. intros [H1 H2 H3 H4]. split; auto. Qed.

Lemma pinv_counted D st k : pinv D st -> pinv D (counted SS k st).
Proof. intros [H1 H2 H3 H4]. split; auto. Qed.

Lemma latch_below_gate v u : is_latch c v -> is_gate c u -> (v < u)%N.
Proof.
  intros (nx & r & j & Hj & ->) (r0 & r1 & Hg). apply gate_range in Hg. unfold latch_var, lenN in *.
  assert (j < length (c_latches c)) by (apply nth_error_Some; congruence). lia.
Qed.

Lemma init_in_notp l : In l (cube_lits (initial_states s)) ->
  exists d, In d (cnf_clauses (notp_base 0)) /\ In l (clause_lits d).
Proof.
  intros Hl. exists (clause_new [l]). split.
  - unfold notp_base. cbn [Nat.eqb pdr_cache p_initial_and_not_p]. apply in_add_clause. left.
    apply in_append. left. apply in_append. right. unfold get_initial_relation. apply in_cube_to_cnf. eauto.
  - apply in_clause_new. left. reflexivity.
Qed.

(** An input can be bad from the start. *)
Lemma input_bad l : In l (bad_literals c flag) -> is_input c (lit_var l) ->
  exists w, wires_ok c w /\ initial_values c w /\ is_bad c flag w.
Proof.
  intros Hl Hi.
  assert (E : is_cube_initial s (cube_new []) = true) by reflexivity.
  apply (cube_initial_correct b c flag s (cube_new []) Hsys) in E.
  2:{ exists (fun _ => true). intros x []. }
  destruct E as (w0 & W0 & _).
  pose (a := fun v => if (v =? lit_var l)%N then negb (lit_neg l) else w0 v).
  exists (ev c a). split; [apply ev_wires_ok; auto|]. split.
  - eapply initial_same; [|exact W0]. intros v Hv. rewrite ev_src by auto. unfold a.
    destruct (N.eqb_spec v (lit_var l)) as [->|]; auto. destruct Hv as (nx & r & Hv). apply latch_range in Hv. unfold is_input in Hi. lia.
  - exists l. split; auto. unfold lit_value. rewrite ev_src by auto. unfold a. rewrite N.eqb_refl.
    destruct (lit_neg l); reflexivity.
Qed.

(** The states the solver shows for "bad" define every latch. *)
Lemma bad_defined D f cs asg : J -> finv c flag J D f -> states_readable c flag -> incl (cnf_clauses (notp_base D)) cs ->
  satisfies_clauses asg cs -> defined_upto asg (max_var cs) ->
  forall v, is_latch c v -> get_value asg v = Some (complete asg v).
Proof.
  intros HJ Hfi Hready Hincl Hsat Hdef v Hv.
  pose proof (Hincl _ (unsafe_in_notp D)) as Hin.
  assert (Hle : (1 <= v <= max_var cs)%N).
  { pose proof (latch_bounds c v Hv). split; [lia|]. destruct Hready as [HL|[HL|[HL|(HL & Hres)]]].
    - destruct Hv as (nx & r & j & Hj & _). rewrite HL in Hj. destruct j; discriminate.
    - exfalso. specialize (Hsat _ (complete_agrees asg) _ Hin). apply (unsafe_true c flag s He) in Hsat.
      unfold is_bad in Hsat. rewrite HL in Hsat. destruct Hsat as (l & [] & _).
    - destruct HL as (l & Hl & Hg).
      assert (lit_var l <= max_var cs)%N.
      { apply (max_var_in cs _ l Hin). rewrite (e_bad _ _ _ He). apply in_clause_new. auto. }
      pose proof (latch_below_gate v (lit_var l) Hv Hg). lia.
    - destruct HL as (l & Hl & Hi). destruct D as [|D].
      + destruct Hv as (nx & r & Hlat).
        assert (Hl' : exists l', In l' (cube_lits (initial_states s)) /\ lit_var l' = v).
        { destruct (Hres v nx r Hlat) as [Hr|Hr].
          - exists (2 * v + 1)%N. split; [|unfold lit_var; lia]. apply (init_cube_in c flag s He). exists v, nx, r. auto.
          - exists (2 * v)%N. split; [|unfold lit_var; lia]. apply (init_cube_in c flag s He). exists v, nx, r. auto. }
        destruct Hl' as (l' & Hl' & <-). destruct (init_in_notp l' Hl') as (d & Hd & Hld).
        apply (max_var_in cs d l'); auto.
      + exfalso. destruct (input_bad l Hl Hi) as (w & W1 & W2 & W3).
        apply (f_safe _ _ _ _ _ Hfi 0 w); [lia|auto| |auto]. apply (rk_init c flag J (S D) _ _ w HJ Hfi); auto. }
  pose proof (Hdef v Hle) as Hx. destruct (get_value asg v) as [x|] eqn:E; [|congruence].
  rewrite (complete_agrees asg v x E). reflexivity.
Qed.

(** Reading a state panics exactly when some latch has no value. *)
Lemma extract_cases asg w :
  (forall v, is_latch c v -> forall y, get_value asg v = Some y -> w v = y) ->
  extract_state_from_assignment b s asg = Ok (state_of c w) \/
  exists v, is_latch c v /\ extract_state_from_assignment b s asg = Panic /\ get_value asg v = None.
Proof.
  intros Hw.
  destruct (existsb (fun v => match get_value asg v with None => true | _ => false end) (state_literals s)) eqn:E.
  - right. apply existsb_exists in E. destruct E as (v & Hv & E). exists v.
    destruct (get_value asg v) eqn:Ev; [discriminate|].
    split; [rewrite (e_states _ _ _ He), in_states in Hv; auto|]. split; auto.
    apply (extract_panics b s asg v); auto. eapply states_range; eauto.
  - left. apply (extract_state b c flag s asg w Hn He). intros v Hv.
    destruct (get_value asg v) as [y|] eqn:Ev; [rewrite (Hw v Hv y Ev); auto|]. exfalso.
    assert (X : existsb (fun v => match get_value asg v with None => true | _ => false end) (state_literals s) = true).
    { apply existsb_exists. exists v. rewrite Ev. split; auto. rewrite (e_states _ _ _ He), in_states. auto. }
    congruence.
Qed.

Lemma get_bad_ok D st : pinv D st ->
  post (z_get_bad_cube b SS s st) (J -> ~ states_readable c flag) False (fun r => pinv D (snd r) /\ pdr_f (snd r) = pdr_f st /\
    match fst r with
    | Some z => state_like c z /\ (exists w, rk c (pdr_f st) D w /\ cube_true w z) /\
                (bad_latches_read c flag -> forall w, cube_true w z -> bad_state c flag w)
    | None => forall w, wires_ok c w -> rk c (pdr_f st) D w -> ~ is_bad c flag w
    end).
Proof.
  intros Hp. unfold z_get_bad_cube. rewrite (pdr_depth_ok D) by auto. cbn [bind].
  destruct (solvers_index _ _ _ _ D (v_notp _ _ Hp)) as (x & Ex & Hx); auto. rewrite Ex. cbn [bind].
  eapply bind_okay; [apply (holds_solve x _ _ _ None None Hx); auto using cube_fine_none, clause_fine_none|].
  intros (r & x') (Hx' & cs & Hsub & Hcs & Hr). cbn [fst snd] in *.
  assert (Hp' : pinv D (with_notp SS (counted SS K_get_bad_cube st) (set_nth (pdr_notp st) D x'))).
  { apply pinv_notp; [apply pinv_counted; auto|]. apply solvers_set; auto. apply Hp. }
  destruct r as [|asg].
  - cbn [post fst snd]. split; auto. split; auto.
    intros w Hw (Hk & Hi) Hb. apply Hr. exists w. apply Hcs. split; [|split; auto].
    + apply notp_base_true. split; auto. split; [apply (safety_complete c flag s He); auto|].
      apply (unsafe_true c flag s He); auto.
    + apply temp_clauses_true. auto.
  - destruct Hr as (Hsat & Hdef). set (a := complete asg).
    pose proof (Hsat a (complete_agrees asg)) as Ha. apply Hcs in Ha. destruct Ha as (Hb & Hk & _).
    apply notp_base_true in Hb. destruct Hb as (Hi & Hsf & Hu).
    apply (unsafe_bad c flag s Hwf Hn He a Hsf) in Hu.
    set (w := ev c a) in *. assert (Hw : wires_ok c w) by (apply ev_wires_ok; auto).
    assert (Hs : same_latches c w a) by apply ev_latches.
    assert (Hkw : rk c (pdr_f st) D w).
    { apply (rk_same c flag J D _ D a w (v_frames _ _ Hp)); [apply same_latches_sym; auto|split; auto]. }
    destruct (extract_cases asg w) as [Ee|(v & Hv & Ee & Ev)].
    { intros v Hv y Hy. rewrite (Hs v Hv). apply complete_agrees. auto. }
    2:{ rewrite Ee. cbn [bind post]. intros HJ Hg.
        rewrite (bad_defined D (pdr_f st) cs asg HJ (v_frames _ _ Hp) Hg Hsub Hsat Hdef v Hv) in Ev. discriminate. }
    rewrite Ee. cbn [bind].
    destruct (pdr_cut_bad _).
    + assert (Ed : (cube_len (intersect_cube_with_cone_of_safety s (state_of c w)) <=? cube_len (state_of c w))%N = true).
      { apply cut_smaller with (P := fun n => set_mem N.eqb n (cone_of_safety_only_latches s)). apply state_of_api. }
      rewrite Ed. replace (debug_assert b true) with (Ok tt) by (destruct b; reflexivity). cbn [bind].
      cbn [post fst snd]. split; [apply pinv_cut_bad; auto|]. split; auto.
      destruct (bad_ok w (intersect_cube_with_cone_of_safety s (state_of c w)) Hw Hu (or_intror eq_refl)) as (B1 & B2 & B3).
      split; auto. split; auto. exists w. auto.
    + cbn [post fst snd]. split; auto. split; auto.
      destruct (bad_ok w (state_of c w) Hw Hu (or_introl eq_refl)) as (B1 & B2 & B3).
      split; auto. split; auto. exists w. auto.
Qed.

Definition with_self (p : SolveRelativeParam) : bool := match p with NoInd => true | _ => false end.

Lemma solve_relative_ok D st q n p : pinv D st -> state_like c q -> 1 <= n <= D ->
  okay (z_solve_relative b SS s (mkTCube q (FOk n)) p st) (fun r => pinv D (snd r) /\ pdr_f (snd r) = pdr_f st /\
    pdr_draws (snd r) = pdr_draws st /\
    ((fst r = mkTCube q (FOk n) /\
      forall w w', steps c w w' -> rk c (pdr_f st) (n - 1) w -> (with_self p = false -> ~ cube_true w q) -> ~ cube_true w' q) \/
     (t_frame (fst r) = FNull /\
      exists w w', steps c w w' /\ rk c (pdr_f st) (n - 1) w /\ (with_self p = false -> ~ cube_true w q) /\
        cube_true w' q /\ (p = ExtractModel -> pred_cube w w' (t_cube (fst r)))))).
Proof.
  intros Hp (A & V) Hn1. unfold z_solve_relative. cbn [t_frame t_cube].
  replace ((0 <? n) && (n <? length (pdr_rit st))) with true.
  2:{ symmetry. rewrite (proj1 (v_rit _ _ Hp)). apply andb_true_iff. split; apply Nat.ltb_lt; lia. }
  replace (debug_assert b true) with (Ok tt) by (destruct b; reflexivity). cbn [bind].
  rewrite (tag_cube c flag s Hf He) by auto. cbn [bind].
  unfold nat_sub. replace (1 <=? n) with true by (symmetry; apply Nat.leb_le; lia). cbn [bind].
  destruct (solvers_index _ _ _ _ (n - 1) (v_rit _ _ Hp)) as (x & Ex & Hx); [lia|]. rewrite Ex. cbn [bind].
  set (clause := match p with NoInd => None | _ => Some (cube_not q) end).
  assert (Ecall : match p with
    | NoInd => ss_solve SS x (Some (bumped_cube M q)) None
    | _ => ss_solve SS x (Some (bumped_cube M q)) (Some (cube_not q)) end = ss_solve SS x (Some (bumped_cube M q)) clause).
  { destruct p; reflexivity. }
  replace (match p with
    | DoNotExtractModel | ExtractModel => ss_solve SS x (Some (bumped_cube M q)) (Some (cube_not q))
    | NoInd => ss_solve SS x (Some (bumped_cube M q)) None end) with (ss_solve SS x (Some (bumped_cube M q)) clause)
    by (destruct p; reflexivity).
  assert (Htemp : forall a, clauses_true a (temp_clauses (Some (bumped_cube M q)) clause) <->
      cube_true (shift M a) q /\ (with_self p = false -> ~ cube_true a q)).
  { intros a. unfold clause. destruct p; cbn [with_self].
    - rewrite temp_both, bumped_cube_true, cube_not_true. tauto.
    - rewrite temp_both, bumped_cube_true, cube_not_true. tauto.
    - rewrite temp_cube, bumped_cube_true. intuition discriminate. }
  eapply okay_bind; [apply (holds_solve x _ _ _ _ _ Hx)|].
  { apply cube_fine_some; [apply bumped_cube_api; auto|apply (bumped_cube_fits c flag Hf); auto]. }
  { assert (F : clause_fine (Some (cube_not q))).
    { apply clause_fine_some; [apply cube_not_api|apply (latch_clause_legal c flag Hf), cube_not_vars; auto]. }
    unfold clause. destruct p; auto using clause_fine_none. }
  intros (r & x') (Hx' & cs & Hsub & Hcs & Hr). cbn [fst snd] in *.
  set (st' := with_rit SS (counted SS (K_solve_relative p) st) (set_nth (pdr_rit st) (n - 1) x')).
  assert (Hp' : pinv D st').
  { apply pinv_rit; [apply pinv_counted; auto|]. apply solvers_set; auto; [apply Hp|lia]. }
  destruct r as [|asg].
  - eexists. split; [reflexivity|]. cbn [fst snd]. split; auto. split; auto. split; auto. left. split; auto.
    intros w w' Hst (Hk & Hi) Hq Hq'. apply Hr. exists (pair c w w'). apply Hcs.
    assert (Hs : same_latches c (pair c w w') w).
    { intros v Hv. apply pair_lo. apply latch_bounds in Hv. lia. }
    split; [|split].
    + apply rit_base_true. split; [|apply (trans_pair c flag s Hwf He); auto].
      intros E. eapply initial_same; [|exact (Hi E)]. apply same_latches_sym; auto.
    + apply (rf_same c flag J D _ _ w _ (v_frames _ _ Hp)); [apply same_latches_sym; auto|auto].
    + apply Htemp. split; [apply shift_cube; auto|]. intros E T. apply (Hq E). apply (lo_cube c w w'); auto.
  - destruct Hr as (Hsat & Hdef).
    assert (Hans : answers c (Sat asg) (fun w w' => rk c (pdr_f st) (n - 1) w /\
       (with_self p = false -> ~ cube_true w q) /\ cube_true w' q)).
    { apply (sat_answers c flag s Hwf Hf He cs); auto.
      - intros d Hd. apply Hsub, trans_in_rit; auto.
      - intros a Ha. apply Hcs in Ha. destruct Ha as (H1 & H2 & H3). apply rit_base_true in H1. apply Htemp in H3.
        split; [|split].
        + apply (rk_same c flag J D _ _ a _ (v_frames _ _ Hp)); [apply same_latches_sym, ev_latches|split; [auto|apply H1]].
        + intros E T. apply (proj2 H3 E). apply (ev_cube c a q V). auto.
        + apply H3. }
    destruct Hans as (w & w' & Hst & (Hk & Hq & Hq') & Hval).
    assert (Hgoal : forall z, (p = ExtractModel -> pred_cube w w' z) ->
      t_frame (mkTCube z FNull) = FNull /\
      exists w w', steps c w w' /\ rk c (pdr_f st) (n - 1) w /\ (with_self p = false -> ~ cube_true w q) /\
        cube_true w' q /\ (p = ExtractModel -> pred_cube w w' z)).
    { intros z Hz. split; auto. exists w, w'. auto. }
    destruct p.
    + eexists. split; [reflexivity|]. cbn [fst snd t_cube]. split; auto. split; auto. split; auto. right.
      apply Hgoal. discriminate.
    + rewrite (extract_state b c flag s asg w Hn He Hval). cbn [bind].
      destruct (pdr_cut_pred st').
      * assert (Ed : (cube_len (intersect_cube_with_cone_of_transition s (state_of c w)) <=? cube_len (state_of c w))%N = true).
        { apply cut_smaller with (P := fun n => set_mem N.eqb n (cone_of_transition_only_latches s)). apply state_of_api. }
        rewrite Ed. replace (debug_assert b true) with (Ok tt) by (destruct b; reflexivity). cbn [bind].
        eexists. split; [reflexivity|]. cbn [fst snd t_cube]. split; [apply pinv_cut_pred; auto|]. split; auto. split; auto.
        right. apply Hgoal. intros _. apply pred_ok; auto.
      * eexists. split; [reflexivity|]. cbn [fst snd t_cube]. split; auto. split; auto. split; auto.
        right. apply Hgoal. intros _. apply pred_ok; auto.
    + eexists. split; [reflexivity|]. cbn [fst snd t_cube]. split; auto. split; auto. split; auto. right.
      apply Hgoal. discriminate.
Qed.

Lemma is_blocked_ok D st q n : pinv D st -> 1 <= n <= D ->
  okay (is_blocked SS (mkTCube q (FOk n)) st) (fun r => pinv D (snd r) /\ pdr_f (snd r) = pdr_f st /\
    (fst r = true -> forall w, rf (pdr_f st) n w -> ~ cube_true w q)).
Proof.
  intros Hp Hn1. unfold is_blocked. cbn [t_frame t_cube].
  destruct (existsb _ _) eqn:Eb.
  - eexists. split; [reflexivity|]. cbn [fst snd]. split; auto. split; auto. intros _ w Hw Hq.
    apply existsb_exists in Eb. destruct Eb as (l & Hl & El). apply existsb_exists in El.
    destruct El as (x & Hx & Ex).
    assert (Hin : In x (concat (skipn n (pdr_f st)))) by (apply in_concat; eauto).
    apply in_concat_skipn in Hin. destruct Hin as (j & Hj & Hjx). apply (Hw j x Hj Hjx).
    eapply subsumes_true; eauto.
  - unfold z_is_blocked. cbn [t_frame].
    destruct (solvers_index _ _ _ _ n (v_ri _ _ Hp)) as (x & Ex & Hx); [lia|]. rewrite Ex. cbn [bind].
    eapply okay_bind; [apply (holds_solve x _ _ _ None None Hx); auto using cube_fine_none, clause_fine_none|].
    intros (r & x') (Hx' & cs & Hsub & Hcs & Hr). cbn [fst snd] in *.
    eexists. split; [reflexivity|]. cbn [fst snd].
    split; [apply pinv_ri; [apply pinv_counted; auto|]; apply solvers_set; auto; [apply Hp|lia]|]. split; auto.
    destruct r as [|asg]; [|discriminate]. intros _ w Hw _. apply Hr. exists w. apply Hcs. split; [|split; auto].
    + apply ri_base_true. lia.
    + apply temp_clauses_true. auto.
Qed.

End Query.
