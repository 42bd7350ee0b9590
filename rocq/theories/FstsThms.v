(** Lemmas behind the properties of transition systems (C22 - C31). *)
From Verif Require Import Base Formulas FormulaLogic Aig AigParse Fsts Solvers Brute Spec SpecText SpecAig
  SpecAiger SpecFsts Tac FormulasFacts LogicFacts BruteFacts AigFacts SimFacts EncodeFacts AigThms
  FstsFacts FstsSem TagFacts.
Open Scope N_scope.

(* -------------------------------------------------------------------- C22, C23, C24 *)

Lemma initial_relation_exact b c flag s : system_of b c flag s ->
  forall w, cube_true w (get_initial_relation s) <-> initial_values c w.
Proof.
  intros H w. destruct (system_static _ _ _ _ H) as (Hwf & Hm & He).
  apply (init_true c flag s); auto.
Qed.

Lemma transition_sound b c flag s : system_of b c flag s -> next_fits b c ->
  forall w w1, cnf_true w (get_transition_relation s) ->
  wires_ok c w1 -> same_inputs c w1 w -> same_latches c w1 w ->
  step_values c w1 (frame (get_max_literal_number s) 1 w).
Proof.
  intros H Hn w w1 Hw H1 Hi Hl. destruct (system_next _ _ _ _ H Hn) as (Hwf & Hm & He).
  intros v nx r L. unfold frame, get_max_literal_number. rewrite (e_max _ _ _ He), N.mul_1_l.
  rewrite (trans_sound0 c flag s Hwf He Hm w Hw v nx r L).
  apply lit_value_ext. symmetry. apply wires_unique; auto.
  - intros u [Hu|Hu]; auto.
  - pose proof (latch_nexts_range c Hwf) as R. rewrite Forall_forall in R. apply R.
    apply in_latch_nexts. eauto.
Qed.

Lemma transition_complete b c flag s : system_of b c flag s -> next_fits b c ->
  forall w w', wires_ok c w -> step_values c w w' ->
  exists a, cnf_true a (get_transition_relation s) /\
    (forall v, 1 <= v <= c_max c -> a v = w v) /\
    (forall v, 1 <= v <= c_max c -> frame (get_max_literal_number s) 1 a v = w' v).
Proof.
  intros H Hn w w' Hw Hs. destruct (system_next _ _ _ _ H Hn) as (Hwf & Hm & He).
  exists (pair c w w'). split; [apply (trans_complete c flag s); auto|].
  split.
  - intros v Hv. apply pair_lo. lia.
  - intros v Hv. unfold frame, get_max_literal_number. rewrite (e_max _ _ _ He), N.mul_1_l.
    apply pair_hi. lia.
Qed.

Lemma safety_translation_exact b c flag s : system_of b c flag s -> bad_fits b c flag ->
  (forall w w1, cnf_true w (get_state_to_safety_translation s) ->
    wires_ok c w1 -> same_inputs c w1 w -> same_latches c w1 w ->
    (clause_true w (get_unsafety_property s) <-> is_bad c flag w1)) /\
  (forall w, wires_ok c w -> cnf_true w (get_state_to_safety_translation s)) /\
  (forall w, cube_true w (get_safety_property s) <-> ~ clause_true w (get_unsafety_property s)).
Proof.
  intros H Hn. destruct (system_static _ _ _ _ H) as (Hwf & Hm & He).
  pose proof (system_bad _ _ _ _ H Hn) as Hb. rewrite Forall_forall in Hb. split; [|split].
  - intros w w1 Hw H1 Hi Hl. unfold get_unsafety_property. rewrite (unsafe_true c flag s He).
    assert (V : forall l, In l (bad_literals c flag) -> lit_value w l = lit_value w1 l).
    { intros l Hx. rewrite (safety_sound0 c flag s Hwf He Hm w Hw l Hx (Hb l Hx)).
      apply lit_value_ext. symmetry. apply wires_unique; auto.
      - intros u [Hu|Hu]; auto.
      - pose proof (bad_range c flag Hwf) as R. rewrite Forall_forall in R. apply (R l Hx). }
    unfold is_bad. split; intros (l & Hx & Ht); exists l; split; auto.
    + rewrite <- V; auto.
    + rewrite V; auto.
  - intros w Hw. apply (safety_complete c flag s); auto.
  - intros w. apply clause_not_true.
Qed.

(* ------------------------------------------------------------------------------ C25 *)

Lemma from_aig_accepts b order a c flag : represents a c -> circuit_wf c -> circuit_fits c ->
  order_ok order -> c_constraints c = [] -> numbering_fits c flag ->
  exists s, from_aig b order a flag = Ok s.
Proof.
  intros Hr Hwf Hf Ho Hc Hn.
  destruct (from_aig_ok b order a c flag Hr Hwf Hf Ho Hc (numbering_numbered _ _ Hn)) as (s & E & _).
  eauto.
Qed.

Lemma from_aig_debug_exact order a c flag : represents a c -> circuit_wf c -> circuit_fits c ->
  order_ok order ->
  ((exists s, from_aig Debug order a flag = Ok s) <->
   c_constraints c = [] /\ c_max c < 2147483647 /\
   (forall v, is_latch c v -> v + c_max c <= 2147483647) /\
   Forall (fun l => lit_var l <> 0) (bad_literals c flag)).
Proof.
  intros Hr Hwf Hf Ho. split.
  - intros (s & E). assert (S : system_of Debug c flag s) by (exists order, a; auto 6).
    destruct (system_basic _ _ _ _ S) as (_ & _ & Hc).
    destruct (system_numbered_debug _ _ _ S) as (H1 & H2 & H3). auto.
  - intros (Hc & H1 & H2 & H3).
    destruct (from_aig_ok Debug order a c flag Hr Hwf Hf Ho Hc) as (s & E & _); [|eauto].
    split; auto.
Qed.

Lemma literal_of_aig_release l : lit_var l < 4294967296 -> exists x, literal_of_aig Release l = Ok x.
Proof.
  intros H. unfold literal_of_aig, u32_of_usize. rewrite N.shiftr_div_pow2.
  change (l / 2 ^ 1) with (lit_var l). destruct (lit_var l <? u32_mod) eqn:E; [|unfold u32_mod in *; lia].
  cbn [assert_ bind]. unfold literal_new. cbn [debug_assert bind]. eauto.
Qed.

Lemma transition_release order a c : represents a c -> circuit_wf c -> circuit_fits c -> c_max c < 2147483647 ->
  order_ok order -> exists f, create_transition_cnf Release order a (c_max c) = Ok f.
Proof.
  intros Hr Hwf Hf Hm Ho. unfold create_transition_cnf.
  rewrite (get_latch_information_ok a c) by auto. cbn [bind].
  destruct (foldM_total (transition_step Release (c_max c))
    (fun pre st => snd st = map (fun e => snd (fst e)) pre) (latch_infos c) (cnf_new, []))
    as ((f & ws) & E & Ew); [reflexivity| |].
  - intros pre ((lhs, nx), r) suf (f, ws) El Ew. cbn [snd] in Ew. subst ws.
    assert (Hin : In (lhs, nx, r) (latch_infos c)) by (rewrite El, in_app_iff; simpl; auto).
    apply in_latch_infos in Hin. destruct Hin as (v & nx' & r' & L & Eq). injection Eq as -> -> ->.
    pose proof (latch_le_max c v (ex_intro _ nx' (ex_intro _ r' L))) as Vm.
    assert (Hnx : lit_var nx' <= c_max c) by (destruct Hwf as (Hl & _); eapply Hl; eauto).
    unfold transition_step. cbn [debug_assert bind].
    destruct (literal_of_aig_release (2 * v)) as (x & ->); [rewrite lit_var_even; lia|]. cbn [bind].
    assert (A : exists n, u32_add Release (get_number x) (c_max c) = Ok n).
    { unfold u32_add. destruct (get_number x + c_max c <? u32_mod); eauto. }
    destruct A as (n & ->). cbn [bind].
    assert (B : exists y, literal_new Release n = Ok y) by (unfold literal_new; cbn; eauto).
    destruct B as (y & ->). cbn [bind]. rewrite map_app. cbn [map fst snd].
    destruct (nx' =? 0); [eexists; split; reflexivity|].
    destruct (nx' =? 1); [eexists; split; reflexivity|].
    destruct (literal_of_aig_release nx') as (z & ->); [lia|]. cbn [bind]. eexists; split; reflexivity.
  - rewrite E. cbn [bind]. cbn [snd] in Ew. subst ws.
    destruct (wires_cnf_ok Release a c Hr Hwf Hf Hm order (map (fun e => snd (fst e)) (latch_infos c)) Ho)
      as (l2 & E2 & _).
    { apply Forall_forall. intros l Hl. apply in_map_iff in Hl. destruct Hl as (e & <- & He).
      destruct e as ((lhs, nx), r). apply in_latch_infos in He. destruct He as (v & nx' & r' & L & Eq).
      injection Eq as -> -> ->. cbn [fst snd]. destruct Hwf as (Hl & _). eapply Hl; eauto. }
    rewrite E2. cbn [bind]. eauto.
Qed.

Lemma unsafety_release a c flag : represents a c -> circuit_wf c -> c_max c < 2147483647 ->
  exists d, create_unsafety_property Release a flag = Ok d.
Proof.
  intros Hr Hwf Hm. unfold create_unsafety_property. rewrite (bad_info_eq a c flag) by auto.
  pose proof (bad_range c flag Hwf) as R.
  assert (G : exists ls, mapM (literal_of_aig Release) (bad_literals c flag) = Ok ls).
  { induction R as [|l ls Hl _ (xs & IH)]; [cbn; eauto|]. cbn [mapM].
    destruct (literal_of_aig_release l) as (x & ->); [red in Hl; lia|]. cbn [bind].
    rewrite IH. cbn [bind]. eauto. }
  destruct G as (ls & E). destruct (bad_literals c flag); [eauto|]. rewrite E. cbn [bind]. eauto.
Qed.

Lemma from_aig_release_exact order a c flag : represents a c -> circuit_wf c -> circuit_fits c ->
  order_ok order ->
  ((exists s, from_aig Release order a flag = Ok s) <-> c_constraints c = [] /\ c_max c < 2147483647).
Proof.
  intros Hr Hwf Hf Ho. split.
  - intros (s & E). assert (S : system_of Release c flag s) by (exists order, a; auto 6).
    destruct (system_basic _ _ _ _ S) as (_ & H1 & H2). auto.
  - intros (Hc & Hm). unfold from_aig.
    assert (Emax : get_highest_variable_number a = c_max c)
      by (unfold represents in Hr; unfold get_highest_variable_number; tauto).
    rewrite Emax. destruct (c_max c <? u31_max) eqn:E1; [|unfold u31_max in *; lia]. cbn [assert_ bind].
    assert (Ec : get_constraints_information a = [])
      by (unfold represents in Hr; unfold get_constraints_information; decompose [and] Hr; congruence).
    rewrite Ec. cbn [assert_ bind]. unfold u32_of_usize.
    destruct (c_max c <? u32_mod) eqn:E2; [|unfold u32_mod in *; lia]. cbn [assert_ bind].
    rewrite (input_numbers_ok Release a c) by auto. cbn [bind].
    destruct (create_initial_ok Release a c Hr Hwf Hf Hm) as (lits & Ei & Hi). rewrite Ei. cbn [bind].
    destruct (transition_release order a c Hr Hwf Hf Hm Ho) as (f & ->). cbn [bind].
    unfold create_state_to_safety_translation. rewrite Ec. cbn [app].
    assert (Eb : get_bad_information a ++ (if flag then get_output_information a else [])
                 = bad_literals c flag) by (apply bad_info_eq; auto).
    rewrite Eb.
    destruct (wires_cnf_ok Release a c Hr Hwf Hf Hm order (bad_literals c flag) Ho (bad_range c flag Hwf))
      as (lss & -> & _). cbn [bind].
    destruct (unsafety_release a c flag Hr Hwf Hm) as (d & ->). cbn [bind]. eauto.
Qed.

(* ------------------------------------------------------------------------------ C26 *)

Lemma frame_shift m k a : frame m k a = shift (m * k) a.
Proof. unfold frame, shift. rewrite N.mul_comm. reflexivity. Qed.


Lemma fits_bumpable s k v : fits_frame s k v -> bumpable (max_literal_number s * k) v.
Proof. unfold fits_frame, get_max_literal_number, bumpable. intros (H1 & H2). split; lia. Qed.

Lemma tag_relation_meaning b s f k : api_cnf f -> k * get_max_literal_number s < 4294967296 ->
  cnf_vars (fits_frame s k) f ->
  exists f', add_tags_to_relation b s f k = Ok f' /\
    (forall a, cnf_true a f' <-> cnf_true (frame (get_max_literal_number s) k a) f) /\
    cnf_vars (fun x => exists v, In v (variable_numbers f) /\ x = v + k * get_max_literal_number s) f'.
Proof.
  unfold get_max_literal_number. intros Ha Hk Hv.
  exists (tagged_cnf (max_literal_number s * k) f). split; [|split].
  - apply add_tags_relation_ok; auto; [lia|]. right.
    eapply cnf_vars_impl; [|exact Hv]. apply fits_bumpable.
  - intros a. rewrite frame_shift. apply tagged_cnf_true.
  - apply tagged_cnf_vars. intros d Hd l Hl. cbv beta. exists (lit_var l). split; [|lia].
    apply in_variable_numbers. eauto.
Qed.

Lemma tag_clause_meaning b s d k : api_clause d -> k * get_max_literal_number s < 4294967296 ->
  clause_vars (fits_frame s k) d ->
  exists d', add_tags_to_clause b s d k = Ok d' /\
    (forall a, clause_true a d' <-> clause_true (frame (get_max_literal_number s) k a) d) /\
    clause_vars (fun x => exists l, In l (clause_lits d) /\ x = lit_var l + k * get_max_literal_number s) d'.
Proof.
  unfold get_max_literal_number. intros Ha Hk Hv.
  exists (bumped (max_literal_number s * k) d). split; [|split].
  - apply add_tags_clause_ok; auto; [lia|]. right.
    eapply clause_vars_impl; [|exact Hv]. apply fits_bumpable.
  - intros a. rewrite frame_shift. apply bumped_true.
  - intros x Hx. apply in_map_iff in Hx. destruct Hx as (l & <- & Hl). cbv beta. exists l.
    rewrite lit_var_bump. split; auto. lia.
Qed.

Lemma tag_cube_meaning b s q k : api_cube q -> k * get_max_literal_number s < 4294967296 ->
  cube_vars (fits_frame s k) q ->
  exists q', add_tags_to_cube b s q k = Ok q' /\
    (forall a, cube_true a q' <-> cube_true (frame (get_max_literal_number s) k a) q) /\
    cube_vars (fun x => exists l, In l (cube_lits q) /\ x = lit_var l + k * get_max_literal_number s) q'.
Proof.
  unfold get_max_literal_number. intros Ha Hk Hv.
  exists (bumped_cube (max_literal_number s * k) q). split; [|split].
  - apply add_tags_cube_ok; auto; [lia|]. right.
    eapply cube_vars_impl; [|exact Hv]. apply fits_bumpable.
  - intros a. rewrite frame_shift. apply bumped_cube_true.
  - intros x Hx. apply in_map_iff in Hx. destruct Hx as (l & <- & Hl). cbv beta. exists l.
    rewrite lit_var_bump. split; auto. lia.
Qed.

Lemma tag_commutes b s q k : api_cube q -> k * get_max_literal_number s < 4294967296 ->
  cube_vars (fits_frame s k) q ->
  exists q' d' f' g', add_tags_to_cube b s q k = Ok q' /\
    add_tags_to_clause b s (cube_not q) k = Ok d' /\ d' = cube_not q' /\ clause_not d' = q' /\
    add_tags_to_relation b s (cube_to_cnf q) k = Ok f' /\ cnf_eqb f' (cube_to_cnf q') = true /\
    add_tags_to_relation b s (clause_to_cnf (cube_not q)) k = Ok g' /\
    cnf_eqb g' (clause_to_cnf d') = true.
Proof.
  unfold get_max_literal_number. intros Ha Hk Hv. set (n := max_literal_number s * k).
  assert (Hb : cube_vars (bumpable n) q).
  { eapply cube_vars_impl; [|exact Hv]. apply fits_bumpable. }
  assert (Hb' : clause_vars (bumpable n) (cube_not q)) by (apply cube_not_vars; auto).
  assert (Hn : n < 4294967296) by (unfold n; lia).
  exists (bumped_cube n q), (bumped n (cube_not q)), (tagged_cnf n (cube_to_cnf q)),
    (tagged_cnf n (clause_to_cnf (cube_not q))).
  split; [apply add_tags_cube_ok; auto|].
  split; [apply add_tags_clause_ok; auto with api|].
  split; [rewrite cube_not_bumped; auto|].
  split; [rewrite clause_not_bumped by auto with api; rewrite cube_not_not; auto|].
  split; [apply add_tags_relation_ok; auto with api; right; apply cube_to_cnf_bumpable; auto|].
  split.
  { apply cnf_eqb_spec.
    - apply api_cnf_nodup. apply tagged_cnf_api. auto with api.
    - apply api_cnf_nodup. auto using bumped_cube_api with api.
    - intros d. apply in_bumped_cube_to_cnf. }
  split; [apply add_tags_relation_ok; auto with api; right; apply clause_to_cnf_vars; auto|].
  apply cnf_eqb_spec.
  - apply api_cnf_nodup. apply tagged_cnf_api. auto with api.
  - apply api_cnf_nodup. auto using bumped_api with api.
  - intros d. rewrite in_tagged_cnf. unfold clause_to_cnf. rewrite in_add_clause. split.
    + intros (e & He & ->). rewrite in_add_clause in He. destruct He as [[]| ->]. auto.
    + intros [[]| ->]. exists (cube_not q). rewrite in_add_clause. auto.
Qed.

Lemma tag_frames_disjoint m k k' v v' : 1 <= v <= m -> 1 <= v' <= m ->
  v + k * m = v' + k' * m -> k = k' /\ v = v'.
Proof.
  intros H H' E.
  assert (D : forall x j, 1 <= x <= m -> (x + j * m - 1) / m = j /\ (x + j * m - 1) mod m = x - 1).
  { intros x j Hx. replace (x + j * m - 1) with (x - 1 + j * m) by lia.
    rewrite N.div_add, N.mod_add by lia. rewrite N.div_small, N.mod_small by lia. lia. }
  destruct (D v k H) as (D1 & D2). destruct (D v' k' H') as (D3 & D4). rewrite E in *. lia.
Qed.

Lemma tag_disjoint b s f g k k' f' g' : api_cnf f -> api_cnf g ->
  let m := get_max_literal_number s in
  cnf_vars (fun v => 1 <= v <= m) f -> cnf_vars (fun v => 1 <= v <= m) g ->
  (k + 1) * m <= 2147483647 -> (k' + 1) * m <= 2147483647 -> k <> k' ->
  add_tags_to_relation b s f k = Ok f' -> add_tags_to_relation b s g k' = Ok g' ->
  forall v, In v (variable_numbers f') -> ~ In v (variable_numbers g').
Proof.
  intros Ha Ha' m Hf Hg Hk Hk' Hne Ef Eg v Hv Hv'.
  assert (Q : forall h j, cnf_vars (fun v => 1 <= v <= m) h -> (j + 1) * m <= 2147483647 ->
    cnf_vars (fits_frame s j) h).
  { intros h j Hh Hj. eapply cnf_vars_impl; [|exact Hh]. intros x Hx. cbv beta in Hx. unfold fits_frame. fold m. split; lia. }
  destruct (tag_relation_meaning b s f k Ha) as (f1 & E1 & _ & V1); [fold m; lia|auto|].
  destruct (tag_relation_meaning b s g k' Ha') as (g1 & E2 & _ & V2); [fold m; lia|auto|].
  rewrite Ef in E1. rewrite Eg in E2. inv E1. inv E2. fold m in V1, V2.
  apply in_variable_numbers in Hv. destruct Hv as (d & l & Hd & Hl & <-).
  apply in_variable_numbers in Hv'. destruct Hv' as (d2 & l2 & Hd2 & Hl2 & E).
  destruct (V1 d Hd l Hl) as (x & Hx & Ex). destruct (V2 d2 Hd2 l2 Hl2) as (y & Hy & Ey).
  apply in_variable_numbers in Hx. destruct Hx as (e & z & He & Hz & <-).
  apply in_variable_numbers in Hy. destruct Hy as (e2 & z2 & He2 & Hz2 & <-).
  pose proof (Hf e He z Hz). pose proof (Hg e2 He2 z2 Hz2). cbv beta in *.
  destruct (tag_frames_disjoint m k k' (lit_var z) (lit_var z2)); auto. congruence.
Qed.

Lemma tag_debug_exact s k :
  (forall f f', api_cnf f -> add_tags_to_relation Debug s f k = Ok f' ->
    forall a, cnf_true a f' <-> cnf_true (frame (get_max_literal_number s) k a) f) /\
  (forall d d', api_clause d -> add_tags_to_clause Debug s d k = Ok d' ->
    forall a, clause_true a d' <-> clause_true (frame (get_max_literal_number s) k a) d) /\
  (forall q q', api_cube q -> add_tags_to_cube Debug s q k = Ok q' ->
    forall a, cube_true a q' <-> cube_true (frame (get_max_literal_number s) k a) q).
Proof.
  unfold get_max_literal_number. split; [|split].
  - intros f f' Ha E a. apply add_tags_relation_debug in E; auto. destruct E as (_ & ->).
    rewrite frame_shift. apply tagged_cnf_true.
  - intros f f' Ha E a. apply add_tags_clause_debug in E; auto. destruct E as (_ & ->).
    rewrite frame_shift. apply bumped_true.
  - intros f f' Ha E a. apply add_tags_cube_debug in E; auto. destruct E as (_ & ->).
    rewrite frame_shift. apply bumped_cube_true.
Qed.

(* ------------------------------------------------------------------------------ C27 *)

Lemma set_memN x l : set_mem N.eqb x l = true <-> In x l.
Proof. apply (set_mem_in N.eqb N.eqb_eq). Qed.

Lemma same_var_lit l l' : lit_var l = lit_var l' -> l' = l \/ l' = literal_not l.
Proof.
  intros H. destruct (Bool.bool_dec (lit_neg l) (lit_neg l')) as [E|E].
  - left. symmetry. apply lit_eq; auto.
  - right. apply lit_eq; rewrite ?lit_var_not, ?lit_neg_not; auto.
    destruct (lit_neg l), (lit_neg l'); auto; congruence.
Qed.

Lemma cube_initial_correct b c flag s q : system_of b c flag s ->
  consistent q ->
  (is_cube_initial s q = true <-> exists w, initial_values c w /\ cube_true w q).
Proof.
  intros H (a0 & Hq). destruct (system_static _ _ _ _ H) as (Hwf & Hm & He).
  unfold is_cube_initial, cube_iter. rewrite forallb_forall. split.
  - intros Hf.
    set (inq := fun v => existsb (fun l => lit_var l =? v) (cube_lits q)).
    set (w := fun v => if inq v then a0 v else set_mem N.eqb (2 * v) (initial_literals s)).
    exists w. split.
    + apply (init_true c flag s He). intros l Hl.
      destruct (inq (lit_var l)) eqn:E.
      * pose proof E as E'. unfold inq in E'. rewrite existsb_exists in E'. destruct E' as (l' & Hl' & Ev).
        apply N.eqb_eq in Ev.
        apply (lit_true_ext w a0); [unfold w; rewrite E; auto|].
        destruct (same_var_lit l l') as [->| ->]; auto.
        specialize (Hf _ Hl'). rewrite literal_not_invol in Hf.
        apply (e_init_lits _ _ _ He) in Hl. apply set_memN in Hl. rewrite Hl in Hf. discriminate.
      * pose proof Hl as Hi. apply (init_cube_in c flag s He) in Hl.
        destruct Hl as (v & nx & r & L & Hr).
        apply lit_true_value. unfold w. destruct Hr as [(-> & ->)|(-> & ->)].
        -- rewrite lit_value_odd. replace (lit_var (2 * v + 1)) with v in E by (unfold lit_var; lia).
           rewrite E. apply negb_true_iff. apply not_true_iff_false. intros Hx.
           apply set_memN in Hx. apply (e_init_lits _ _ _ He) in Hx.
           apply (init_cube_in c flag s He) in Hx.
           destruct Hx as (v' & nx' & r' & L' & [(-> & E2)|(-> & E2)]); [lia|].
           assert (v' = v) by lia. subst v'. destruct (latch_fun _ _ _ _ _ _ L L') as (_ & E3). discriminate.
        -- unfold lit_value. replace (lit_var (2 * v)) with v in * by (unfold lit_var; lia).
           rewrite E. apply (e_init_lits _ _ _ He) in Hi. apply set_memN in Hi. rewrite Hi.
           unfold lit_neg. rewrite odd_mod. replace ((2 * v) mod 2 =? 1) with false by lia. reflexivity.
    + intros l Hl. apply (lit_true_ext w a0); auto. unfold w.
      replace (inq (lit_var l)) with true; auto. symmetry. apply existsb_exists.
      exists l. rewrite N.eqb_refl. auto.
  - intros (w & Hi & Hw) l Hl. apply negb_true_iff. apply not_true_iff_false. intros Hx.
    apply set_memN in Hx. apply (e_init_lits _ _ _ He) in Hx.
    apply (init_true c flag s He) in Hi. specialize (Hi _ Hx). apply lit_true_not in Hi.
    apply Hi, Hw, Hl.
Qed.

(** For cubes over latches and inputs the initial state is one of the circuit. *)
Lemma cube_initial_state b c flag s q : system_of b c flag s ->
  consistent q -> cube_vars (fun v => is_latch c v \/ is_input c v) q ->
  (is_cube_initial s q = true <-> exists w, wires_ok c w /\ initial_values c w /\ cube_true w q).
Proof.
  intros H Hq Hv. destruct (system_static _ _ _ _ H) as (Hwf & Hm & He).
  rewrite (cube_initial_correct _ _ _ _ q H Hq). split.
  - intros (w & Hi & Hw). exists (ev c w). split; [apply ev_wires_ok; auto|]. split.
    + intros v nx r L. rewrite ev_src; [apply (Hi _ _ _ L)|]. right. left. exists nx, r. auto.
    + apply (cube_true_ext w (ev c w)); auto. intros l Hl. symmetry. apply ev_src.
      specialize (Hv l Hl). cbv beta in Hv. tauto.
  - intros (w & _ & Hi & Hw). eauto.
Qed.

(* ------------------------------------------------------------------------------ C28 *)

Lemma states_range0 c flag s : c_max c < 2147483647 -> static c flag s ->
  forall v, In v (state_literals s) -> 1 <= v <= 2147483647.
Proof.
  intros Hm He v Hv. rewrite (e_states _ _ _ He), in_states in Hv.
  pose proof (latch_le_max _ _ Hv). apply is_latch_iff in Hv. lia.
Qed.

Lemma states_range c flag s : numbered c flag -> encodes c flag s ->
  forall v, In v (state_literals s) -> 1 <= v <= 2147483647.
Proof.
  intros (Hm & _) He v Hv. rewrite (e_states _ _ _ He), in_states in Hv.
  pose proof (latch_le_max _ _ Hv). apply is_latch_iff in Hv. lia.
Qed.

Lemma latch_cube_state c (f : valuation) :
  let q := cube_new (map (fun v => if f v then 2 * v else 2 * v + 1)
             (numbers (c_inputs c + 1) (lenN (c_latches c)))) in
  forall w, (forall v, is_latch c v -> f v = w v) -> state_cube c w q.
Proof.
  intros q w Hf. 
  assert (V : forall v, lit_var (if f v then 2 * v else 2 * v + 1) = v).
  { intros v. unfold lit_var. destruct (f v); lia. }
  assert (P : Permutation (cube_lits q) (map (fun v => if f v then 2 * v else 2 * v + 1)
             (numbers (c_inputs c + 1) (lenN (c_latches c))))) by apply sort_perm.
  assert (P' : Permutation (map lit_var (cube_lits q)) (numbers (c_inputs c + 1) (lenN (c_latches c)))).
  { rewrite P, map_map. rewrite (map_ext _ (fun v => v)) by auto. rewrite map_id. auto. }
  split; [|split].
  - rewrite P'. apply numbers_nodup.
  - intros v. rewrite <- in_states. split; apply Permutation_in; auto. symmetry; auto.
  - intros l Hl. rewrite P in Hl. apply in_map_iff in Hl. destruct Hl as (v & <- & Hv).
    apply in_states in Hv. apply lit_true_value. rewrite (Hf v Hv). 
    destruct (w v) eqn:E.
    + rewrite lit_value_even. auto.
    + rewrite lit_value_odd, E. auto.
Qed.

Lemma extract_exact b c flag s asg : system_of b c flag s ->
  (forall v, is_latch c v -> get_value asg v <> None) ->
  exists q, extract_state_from_assignment b s asg = Ok q /\
    (forall w, agrees asg w -> state_cube c w q) /\
    (forall w w', agrees asg w -> cube_true w' q -> same_latches c w' w).
Proof.
  intros H Hd. destruct (system_static _ _ _ _ H) as (Hwf & Hm & He).
  rewrite extract_ok.
  - eexists. split; [reflexivity|]. rewrite (e_states _ _ _ He).
    assert (S : forall w, agrees asg w -> forall v, is_latch c v -> complete asg v = w v).
    { intros w Hw v Hv. specialize (Hd v Hv). destruct (get_value asg v) as [x|] eqn:E; [|congruence].
      rewrite (Hw _ _ E). apply complete_agrees; auto. }
    split.
    + intros w Hw. apply latch_cube_state. auto.
    + intros w w' Hw Hq v Hv. rewrite <- (S w Hw v Hv).
      specialize (Hq (if complete asg v then 2 * v else 2 * v + 1)).
      rewrite in_cube_new in Hq.
      assert (T : lit_true w' (if complete asg v then 2 * v else 2 * v + 1)).
      { apply Hq. apply in_map_iff. exists v. split; auto. apply in_states; auto. }
      rewrite lit_true_value in T. destruct (complete asg v).
      * rewrite lit_value_even in T. auto.
      * rewrite lit_value_odd in T. destruct (w' v); auto; discriminate.
  - apply (states_range0 c flag s); auto.
  - intros v Hv. rewrite (e_states _ _ _ He), in_states in Hv. auto.
Qed.

Lemma extract_undefined b c flag s asg v : system_of b c flag s ->
  is_latch c v -> get_value asg v = None -> extract_state_from_assignment b s asg = Panic.
Proof.
  intros H Hv Hd. destruct (system_static _ _ _ _ H) as (Hwf & Hm & He).
  apply extract_panics with v; auto.
  - apply (states_range0 c flag s); auto.
  - rewrite (e_states _ _ _ He). apply in_states; auto.
Qed.

(* ------------------------------------------------------------------------- successors *)

Definition next_state (c : circuit) (w : valuation) : valuation := fun v =>
  if v <=? c_inputs c then false else
  match nth_error (c_latches c) (N.to_nat (v - c_inputs c - 1)) with
  | Some (nx, _) => lit_value w nx
  | None => false
  end.

Lemma next_state_latch c w v nx r : latch c v nx r -> next_state c w v = lit_value w nx.
Proof.
  intros (j & Hj & ->). unfold next_state, latch_var.
  destruct (_ <=? _) eqn:E; [lia|].
  replace (N.to_nat (c_inputs c + 1 + N.of_nat j - c_inputs c - 1)) with j by lia.
  rewrite Hj. reflexivity.
Qed.

(** The successor of [w], with the inputs of [i]. *)
Definition succ (c : circuit) (w i : valuation) : valuation :=
  ev c (fun v => if v <=? c_inputs c then i v else next_state c w v).

Lemma succ_wires c w i : circuit_wf c -> wires_ok c (succ c w i).
Proof. intros H. apply ev_wires_ok; auto. Qed.

Lemma succ_step c w i : step_values c w (succ c w i).
Proof.
  intros v nx r L. unfold succ. rewrite ev_src by (right; left; exists nx, r; auto).
  pose proof (latch_range _ _ _ _ L). destruct (v <=? c_inputs c) eqn:E; [lia|].
  eapply next_state_latch; eauto.
Qed.

Lemma succ_inputs c w i : same_inputs c (succ c w i) i.
Proof.
  intros v Hv. unfold succ. rewrite ev_src by auto.
  unfold is_input in Hv. destruct (v <=? c_inputs c) eqn:E; [auto|lia].
Qed.

(** Variables of a valuation of the circuit are fixed by inputs and latches. *)
Lemma wires_same c w w' : circuit_wf c -> wires_ok c w -> wires_ok c w' ->
  same_inputs c w w' -> same_latches c w w' -> forall v, v <= c_max c -> w v = w' v.
Proof.
  intros Hwf Hw Hw' Hi Hl v Hv. rewrite (wires_unique c w' w Hwf Hw') by (auto; intros u [Hu|Hu]; symmetry; auto).
  apply (wires_unique c w w Hwf Hw); auto.
Qed.

(* -------------------------------------------------------------------------- C29, C30 *)

Lemma cone_literals (cone : list N) q l : In l (cube_lits q) -> In (lit_var l) cone ->
  In l (cube_lits (cube_new (filter (fun l => set_mem N.eqb (get_number l) cone) (cube_lits q)))).
Proof.
  intros H1 H2. apply in_cube_new. apply filter_In. split; auto.
  apply set_memN. rewrite get_number_div. auto.
Qed.

Lemma cone_agree c w w' cone q v : state_cube c w q -> is_latch c v -> In v cone ->
  cube_true w' (cube_new (filter (fun l => set_mem N.eqb (get_number l) cone) (cube_lits q))) ->
  w v = w' v.
Proof.
  intros (_ & Hv & Hq) Hl Hc H. apply Hv in Hl. apply in_map_iff in Hl. destruct Hl as (l & <- & Hl).
  specialize (H l (cone_literals cone q l Hl Hc)). specialize (Hq l Hl).
  unfold lit_true in *. destruct (lit_neg l), (w (lit_var l)), (w' (lit_var l)); simpl in *; congruence.
Qed.

Definition inb (v : N) (l : list N) : bool := existsb (N.eqb v) l.
Lemma inb_in v l : inb v l = true <-> In v l.
Proof. apply existsb_in. Qed.

Lemma transition_cone b c flag s q w w' : system_of b c flag s -> next_fits b c ->
  wires_ok c w -> wires_ok c w' -> state_cube c w q ->
  cube_true w' (intersect_cube_with_cone_of_transition s q) -> same_inputs c w w' ->
  forall w1, step_values c w w1 -> step_values c w' w1.
Proof.
  intros H Hn Hw Hw' Hq Hc Hi w1 Hs. destruct (system_next _ _ _ _ H Hn) as (Hwf & Hm & He).
  set (a := pair c w (next_state c w)).
  assert (Ha : cnf_true a (transition s)).
  { apply (trans_complete c flag s); auto. intros v nx r L. eapply next_state_latch; eauto. }
  set (V := variable_numbers (transition s)).
  set (a2 := fun x => if inb x V then a x else w' x).
  assert (Ha2 : cnf_true a2 (transition s)).
  { apply (cnf_true_ext (fun v => In v V) a a2); auto.
    - intros d Hd l Hl. apply in_variable_numbers. eauto.
    - intros v Hv. unfold a2. apply inb_in in Hv. rewrite Hv. auto. }
  intros v nx r L. rewrite (Hs _ _ _ L).
  pose proof (trans_sound0 c flag s Hwf He Hm a2 Ha2 v nx r L) as T.
  assert (Hv : is_latch c v) by (exists nx, r; auto).
  pose proof (e_t_latch _ _ _ He v Hv) as Hin. fold V in Hin. apply inb_in in Hin.
  unfold a2 at 1 in T. rewrite Hin in T. unfold a in T.
  pose proof (latch_range _ _ _ _ L). rewrite pair_hi in T by lia.
  rewrite (next_state_latch _ _ _ _ _ L) in T. rewrite T. apply lit_value_ext.
  symmetry. apply wires_unique; auto.
  - intros u Hu. unfold a2. destruct (inb u V) eqn:E; auto. unfold a.
    rewrite pair_lo by (destruct Hu as [Hu|Hu]; [apply input_le_max|apply latch_le_max]; auto).
    destruct Hu as [Hu|Hu]; [symmetry; auto|]. symmetry.
    apply (cone_agree c w w' (cone_of_transition_only_latches s) q); auto.
    apply (e_cone_t _ _ _ He). split; auto. apply inb_in; auto.
  - pose proof (latch_nexts_range c Hwf) as R. rewrite Forall_forall in R. apply R.
    apply in_latch_nexts. eauto.
Qed.

(** The projection keeps exactly the latches some gate below the bad literals reads. *)
Lemma e_s_latch c flag s v : circuit_wf c -> static c flag s -> is_latch c v ->
  (In v (variable_numbers (state_to_safety_translation s)) <-> read_below c (bad_literals c flag) v).
Proof.
  intros Hwf He Hv. rewrite (e_s_occurs _ _ _ He). split.
  - intros (g & r0 & r1 & G & F & [->|(R0 & R1 & _ & Hr)]).
    + apply is_latch_iff in Hv. pose proof (gate_range _ _ _ _ G). lia.
    + exists g, r0, r1. auto.
  - intros (g & r0 & r1 & F & G & R0 & R1 & Hr). exists g, r0, r1. split; auto. split; auto.
    right. split; auto. split; auto. split; auto. apply is_latch_iff in Hv. lia.
Qed.

Lemma safety_cone_lits b c flag s q l : system_of b c flag s ->
  (In l (cube_lits (intersect_cube_with_cone_of_safety s q)) <->
   In l (cube_lits q) /\ is_latch c (lit_var l) /\ read_below c (bad_literals c flag) (lit_var l)).
Proof.
  intros H. destruct (system_static _ _ _ _ H) as (Hwf & Hm & He).
  unfold intersect_cube_with_cone_of_safety.
  rewrite in_cube_new, filter_In, set_memN, (e_cone_s _ _ _ He).
  rewrite get_number_div. fold (lit_var l). unfold cube_iter. split.
  - intros (H1 & H2 & H3). split; auto. split; auto. apply (e_s_latch c flag s); auto.
  - intros (H1 & H2 & H3). split; auto. split; auto. apply (e_s_latch c flag s); auto.
Qed.

Lemma e_t_read c flag s v : circuit_wf c -> encodes c flag s -> is_latch c v ->
  (In v (variable_numbers (transition s)) <-> read_by_next c v).
Proof.
  intros Hwf He Hv. rewrite (e_t_occurs _ _ _ He). pose proof (proj1 (is_latch_iff _ _) Hv) as Hr.
  pose proof (latch_le_max _ _ Hv) as Hm. unfold read_by_next. split.
  - intros [(l & nx & r & L & [E|(E & E2)])|(g & r0 & r1 & G & F & [->|(R0 & R1 & _ & Hx)])].
    + pose proof (latch_range _ _ _ _ L). lia.
    + left. exists l, nx, r. auto.
    + pose proof (gate_range _ _ _ _ G). lia.
    + right. exists g, r0, r1. auto.
  - intros [(l & nx & r & L & E)|(g & r0 & r1 & F & G & R0 & R1 & Hx)].
    + left. exists l, nx, r. split; auto. right. split; [lia|auto].
    + right. exists g, r0, r1. split; auto. split; auto. right. split; auto. split; auto. split; auto. lia.
Qed.

Lemma transition_cone_lits b c flag s q l : system_of b c flag s -> next_fits b c ->
  (In l (cube_lits (intersect_cube_with_cone_of_transition s q)) <->
   In l (cube_lits q) /\ is_latch c (lit_var l) /\ read_by_next c (lit_var l)).
Proof.
  intros H Hn. destruct (system_next _ _ _ _ H Hn) as (Hwf & Hm & He).
  unfold intersect_cube_with_cone_of_transition.
  rewrite in_cube_new, filter_In, set_memN, (e_cone_t _ _ _ He).
  rewrite get_number_div. fold (lit_var l). unfold cube_iter. split.
  - intros (H1 & H2 & H3). split; auto. split; auto. apply (e_t_read c flag s); auto.
  - intros (H1 & H2 & H3). split; auto. split; auto. apply (e_t_read c flag s); auto.
Qed.

Lemma safety_cone b c flag s q w w' : system_of b c flag s ->
  bad_latches_read c flag ->
  wires_ok c w -> wires_ok c w' -> state_cube c w q ->
  cube_true w' (intersect_cube_with_cone_of_safety s q) -> same_inputs c w w' ->
  is_bad c flag w -> is_bad c flag w'.
Proof.
  intros H Hg Hw Hw' Hq Hc Hi (l & Hl & Ht). destruct (system_static _ _ _ _ H) as (Hwf & Hm & He).
  exists l. split; auto.
  pose proof (safety_complete c flag s He w Hw) as Ha.
  set (V := variable_numbers (state_to_safety_translation s)).
  set (a2 := fun x => if inb x V then w x else w' x).
  assert (Ha2 : cnf_true a2 (state_to_safety_translation s)).
  { apply (cnf_true_ext (fun v => In v V) w a2); auto.
    - intros d Hd x Hx. apply in_variable_numbers. eauto.
    - intros v Hv. unfold a2. apply inb_in in Hv. rewrite Hv. auto. }
  pose proof (bad_range c flag Hwf) as R. rewrite Forall_forall in R.
  specialize (R l Hl). red in R.
  destruct (classify c (lit_var l) R) as [E|[E|[E|E]]].
  - rewrite <- Ht. apply lit_value_ext. rewrite E, (proj1 Hw), (proj1 Hw'). reflexivity.
  - rewrite <- Ht. apply lit_value_ext. symmetry. auto.
  - rewrite <- Ht. apply lit_value_ext. symmetry.
    apply (cone_agree c w w' (cone_of_safety_only_latches s) q); auto.
    apply (e_cone_s _ _ _ He). split; auto. apply (e_s_latch _ _ _ _ Hwf He); auto.
  - assert (E0 : lit_var l <> 0) by (destruct E as (r0 & r1 & E); pose proof (gate_range _ _ _ _ E); lia).
    pose proof (safety_sound0 c flag s Hwf He Hm a2 Ha2 l Hl E0) as T.
    assert (Hin : inb (lit_var l) V = true).
    { apply inb_in. apply (e_s_occurs _ _ _ He). destruct E as (r0 & r1 & E).
      exists (lit_var l), r0, r1. split; auto. split; auto. apply fan_in_root; auto. exists r0, r1; auto. }
    transitivity (lit_value (ev c a2) l).
    + apply lit_value_ext. apply wires_unique; auto.
      intros u Hu. unfold a2. destruct (inb u V) eqn:Eu; auto.
      destruct Hu as [Hu|Hu]; [symmetry; auto|]. symmetry.
      apply (cone_agree c w w' (cone_of_safety_only_latches s) q); auto.
      apply (e_cone_s _ _ _ He). split; auto. apply inb_in; auto.
    + rewrite <- T, <- Ht. apply lit_value_ext. unfold a2. rewrite Hin. auto.
Qed.

(* ------------------------------------------------------------------------------ C31 *)

(** A trace read as one valuation: the variables of clock [t] are [v + t * m]. *)
Definition unroll (m : N) (tr : nat -> valuation) : valuation :=
  fun x => tr (N.to_nat ((x - 1) / m)) ((x - 1) mod m + 1).

Lemma unroll_at m tr k v : 1 <= v <= m -> unroll m tr (v + k * m) = tr (N.to_nat k) v.
Proof.
  intros H. unfold unroll. replace (v + k * m - 1) with (v - 1 + k * m) by lia.
  rewrite N.div_add, N.mod_add by lia. rewrite N.div_small, N.mod_small by lia.
  replace (0 + k) with k by lia. f_equal. lia.
Qed.

Lemma unroll_shift m tr k x : 1 <= x -> m <> 0 ->
  unroll m tr (x + k * m) = unroll m (fun t => tr (t + N.to_nat k)%nat) x.
Proof.
  intros H Hm. unfold unroll. replace (x + k * m - 1) with (x - 1 + k * m) by lia.
  rewrite N.div_add, N.mod_add by lia. rewrite N2Nat.inj_add. reflexivity.
Qed.

Section Check.
  Variables (c : circuit) (flag : bool) (s : FSTS).
  Hypothesis Hwf : circuit_wf c.
  Hypothesis Hf : numbering_fits c flag.
  Hypothesis He : encodes c flag s.
  Let Hn : numbered c flag := numbering_numbered c flag Hf.
  Let M := c_max c.

  Lemma unroll_trans tr : wires_ok c (tr 0%nat) -> step_values c (tr 0%nat) (tr 1%nat) ->
    cnf_true (unroll M tr) (transition s).
  Proof.
    intros Hw Hs. apply (cnf_true_ext _ (pair c (tr 0%nat) (tr 1%nat)) _ _ (e_t_vars _ _ _ He)).
    - intros v [Hv|Hv].
      + rewrite pair_lo by lia. pose proof (unroll_at M tr 0 v Hv) as E.
        replace (v + 0 * M) with v in E by lia. rewrite E. reflexivity.
      + pose proof (latch_le_max _ _ Hv). pose proof Hv as Hv'. apply is_latch_iff in Hv'.
        assert (E : v = v - c_max c + c_max c) by lia. rewrite E at 1. rewrite pair_hi by lia.
        pose proof (unroll_at M tr 1 (v - c_max c)) as E2. rewrite N.mul_1_l in E2.
        unfold M in E2 at 1 3. rewrite <- E in E2. symmetry. apply E2. unfold M. lia.
    - apply (trans_complete c flag s); auto.
  Qed.

  Lemma unroll_ext tr f : cnf_vars (fun v => 1 <= v <= M) f ->
    cnf_true (unroll M tr) f <-> cnf_true (tr 0%nat) f.
  Proof.
    intros Hv. apply (cnf_true_ext _ _ _ _ Hv). intros v Hv'.
    pose proof (unroll_at M tr 0 v Hv') as E. replace (v + 0 * M) with v in E by lia. auto.
  Qed.

  Lemma unroll_bump tr f : M <> 0 -> cnf_vars (fun v => 1 <= v) f ->
    cnf_true (shift M (unroll M tr)) f <-> cnf_true (unroll M (fun t => tr (S t))) f.
  Proof.
    intros HM Hv. apply (cnf_true_ext _ _ _ _ Hv). intros v Hv'. unfold shift.
    pose proof (unroll_shift M tr 1 v Hv' HM) as E. rewrite N.mul_1_l in E. rewrite E.
    unfold unroll. replace (N.to_nat ((v - 1) / M) + N.to_nat 1)%nat with (S (N.to_nat ((v - 1) / M))) by lia.
    reflexivity.
  Qed.

  Definition inv_init (inv : CNF) : Prop :=
    forall a, initial_values c a -> cnf_true a (state_to_safety_translation s) -> cnf_true a inv.
  Definition inv_step (inv : CNF) : Prop :=
    forall a, cnf_true a (transition s) -> cnf_true a inv ->
      cnf_true a (state_to_safety_translation s) ->
      cnf_true (shift M a) (state_to_safety_translation s) -> cnf_true (shift M a) inv.
  Definition inv_safe (inv : CNF) : Prop :=
    forall a, cnf_true a inv -> cnf_true a (state_to_safety_translation s) ->
      ~ clause_true a (unsafety_property s).

  Lemma s_bumpable : cnf_vars (bumpable M) (state_to_safety_translation s).
  Proof.
    eapply cnf_vars_impl; [|apply (e_s_vars _ _ _ He)]. intros v Hv. cbv beta in Hv.
    pose proof (proj1 Hf) as H1. unfold bumpable, M in *. lia.
  Qed.

  Lemma vars_pos_legal f : cnf_legal f -> cnf_vars (fun v => 1 <= v <= 2147483647) f.
  Proof.
    intros H d Hd l Hl. unfold cnf_legal in H. rewrite Forall_forall in H. specialize (H d Hd).
    red in H. rewrite Forall_forall in H. apply lit_legal_var. auto.
  Qed.

  Lemma vars_below m f : 0 < m -> api_cnf f -> cnf_vars (fun v => v < m) f -> cnf_max f < m.
  Proof.
    intros Hm Ha H. rewrite cnf_max_max_var by auto.
    apply N.le_lt_trans with (N.pred m); [|lia]. apply max_var_le. intros d l Hd Hl.
    specialize (H d Hd l Hl). cbv beta in H. lia.
  Qed.

  Lemma check_invariant_below m b T1 T2 T3 o1 o2 inv :
    solver_correct_below m T1 -> solver_correct_below m T2 -> solver_correct_below m T3 ->
    order_ok o1 -> order_ok o2 ->
    api_cnf inv -> cnf_legal inv -> M = 0 \/ cnf_vars (bumpable M) inv ->
    2 * M < m -> cnf_vars (fun v => v < m) inv -> cnf_vars (fun v => v + M < m) inv ->
    (check_invariant b T1 T2 T3 o1 o2 s inv = Ok tt <->
     inv_init inv /\ inv_step inv /\ inv_safe inv).
  Proof.
    intros HT1 HT2 HT3 Ho1 Ho2 Ha Hl Hv Hm Hm1 Hm2. unfold check_invariant.
    unfold get_initial_relation, get_state_to_safety_translation, get_transition_relation, get_unsafety_property.
    pose proof (e_s_api _ _ _ He) as As. pose proof (e_s_legal _ _ _ He) as Ls.
    pose proof (e_t_api _ _ _ He) as At. pose proof (e_t_legal _ _ _ He) as Lt.
    pose proof (init_api c flag s He) as Ai. pose proof (init_legal c flag s Hn He) as Li.
    pose proof (unsafe_api c flag s He) as Au. pose proof (unsafe_legal c flag s Hwf Hn He) as Lu.
    assert (Bs : cnf_max (state_to_safety_translation s) < m).
    { apply vars_below; auto; [lia|]. eapply cnf_vars_impl; [|apply (e_s_vars _ _ _ He)].
      intros v Hx. cbv beta in Hx. unfold M in *. lia. }
    assert (Bs1 : cnf_max (tagged_cnf M (state_to_safety_translation s)) < m).
    { apply vars_below; [lia|apply tagged_cnf_api; auto|]. apply tagged_cnf_vars.
      eapply cnf_vars_impl; [|apply (e_s_vars _ _ _ He)].
      intros v Hx. cbv beta in Hx. unfold M in *. lia. }
    assert (Bt : cnf_max (transition s) < m).
    { apply vars_below; auto; [lia|]. eapply cnf_vars_impl; [|apply (e_t_vars _ _ _ He)].
      intros v Hx. cbv beta in Hx. destruct Hx as [Hx|Hx]; [unfold M in *; lia|].
      apply latch_le_max in Hx. unfold M in *. lia. }
    assert (Bi : cnf_max (cube_to_cnf (initial_states s)) < m).
    { apply vars_below; [lia|apply api_cube_to_cnf|]. apply cube_to_cnf_vars.
      intros l Hx. pose proof (init_vars c flag s He l Hx) as Hy. apply latch_le_max in Hy. unfold M in *. lia. }
    assert (Bu : cnf_max (clause_to_cnf (unsafety_property s)) < m).
    { apply vars_below; [lia|auto with api|]. apply clause_to_cnf_vars.
      intros l Hx. pose proof (unsafe_vars c flag s Hwf Hn He l Hx) as Hy. cbv beta in Hy. unfold M in *. lia. }
    assert (Bv : cnf_max inv < m) by (apply vars_below; auto; lia).
    assert (Bv1 : cnf_max (tagged_cnf M inv) < m).
    { apply vars_below; [lia|apply tagged_cnf_api; auto|]. apply tagged_cnf_vars; auto. }
    destruct (does_a_imply_b_below m T1 o1
      (cnf_append (cube_to_cnf (initial_states s)) (state_to_safety_translation s)) inv HT1 Ho1)
      as (r1 & E1 & H1); auto using append_below with api.
    rewrite E1. cbn [bind].
    assert (M1 : max_literal_number s * 1 = M) by (rewrite (e_max _ _ _ He); unfold M; lia).
    rewrite add_tags_relation_ok; rewrite ?M1; auto;
      [|pose proof (proj1 Hf); unfold M; lia|right; apply s_bumpable].
    rewrite add_tags_relation_ok; rewrite ?M1; auto; [|pose proof (proj1 Hf); unfold M; lia].
    cbn [bind].
    destruct (does_a_imply_b_below m T2 o2 (cnf_append (cnf_append (cnf_append (transition s) inv)
        (state_to_safety_translation s)) (tagged_cnf M (state_to_safety_translation s)))
        (tagged_cnf M inv) HT2 Ho2) as (r2 & E2 & H2).
    { auto using tagged_cnf_api with api. }
    { apply cnf_legal_append; [auto with api|]. apply tagged_cnf_legal, s_bumpable. }
    { apply tagged_cnf_api; auto. }
    { destruct Hv as [Hv|Hv]; [rewrite Hv; exact Hl|apply tagged_cnf_legal; auto]. }
    { auto 8 using append_below, tagged_cnf_api with api. }
    { auto. }
    rewrite E2.
    destruct (is_a_and_b_satisfiable_below m T3 inv
       (cnf_append (clause_to_cnf (unsafety_property s)) (state_to_safety_translation s)) HT3)
      as (r3 & E3 & H3); auto using append_below with api.
    rewrite E3.
    assert (I1 : r1 = true <-> inv_init inv).
    { rewrite H1. unfold inv_init. split.
      - intros H a Hi Hs. apply H. apply cnf_append_true. split; auto. apply cube_to_cnf_true.
        apply (init_true c flag s He). auto.
      - intros H a Hx. apply cnf_append_true in Hx. destruct Hx as (Hx & Hs). apply H; auto.
        apply (init_true c flag s He). apply cube_to_cnf_true. auto. }
    assert (I2 : r2 = true <-> inv_step inv).
    { rewrite H2. unfold inv_step. split.
      - intros H a X1 X2 X3 X4. apply tagged_cnf_true. apply H.
        apply cnf_append_true. split; [|apply tagged_cnf_true; auto].
        apply cnf_append_true. split; auto. apply cnf_append_true. auto.
      - intros H a Hx. apply cnf_append_true in Hx. destruct Hx as (Hx & X4).
        apply cnf_append_true in Hx. destruct Hx as (Hx & X3).
        apply cnf_append_true in Hx. destruct Hx as (X1 & X2).
        apply tagged_cnf_true. apply tagged_cnf_true in X4. auto. }
    assert (I3 : r3 = false <-> inv_safe inv).
    { rewrite <- not_true_iff_false, H3. unfold inv_safe. split.
      - intros H a X1 X2 X3. apply H. exists a. split; auto. apply cnf_append_true. split; auto.
        apply clause_to_cnf_true. auto.
      - intros H (a & X1 & X2). apply cnf_append_true in X2. destruct X2 as (X2 & X3).
        apply (H a); auto. apply clause_to_cnf_true. auto. }
    rewrite <- I1, <- I2, <- I3.
    destruct r1, r2, r3; cbn [assert_ bind negb]; intuition congruence.
  Qed.

  Lemma check_invariant_iff b T1 T2 T3 o1 o2 inv :
    solver_correct T1 -> solver_correct T2 -> solver_correct T3 -> order_ok o1 -> order_ok o2 ->
    api_cnf inv -> cnf_legal inv -> M = 0 \/ cnf_vars (bumpable M) inv ->
    (check_invariant b T1 T2 T3 o1 o2 s inv = Ok tt <->
     inv_init inv /\ inv_step inv /\ inv_safe inv).
  Proof.
    intros HT1 HT2 HT3 Ho1 Ho2 Ha Hl Hv. pose proof (vars_pos_legal inv Hl) as Hp.
    apply (check_invariant_below 2147483648); auto using correct_below.
    - pose proof (proj1 Hf). unfold M. lia.
    - eapply cnf_vars_impl; [|exact Hp]. intros v Hx. cbv beta in Hx. lia.
    - destruct Hv as [HM|Hv].
      + eapply cnf_vars_impl; [|exact Hp]. intros v Hx. cbv beta in Hx. lia.
      + eapply cnf_vars_impl; [|exact Hv]. intros v Hx. unfold bumpable in Hx. lia.
  Qed.

  (** In a debug build a returning call did not wrap around. *)
  Lemma check_invariant_debug T1 T2 T3 o1 o2 inv : api_cnf inv ->
    check_invariant Debug T1 T2 T3 o1 o2 s inv = Ok tt -> M = 0 \/ cnf_vars (bumpable M) inv.
  Proof.
    intros Ha H. unfold check_invariant in H.
    apply bind_ok in H. destruct H as (r1 & _ & H).
    apply bind_ok in H. destruct H as ([] & _ & H).
    apply bind_ok in H. destruct H as (f1 & _ & H).
    apply bind_ok in H. destruct H as (f2 & E & H).
    apply add_tags_relation_debug in E; auto. destruct E as (E & _).
    replace (max_literal_number s * 1) with M in E; auto. rewrite (e_max _ _ _ He). unfold M. lia.
  Qed.

  Lemma no_variables_safe : M = 0 -> safe c flag.
  Proof.
    intros HM w _ t (l & Hl & _).
    pose proof (bad_range c flag Hwf) as R. rewrite Forall_forall in R. specialize (R l Hl). red in R.
    pose proof (proj2 Hf) as Hb. rewrite Forall_forall in Hb. specialize (Hb l Hl). unfold M in *. lia.
  Qed.

  Lemma inductive_runs inv : M <> 0 -> cnf_vars (fun v => 1 <= v) inv ->
    inv_init inv -> inv_step inv ->
    forall w, run c w -> forall t, cnf_true (unroll M (fun i => w (t + i)%nat)) inv.
  Proof.
    intros HM Hv Hi Hs w (Hw & H0 & Hstep).
    assert (Sx : forall t, cnf_true (unroll M (fun i => w (t + i)%nat)) (state_to_safety_translation s)).
    { intros t. apply unroll_ext; [apply (e_s_vars _ _ _ He)|].
      apply (safety_complete c flag s He). auto. }
    induction t as [|t IH].
    - apply Hi; auto. intros v nx r L.
      assert (E : unroll M (fun i => w (0 + i)%nat) v = w 0%nat v).
      { pose proof (unroll_at M (fun i => w (0 + i)%nat) 0 v) as E.
        replace (v + 0 * M) with v in E by lia. apply E.
        pose proof (latch_range _ _ _ _ L).
        assert (Lv : is_latch c v) by (exists nx, r; auto). apply latch_le_max in Lv. unfold M. lia. }
      rewrite E. apply (H0 _ _ _ L).
    - assert (E : forall f, cnf_vars (fun v => 1 <= v) f ->
        cnf_true (shift M (unroll M (fun i => w (t + i)%nat))) f <->
        cnf_true (unroll M (fun i => w (S t + i)%nat)) f).
      { intros f Hvf. rewrite (unroll_bump (fun i => w (t + i)%nat) f HM Hvf).
        apply (cnf_true_ext (fun _ => True)); [intros ? ? ? ?; exact I|].
        intros v _. unfold unroll. replace (t + S (N.to_nat ((v - 1) / M)))%nat
          with (S t + N.to_nat ((v - 1) / M))%nat by lia. reflexivity. }
      apply E; auto. apply Hs; auto.
      + apply unroll_trans; replace (t + 0)%nat with t by lia; auto.
        replace (t + 1)%nat with (S t) by lia. auto.
      + apply E; auto. eapply cnf_vars_impl; [|apply (e_s_vars _ _ _ He)]. intros v Hx. cbv beta in Hx. lia.
  Qed.

  Lemma inductive_safe_runs inv : cnf_vars (fun v => 1 <= v) inv ->
    inv_init inv -> inv_step inv -> inv_safe inv -> safe c flag.
  Proof.
    intros Hv Hi Hs Hb. destruct (N.eq_dec M 0) as [HM|HM]; [apply no_variables_safe; auto|].
    intros w Hr t Hbad. pose proof (inductive_runs inv HM Hv Hi Hs w Hr t) as Hinv.
    destruct Hr as (Hw & _ & _).
    apply (Hb _ Hinv).
    - apply unroll_ext; [apply (e_s_vars _ _ _ He)|]. apply (safety_complete c flag s He). auto.
    - apply (unsafe_true c flag s He). apply (is_bad_ext c flag s Hwf Hn He (w t)); auto.
      intros v Hx. pose proof (unroll_at M (fun i => w (t + i)%nat) 0 v Hx) as E.
      replace (v + 0 * M) with v in E by lia. rewrite E. simpl. rewrite Nat.add_0_r. reflexivity.
  Qed.

  Lemma latches_bumpable inv : cnf_vars (is_latch c) inv -> cnf_vars (bumpable M) inv.
  Proof.
    intros H. eapply cnf_vars_impl; [|exact H]. intros v Hv. pose proof (latch_le_max _ _ Hv).
    apply is_latch_iff in Hv. pose proof (proj1 Hf). unfold bumpable, M. lia.
  Qed.

  (** Inductive invariants over latches pass the three checks. *)
  Lemma inductive_passes inv : cnf_vars (is_latch c) inv -> inductive_safe c flag (fun w => cnf_true w inv) ->
    inv_init inv /\ inv_step inv /\ inv_safe inv.
  Proof.
    intros Hv (Hi & Hs & Hb).
    assert (E : forall a, cnf_true (ev c a) inv <-> cnf_true a inv).
    { intros a. apply (cnf_true_ext _ _ _ _ Hv). intros v Hx. apply ev_src. auto. }
    split; [|split].
    - intros a H0 _. apply E. apply Hi; [apply ev_wires_ok; auto|].
      intros v nx r L. rewrite ev_src; [apply (H0 _ _ _ L)|]. right. left. exists nx, r. auto.
    - intros a HT Hinv _ _. apply E. apply (Hs (ev c a)); try (apply ev_wires_ok; auto).
      + intros v nx r L. rewrite ev_src by (right; left; exists nx, r; auto).
        unfold shift. apply (trans_sound c flag s Hwf Hn He a HT v nx r L).
      + apply E; auto.
    - intros a Hinv HS Hu. apply (unsafe_bad c flag s Hwf Hn He a HS) in Hu.
      apply (Hb (ev c a)); auto. apply ev_wires_ok; auto. apply E; auto.
  Qed.
End Check.

Lemma check_invariant_sound m b c flag s T1 T2 T3 o1 o2 inv :
  system_of b c flag s -> numbering_fits c flag -> 2 * c_max c < m <= 2147483648 ->
  solver_correct_below m T1 -> solver_correct_below m T2 -> solver_correct_below m T3 ->
  order_ok o1 -> order_ok o2 ->
  api_cnf inv -> cnf_legal inv ->
  b = Debug /\ m = 2147483648 \/ cnf_vars (fun v => v + c_max c < m) inv ->
  check_invariant b T1 T2 T3 o1 o2 s inv = Ok tt ->
  safe c flag /\
  (cnf_vars (fun v => v <= c_max c) inv -> forall w, run c w -> forall t, cnf_true (w t) inv).
Proof.
  intros Hs Hf Hm0 H1 H2 H3 Ho1 Ho2 Ha Hl Hb E.
  destruct (system_encodes _ _ _ _ Hs (or_intror Hf)) as (Hwf & Hn & He).
  pose proof (vars_pos_legal inv Hl) as Hp.
  assert (Hv : c_max c = 0 \/ cnf_vars (bumpable (c_max c)) inv).
  { destruct Hb as [(-> & _)|Hb]; [eapply check_invariant_debug; eauto|].
    right. intros d Hd l Hx. specialize (Hb d Hd l Hx). specialize (Hp d Hd l Hx). cbv beta in *.
    unfold bumpable. lia. }
  assert (Hv2 : cnf_vars (fun v => v + c_max c < m) inv).
  { destruct Hb as [(_ & ->)|Hb]; auto. intros d Hd l Hx. specialize (Hp d Hd l Hx). cbv beta in Hp.
    destruct Hv as [HM|Hv]; [lia|]. specialize (Hv d Hd l Hx). unfold bumpable in Hv. lia. }
  assert (Hp1 : cnf_vars (fun v => 1 <= v) inv).
  { eapply cnf_vars_impl; [|exact Hp]. intros v Hx. cbv beta in Hx. lia. }
  apply (check_invariant_below c flag s Hwf Hf He m) in E; auto; try tauto.
  2:{ eapply cnf_vars_impl; [|exact Hv2]. intros v Hx. cbv beta in Hx. lia. }
  destruct E as (E1 & E2 & E3).
  split; [apply (inductive_safe_runs c flag s Hwf Hf He inv); auto|].
  intros Hm w Hr t. destruct (N.eq_dec (c_max c) 0) as [HM|HM].
  - (* no variables: no clause has a literal *)
    assert (Em : forall a a', cnf_true a inv -> cnf_true a' inv).
    { intros a a'. apply (cnf_true_ext (fun _ => False)); [|tauto].
      intros d Hd l Hx. specialize (Hm d Hd l Hx). specialize (Hp1 d Hd l Hx). cbv beta in *. lia. }
    apply (Em (w 0%nat)). apply E1; [apply Hr|]. apply (safety_complete c flag s He). apply Hr.
  - pose proof (inductive_runs c flag s Hwf He inv HM Hp1 E1 E2 w Hr t) as X.
    apply unroll_ext in X.
    + rewrite Nat.add_0_r in X. auto.
    + intros d Hd l Hx. specialize (Hm d Hd l Hx). specialize (Hp1 d Hd l Hx). cbv beta in *. lia.
Qed.

Lemma check_invariant_complete b b' c flag s T1 T2 T3 o1 o2 inv :
  system_of b c flag s -> numbering_fits c flag ->
  solver_correct_below 2147483647 T1 -> solver_correct_below 2147483647 T2 -> solver_correct_below 2147483647 T3 ->
  order_ok o1 -> order_ok o2 ->
  api_cnf inv -> cnf_vars (is_latch c) inv ->
  inductive_safe c flag (fun w => cnf_true w inv) ->
  check_invariant b' T1 T2 T3 o1 o2 s inv = Ok tt.
Proof.
  intros Hs Hf H1 H2 H3 Ho1 Ho2 Ha Hv Hi.
  destruct (system_encodes _ _ _ _ Hs (or_intror Hf)) as (Hwf & Hn & He).
  pose proof (latches_bumpable c flag Hf inv Hv) as Hb.
  apply (check_invariant_below c flag s Hwf Hf He 2147483647); auto.
  - apply cnf_vars_legal. eapply cnf_vars_impl; [|exact Hb]. unfold bumpable. intros v Hx. cbv beta in Hx. lia.
  - pose proof (proj1 Hf). lia.
  - eapply cnf_vars_impl; [|exact Hv]. intros v Hx. apply latch_le_max in Hx. pose proof (proj1 Hf). lia.
  - eapply cnf_vars_impl; [|exact Hv]. intros v Hx. apply latch_le_max in Hx. pose proof (proj1 Hf). lia.
  - apply (inductive_passes c flag s Hwf Hf He); auto.
Qed.

(* --------------------------------------------------------------- examples, witnesses *)

(** Encode the circuit as a file, read it, build the transition system. *)
Definition fsts_of (b : build) (c : circuit) (flag : bool) : res FSTS :=
  a <- from_vector_of_bytes (encode ex_style c) ;;
  from_aig b (fun l => l) a flag.

Lemma id_order {A} : @order_ok A (fun l => l).
Proof. intros l. apply Permutation_refl. Qed.

Lemma graph_of c a : circuit_wfb c = true -> file_fits c ->
  from_vector_of_bytes (encode ex_style c) = Ok a -> represents a c /\ circuit_wf c /\ circuit_fits c.
Proof.
  intros Hw Hf E. apply circuit_wfb_ok in Hw.
  destruct (parse_inverts_encode ex_style c [] None Hw Hf (Forall_nil _) I) as (a' & E' & Hr & _).
  cbn [symbol_text comment_text map concat app] in E'. rewrite app_nil_r in E'.
  rewrite E in E'. inv E'. split; auto. split; auto. apply PrintFacts.file_fits_circuit; auto.
Qed.

Lemma fsts_of_system b c flag s : circuit_wfb c = true -> file_fits c ->
  fsts_of b c flag = Ok s -> system_of b c flag s.
Proof.
  intros Hw Hf E. unfold fsts_of in E. apply bind_ok in E. destruct E as (a & E1 & E2).
  destruct (graph_of c a Hw Hf E1) as (Hr & Hwf & Hc).
  exists (fun l => l), a. repeat (split; auto using id_order).
Qed.

Definition no_constants (c : circuit) (flag : bool) : bool :=
  (2 * c_max c <=? 2147483647) && forallb (fun l => negb (l / 2 =? 0)) (bad_literals c flag).

Lemma no_constants_ok c flag : no_constants c flag = true -> numbering_fits c flag.
Proof.
  unfold no_constants. rewrite andb_true_iff, forallb_forall. intros (H1 & H2). split; [lia|].
  apply Forall_forall. intros l Hl. specialize (H2 l Hl). unfold lit_var. lia.
Qed.

(** A two-stage shift register with an unused uninitialised latch; bad when both stages are
    set (reachable after two steps). *)
Definition shift_circuit : circuit := mkCircuit 1 [(2, 0); (4, 0); (8, 8)] [] [10] [] [(6, 4)].

(** Two latches that always differ; bad when both are set. *)
Definition differ_circuit : circuit := mkCircuit 1 [(2, 0); (3, 1)] [] [8] [] [(6, 4)].

(** The bad literal is the constant true. *)
Definition constant_circuit : circuit := mkCircuit 0 [] [] [1] [] [].

(** The bad literal is an uninitialised latch that keeps its value. *)
Definition latch_bad_circuit : circuit := mkCircuit 0 [(2, 2)] [] [2] [] [].

Lemma shift_system b : exists s, fsts_of b shift_circuit false = Ok s /\
  system_of b shift_circuit false s /\ numbering_fits shift_circuit false.
Proof.
  destruct (fsts_of b shift_circuit false) as [s| |] eqn:E; [|destruct b; vm_compute in E; discriminate..].
  exists s. split; auto. split.
  - apply fsts_of_system; auto; vm_compute; repeat split.
  - apply no_constants_ok. vm_compute. reflexivity.
Qed.

Lemma differ_system b : exists s, fsts_of b differ_circuit false = Ok s /\
  system_of b differ_circuit false s /\ numbering_fits differ_circuit false.
Proof.
  destruct (fsts_of b differ_circuit false) as [s| |] eqn:E; [|destruct b; vm_compute in E; discriminate..].
  exists s. split; auto. split.
  - apply fsts_of_system; auto; vm_compute; repeat split.
  - apply no_constants_ok. vm_compute. reflexivity.
Qed.

Lemma from_aig_not_total :
  exists c a, represents a c /\ circuit_wf c /\ circuit_fits c /\ c_constraints c = [] /\
    c_max c < 2147483647 /\
    from_aig Debug (fun l => l) a false = Panic /\
    exists s, from_aig Release (fun l => l) a false = Ok s /\
      exists l, In l (clause_lits (get_unsafety_property s)) /\ get_number l = 0.
Proof.
  exists constant_circuit.
  destruct (from_vector_of_bytes (encode ex_style constant_circuit)) as [a| |] eqn:E;
    [|vm_compute in E; discriminate..].
  destruct (graph_of constant_circuit a) as (Hr & Hwf & Hf); auto; [vm_compute; repeat split|].
  exists a. split; auto. split; auto. split; auto. split; auto. split; [reflexivity|].
  clear Hr Hwf Hf. vm_compute in E. injection E as <-. split; [vm_compute; reflexivity|].
  eexists. split; [vm_compute; reflexivity|]. exists 1. split; [left; reflexivity|reflexivity].
Qed.

(** 2^30 inputs and one latch, number M = 2^30 + 1, whose next state is the first input.  The
    number 2 M of its next-state variable needs 32 bits; the literal is truncated to that of input 2. *)
Definition wide_circuit : circuit := mkCircuit 1073741824 [(2, 0)] [] [2147483650] [] [].

Lemma release_misnumbers :
  exists c a, represents a c /\ circuit_wf c /\ circuit_fits c /\ c_constraints c = [] /\
    c_max c < 2147483647 /\ Forall (fun l => lit_var l <> 0) (bad_literals c false) /\
    (forall s, from_aig Debug (fun l => l) a false <> Ok s) /\
    exists s, from_aig Release (fun l => l) a false = Ok s /\
      exists w w', wires_ok c w /\ step_values c w w' /\
        forall x, (forall v, 1 <= v <= c_max c -> x v = w v) -> ~ cnf_true x (get_transition_relation s).
Proof.
  exists wide_circuit.
  assert (Hwf : circuit_wf wide_circuit) by (apply circuit_wfb_ok; vm_compute; reflexivity).
  assert (Hff : file_fits wide_circuit) by (vm_compute; repeat split).
  destruct (parse_inverts_encode ex_style wide_circuit [] None Hwf Hff (Forall_nil _) I) as (a & _ & Hr & _).
  pose proof (PrintFacts.file_fits_circuit _ Hff) as Hf.
  assert (Hm : c_max wide_circuit < 2147483647) by (vm_compute; reflexivity).
  assert (Ho : order_ok (fun l : list (N * N * N) => l)) by (intros l; apply Permutation_refl).
  assert (HL : latch wide_circuit 1073741825 2 0) by (exists 0%nat; split; reflexivity).
  exists a. split; auto. split; auto. split; auto. split; [reflexivity|]. split; auto. split.
  { constructor; [discriminate|constructor]. }
  split.
  { intros s E. destruct (proj1 (from_aig_debug_exact _ a wide_circuit false Hr Hwf Hf Ho)) as (_ & _ & H & _); [eauto|].
    specialize (H 1073741825 (ex_intro _ 2 (ex_intro _ 0 HL))). vm_compute in H. congruence. }
  destruct (proj2 (from_aig_release_exact _ a wide_circuit false Hr Hwf Hf Ho) (conj eq_refl Hm)) as (s & E).
  exists s. split; auto.
  assert (T : exists f, get_transition_relation s = cnf_append (adds cnf_new [[5; 2]; [4; 3]]) f).
  { unfold from_aig in E.
    assert (Emax : get_highest_variable_number a = c_max wide_circuit)
      by (unfold represents in Hr; unfold get_highest_variable_number; tauto).
    rewrite Emax in E.
    apply bind_ok in E. destruct E as (? & E1 & E).
    apply bind_ok in E. destruct E as (? & E2 & E).
    apply bind_ok in E. destruct E as (m & E3 & E).
    unfold u32_of_usize in E3. apply bind_ok in E3. destruct E3 as (? & _ & E3). injection E3 as <-.
    rewrite (input_numbers_ok Release a wide_circuit) in E by auto. cbn [bind] in E.
    apply bind_ok in E. destruct E as (init & E4 & E).
    apply bind_ok in E. destruct E as (f & E5 & E).
    apply bind_ok in E. destruct E as (saf & E6 & E).
    apply bind_ok in E. destruct E as (uns & E7 & E). injection E as <-. cbn [get_transition_relation transition].
    unfold create_transition_cnf in E5. rewrite (get_latch_information_ok a wide_circuit) in E5 by auto.
    cbn [bind] in E5.
    replace (foldM (transition_step Release (c_max wide_circuit)) (latch_infos wide_circuit) (cnf_new, []))
      with (Ok (adds cnf_new [[5; 2]; [4; 3]], [2])) in E5 by (vm_compute; reflexivity).
    cbn [bind] in E5. apply bind_ok in E5. destruct E5 as (f2 & _ & E5). injection E5 as <-.
    exists f2. reflexivity. }
  destruct T as (f & ->).
  exists (fun v => v =? 1), (fun v => v =? 1073741825). split; [|split].
  - split; [reflexivity|]. intros v r0 r1 (j & Hj & _). destruct j; discriminate.
  - intros v nx r (j & Hj & ->). destruct j as [|j]; [injection Hj as <- <-; reflexivity|destruct j; discriminate].
  - intros x Hx H. apply cnf_append_true in H. destruct H as (H & _). apply adds_true in H. destruct H as (_ & H).
    apply lss_true_cons in H. destruct H as (_ & H). apply lss_true_cons in H. destruct H as (H & _).
    apply two_true in H. rewrite !lit_true_value in H. unfold lit_value in H.
    change (lit_var 4) with 2 in H. change (lit_var 3) with 1 in H.
    change (lit_neg 4) with false in H. change (lit_neg 3) with true in H.
    rewrite (Hx 2), (Hx 1) in H by (change (c_max wide_circuit) with 1073741825; lia).
    cbn in H. destruct H; discriminate.
Qed.

Lemma safety_cone_fails :
  exists c s q w w', system_of Debug c false s /\ numbering_fits c false /\
    wires_ok c w /\ wires_ok c w' /\ state_cube c w q /\
    cube_true w' (intersect_cube_with_cone_of_safety s q) /\ same_inputs c w w' /\
    is_bad c false w /\ ~ is_bad c false w'.
Proof.
  exists latch_bad_circuit.
  destruct (fsts_of Debug latch_bad_circuit false) as [s| |] eqn:E; [|vm_compute in E; discriminate..].
  exists s, (cube_new [2]), (fun v => v =? 1), (fun _ => false).
  split; [apply fsts_of_system; auto; vm_compute; repeat split|].
  split; [apply no_constants_ok; vm_compute; reflexivity|].
  assert (G : forall v r0 r1, ~ gate latch_bad_circuit v r0 r1).
  { intros v r0 r1 (j & Hj & _). destruct j; discriminate. }
  split; [split; [reflexivity|]; intros v r0 r1 X; elim (G _ _ _ X)|].
  split; [split; [reflexivity|]; intros v r0 r1 X; elim (G _ _ _ X)|].
  split. { split; [|split].
    - repeat constructor; simpl; tauto.
    - intros v. rewrite is_latch_iff. change (In v [1] <-> 0 < v <= 0 + 1).
      simpl. lia.
    - intros l [<-|[]]. reflexivity. }
  split. { vm_compute in E. injection E as <-. intros l Hl. vm_compute in Hl. destruct Hl. }
  split. { intros v Hv. unfold is_input in Hv. cbn in Hv. lia. }
  split; [exists 2; split; [left; reflexivity|reflexivity]|].
  intros (l & [<-|[]] & H). discriminate H.
Qed.

Lemma differ_inductive :
  api_cnf (run_history (H_add H_new [5; 7])) /\
  cnf_vars (is_latch differ_circuit) (run_history (H_add H_new [5; 7])) /\
  inductive_safe differ_circuit false (fun w => cnf_true w (run_history (H_add H_new [5; 7]))).
Proof.
  assert (L2 : latch differ_circuit 2 2 0) by (exists 0%nat; split; reflexivity).
  assert (L3 : latch differ_circuit 3 3 1) by (exists 1%nat; split; reflexivity).
  assert (T : forall w, w 2 = false \/ w 3 = false -> cnf_true w (run_history (H_add H_new [5; 7]))).
  { intros w H d [<-|[]]. destruct H as [H|H]; [exists 5|exists 7]; (split; [simpl; auto|]);
      [change (xorb (w 2) true = true)|change (xorb (w 3) true = true)]; rewrite H; reflexivity. }
  split; [eexists; reflexivity|]. split; [|split; [|split]].
  - intros d [<-|[]] l [<-|[<-|[]]]; eexists; eexists; [exact L2|exact L3].
  - intros w _ H. apply T. left. apply (H _ _ _ L2). reflexivity.
  - intros w w' _ _ H _. apply T. rewrite (H _ _ _ L2), (H _ _ _ L3).
    change (xorb (w 1) false = false \/ xorb (w 1) true = false). destruct (w 1); auto.
  - intros w (_ & G) H (l & [<-|[]] & Hb).
    assert (G4 : gate differ_circuit 4 6 4) by (exists 0%nat; split; reflexivity).
    assert (E : w 4 = true). { change (xorb (w 4) false = true) in Hb. destruct (w 4); auto. }
    rewrite (G _ _ _ G4) in E. change (xorb (w 3) false && xorb (w 2) false = true) in E.
    destruct (H (mkClause [5; 7]) (or_introl eq_refl)) as (x & [<-|[<-|[]]] & Hx);
      [change (xorb (w 2) true = true) in Hx|change (xorb (w 3) true = true) in Hx];
      destruct (w 2), (w 3); simpl in *; congruence.
Qed.
