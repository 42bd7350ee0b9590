(** How many predecessors PDR asks for before it reports a counterexample. *)
From Coq Require Import Permutation.
From Verif Require Import Base Formulas FormulaLogic Aig Fsts Solvers Ic3 Pdr Spec SpecAig SpecFsts SpecAlg Tac Plain
  FormulasFacts LogicFacts AigFacts SimFacts AigThms FstsFacts FstsSem TagFacts FstsThms BmcThms ConeThms StateFacts
  Ic3Core QueryFacts Ic3Thms PdrCore PdrQuery PdrSteps PdrThms CallBound.
Open Scope nat_scope.

Ltac step_ok :=
  cbv zeta;
  match goal with
  | |- context [bind ?m _] => destruct m as [?| |] eqn:?; cbn [bind]; try discriminate
  | |- context [let '(_, _) := ?p in _] => destruct p as (? & ?)
  | |- context [if ?q then _ else _] => destruct q
  | |- context [match ?r with UnSat => _ | Sat _ => _ end] => destruct r
  end.

Section Counts.
Variables (b : build) (R : Random) (SS : StatefulSolver) (s : FSTS).
Notation St := (PdrState SS).

Definition ext (st : St) : nat := calls_extract_model (pdr_stats st).

Definition is_ext (p : SolveRelativeParam) : nat := match p with ExtractModel => 1 | _ => 0 end.

Lemma is_blocked_ext t st r st' : is_blocked SS t st = Ok (r, st') -> ext st' = ext st.
Proof.
  unfold is_blocked, z_is_blocked. destruct (t_frame t); try discriminate. repeat step_ok.
  all: intros X; try discriminate; injection X as _ <-; unfold ext; cbn [pdr_stats counted with_notp with_ri with_rit with_cut_pred with_cut_bad]; destruct (pdr_stats st); reflexivity.
Qed.

Lemma relative_ext t p st r st' : z_solve_relative b SS s t p st = Ok (r, st') -> ext st' = is_ext p + ext st.
Proof.
  unfold z_solve_relative. destruct (t_frame t); try discriminate. destruct p; repeat step_ok.
  all: intros X; try discriminate; injection X as _ <-; unfold ext; cbn [pdr_stats counted with_notp with_ri with_rit with_cut_pred with_cut_bad]; destruct (pdr_stats st); reflexivity.
Qed.

Lemma fold_same {A} (f : St -> A -> res St) : (forall st a st', f st a = Ok st' -> ext st' = ext st) ->
  forall l st st', foldM f l st = Ok st' -> ext st' = ext st.
Proof.
  intros H. induction l as [|a l IH]; intros st st'; cbn [foldM].
  - intros X. injection X as <-. reflexivity.
  - destruct (f st a) as [x| |] eqn:E; cbn [bind]; try discriminate. intros X. rewrite (IH _ _ X). apply (H _ _ _ E).
Qed.

Lemma add_to_solvers_ext f st i st' : add_to_solvers SS f st i = Ok st' -> ext st' = ext st.
Proof. unfold add_to_solvers. repeat step_ok. intros X. injection X as <-. reflexivity. Qed.

Lemma block_in_ext t st st' : z_block_cube_in_solver b SS t st = Ok st' -> ext st' = ext st.
Proof.
  unfold z_block_cube_in_solver. step_ok. destruct (t_frame t); try discriminate.
  - apply fold_same. intros. eapply add_to_solvers_ext; eauto.
  - step_ok. apply fold_same. intros. eapply add_to_solvers_ext; eauto.
Qed.

Lemma add_blocked_ext t st st' : add_blocked_cube b SS t st = Ok st' -> ext st' = ext st.
Proof.
  unfold add_blocked_cube. destruct (t_frame t); try discriminate. do 3 step_ok. intros X.
  apply block_in_ext in X. exact X.
Qed.

Lemma generalize_loop_ext : forall fuel fr l j st r st', pdr_generalize_loop b SS s fuel fr l j st = Ok (r, st') -> ext st' = ext st.
Proof.
  induction fuel as [|fuel IH]; intros fr l j st r st'; cbn [pdr_generalize_loop]; destruct (j <? length l); try discriminate;
    try (intros X; injection X as _ <-; reflexivity).
  destruct (swap_remove l j) as [(x & y)| |]; cbn [bind]; try discriminate.
  assert (H : forall dr st1, (if is_cube_initial s (t_cube (mkTCube (cube_new y) fr)) then Ok (false, st)
      else '(check, st0) <- z_solve_relative b SS s (mkTCube (cube_new y) fr) DoNotExtractModel st;;
           Ok (is_solve_relative_un_sat check, st0)) = Ok (dr, st1) -> ext st1 = ext st).
  { intros dr st1. destruct (is_cube_initial _ _); [intros X; injection X as _ <-; reflexivity|].
    destruct (z_solve_relative _ _ _ _ _ _) as [(ch & st0)| |] eqn:E; cbn [bind]; try discriminate.
    intros X. injection X as _ <-. apply relative_ext in E. exact E. }
  cbv zeta. match goal with |- context [bind ?m _] => destruct m as [(dr & st1)| |] eqn:E1; cbn [bind]; try discriminate end.
  clear E1. specialize (H _ _ eq_refl). rename H into E1. destruct dr.
  - intros X. apply IH in X. congruence.
  - step_ok. intros X. apply IH in X. congruence.
Qed.

Lemma generalize_ext t st r st' : pdr_generalize b R SS s t st = Ok (r, st') -> ext st' = ext st.
Proof.
  unfold pdr_generalize. cbv zeta.
  match goal with |- context [bind ?m _] => destruct m as [(l & st1)| |] eqn:E1; cbn [bind]; try discriminate end.
  intros X. injection X as _ <-. apply generalize_loop_ext in E1. exact E1.
Qed.

Lemma push_forward_ext bound : forall fuel z n st r st', push_forward b SS s fuel bound z n st = Ok (r, st') -> ext st' = ext st.
Proof.
  induction fuel as [|fuel IH]; intros z n st r st'; cbn [push_forward]; destruct (n <? bound); try discriminate;
    try (intros X; injection X as _ <-; reflexivity).
  destruct (tcube_next z); cbn [bind]; try discriminate.
  destruct (z_solve_relative _ _ _ _ _ _) as [(t & st0)| |] eqn:E; cbn [bind]; try discriminate. apply relative_ext in E.
  destruct (is_solve_relative_un_sat t).
  - destruct (t_frame t); try discriminate. intros X. apply IH in X. rewrite X. exact E.
  - intros X. injection X as _ <-. exact E.
Qed.

End Counts.

Section Bound.
Variables (c : circuit) (flag : bool) (s : FSTS) (b : build).
Hypothesis Hsys : system_of b c flag s.
Hypothesis Hf : numbering_fits c flag.
Hypothesis Hwf : circuit_wf c.
Hypothesis Hn : numbered c flag.
Hypothesis He : encodes c flag s.
Variable SS : StatefulSolver.
Hypothesis HS : stateful_correct SS.
Variable R : Random.
Hypothesis HR : random_ok R.
Hypothesis Hl : bad_latches_read c flag.
Notation St := (PdrState SS).
Notation J := (b = Debug \/ bad_latches_read c flag).
Notation pinv := (pinv c flag J s SS).
Notation ext := (ext SS).
Notation near := (near c flag).
Notation bad_before := (bad_before c flag).

(** An obligation whose states all reach a bad clock in at most [e] steps. *)
Definition near_entry (D : nat) (f : list (list Cube)) (e : nat) (x : TCube * nat) : Prop :=
  entry_ok c flag D f x /\ forall w, cube_true w (t_cube (fst x)) -> near e w.

Lemma near_entry_le D f f' e e' x : stronger f f' -> e <= e' -> near_entry D f e x -> near_entry D f' e' x.
Proof.
  intros H1 H2 (H3 & H4). split; [eapply entry_stronger; eauto|]. intros w Hw. eapply near_le; eauto.
Qed.

Lemma near_push D f e q x n : Forall (near_entry D f e) q -> near_entry D f e (mkTCube x (FOk n), n) ->
  Forall (near_entry D f e) (queue_push tcube_eqb q (mkTCube x (FOk n)) n).
Proof.
  intros Hq Hx. apply Forall_forall. intros y Hy. rewrite Forall_forall in Hq.
  assert (Hq' : Forall (entry_ok c flag D f) q) by (apply Forall_forall; intros z Hz; apply (Hq z Hz)).
  destruct (proj1 (proj1 (push_same c flag D f q x n Hq' y)) Hy) as [H| ->]; auto.
Qed.

Lemma stronger_refl f : stronger f f.
Proof. intros i w H. exact H. Qed.

Lemma rec_block_loop_calls D : forall fuel q st, pinv D st -> Forall (near_entry D (pdr_f st) (ext st)) q ->
  forall r st', rec_block_loop b R SS s fuel q st = Ok (r, st') ->
  r = false -> bad_before (S (ext st')).
Proof.
  induction fuel as [|fuel IH]; intros q st Hp Hq r st'.
  { cbn [rec_block_loop]. destruct q; [|discriminate]. intros X. injection X as <- _. discriminate. }
  cbn [rec_block_loop]. destruct q as [|e0 q0] eqn:Eq; [intros X; injection X as <- _; discriminate|].
  rewrite <- Eq in *. assert (Hne : q <> []) by (rewrite Eq; discriminate). clear Eq e0 q0.
  destruct (queue_pop_spec (R (pdr_draws st)) q (fun B l => HR (pdr_draws st) B l) Hne) as (e & rest & Epop & Hperm & _).
  rewrite Epop. cbn [unwrap bind].
  set (st0 := with_draws SS st (S (pdr_draws st))).
  assert (Hp0 : pinv D st0) by (apply pinv_draws; auto).
  assert (Hin : forall y, y = e \/ In y rest -> In y q).
  { intros y Hy. apply (Permutation_in _ (Permutation_sym Hperm)). destruct Hy as [->|Hy]; [left|right]; auto. }
  rewrite Forall_forall in Hq.
  assert (Hr : Forall (near_entry D (pdr_f st) (ext st)) rest) by (apply Forall_forall; intros y Hy; apply Hq, Hin; auto).
  destruct (Hq e (Hin e (or_introl eq_refl))) as ((x & n & -> & HnD & Hlike & Hcons & Hleads & Hinit & Hprev) & Hnear).
  cbn [fst t_cube] in Hnear. cbn [t_frame].
  destruct n as [|m].
  { intros X _. injection X as _ <-. destruct (Hinit eq_refl) as (w & W1 & W2).
    apply (near_run c flag Hwf (ext st) w W1). auto. }
  set (n := S m) in *. assert (Hn1 : 1 <= n <= D) by (unfold n in *; lia). clearbody n. clear m.
  destruct (is_blocked_ok c flag J s He SS HS D st0 x n Hp0 Hn1) as ((bl & st1) & Eb & Hp1 & Ef1 & _).
  pose proof (is_blocked_ext SS _ _ _ _ Eb) as C1.
  rewrite Eb. cbn [bind fst snd] in *. change (pdr_f st0) with (pdr_f st) in *. change (ext st0) with (ext st) in *.
  destruct bl.
  { intros X. apply (IH rest st1 Hp1); auto. rewrite Ef1, C1. exact Hr. }
  assert (Hnotinit : forall w, initial_values c w -> ~ cube_true w x).
  { intros w W T. apply (Hprev Hl (proj1 Hn1) w); auto. apply (rk_init c flag J D _ _ w (or_intror Hl) (v_frames _ _ _ _ _ _ _ Hp)); auto. }
  destruct (debug_assert b _); cbn [bind]; try discriminate.
  destruct (solve_relative_ok c flag J s b Hsys Hf Hwf Hn He SS HS D st1 x n ExtractModel Hp1 Hlike Hn1)
    as ((t & st2) & Et & Hp2 & Ef2 & _ & Hcase). cbn [fst snd] in *.
  pose proof (relative_ext b SS s _ _ _ _ _ Et) as C2. cbn [is_ext] in C2.
  rewrite Et. cbn [bind]. rewrite Ef1 in *.
  destruct Hcase as [(-> & Hind)|(Hnull & w & w' & Hst & Hw & _ & Hw' & Hpred)].
  - cbn [is_solve_relative_un_sat t_frame frame_eqb negb].
    destruct (generalize_ok c flag J s b Hsys Hf Hwf Hn He SS HS R HR D st2 x n Hp2 Hlike Hcons Hn1)
      as ((t3 & st3) & E3 & Hp3 & Ef3 & z & Ez & Hzlike & Hzx & Hzind).
    { rewrite Ef2. split.
      - intros _. exact Hnotinit.
      - intros u u' Hu Hk Hx. apply (Hind u u' Hu Hk). auto. }
    pose proof (generalize_ext b R SS s _ _ _ _ E3) as C3.
    cbn [fst snd] in *. subst t3. rewrite E3. cbn [bind t_frame].
    rewrite (pdr_depth_ok c flag J s SS D) by auto. cbn [bind]. unfold nat_sub at 1.
    replace (1 <=? D) with true by (symmetry; apply Nat.leb_le; lia). cbn [bind].
    rewrite <- Ef3 in Hzind.
    destruct (push_forward_ok c flag J s b Hsys Hf Hwf Hn He SS HS D z Hzlike D n st3 Hp3 Hn1 ltac:(lia) Hzind)
      as ((t4 & st4) & E4 & Hp4 & Ef4 & k & Ek & Hk & Hkind).
    pose proof (push_forward_ext b SS s _ _ _ _ _ _ _ E4) as C4.
    cbn [fst snd] in *. subst t4. rewrite E4. cbn [bind]. rewrite <- Ef4 in Hkind.
    destruct (add_blocked_ok c flag J s b Hsys Hf SS HS D st4 z k Hp4 Hzlike ltac:(lia) Hkind)
      as (st5 & E5 & Hp5 & Ha & _).
    pose proof (add_blocked_ext b SS _ _ _ E5) as C5.
    rewrite E5. cbn [bind].
    rewrite Ef4, Ef3, Ef2 in Ha.
    assert (H0 : nth 0 (pdr_f st) [] = []) by (apply (nth_empty c flag J D); auto; apply (v_frames _ _ _ _ _ _ _ Hp)).
    assert (Hrf : forall i u, rf (pdr_f st5) i u <-> rf (pdr_f st) i u /\ (i <= k -> ~ cube_true u z)).
    { intros i u. apply added_rf; auto. }
    assert (Hstr : stronger (pdr_f st) (pdr_f st5)) by (intros i u Hu; apply Hrf in Hu; apply Hu).
    assert (Hle : ext st <= ext st5) by lia.
    assert (Hr5 : Forall (near_entry D (pdr_f st5) (ext st5)) rest).
    { rewrite Forall_forall in *. intros y Hy. eapply near_entry_le; [exact Hstr|exact Hle|auto]. }
    destruct (Nat.ltb_spec n D) as [HlD|HlD].
    + unfold tcube_next. cbn [t_frame t_cube bind]. replace (n + 1) with (S n) by lia.
      intros X Y. apply (IH _ st5 Hp5) in X; auto. apply near_push; auto. split.
      * exists x, (S n). split; auto. split; [lia|]. split; auto. split; auto. split; auto. split; [lia|].
        intros _ _ u (Hu & _) T. replace (S n - 1) with n in Hu by lia. apply Hrf in Hu. apply (proj2 Hu); [lia|]. apply Hzx, T.
      * cbn [fst t_cube]. intros u Hu. eapply near_le; [exact Hle|auto].
    + intros X Y. apply (IH _ st5 Hp5) in X; auto.
  - specialize (Hpred eq_refl). destruct Hpred as (Hzlike & Hwz & Hz).
    rewrite unsat_frame, Hnull. cbn [frame_eqb negb]. set (z := t_cube t) in *.
    assert (Hle : ext st <= ext st2) by lia.
    intros X Y. apply (IH _ st2 Hp2) in X; auto. rewrite Ef2. apply near_push; [apply near_push|].
    + rewrite Forall_forall in *. intros y Hy. eapply near_entry_le; [apply stronger_refl|exact Hle|auto].
    + split.
      * exists z, (n - 1). split; auto. split; [lia|]. split; auto. split; [exists w; auto|]. split; [|split].
        -- intros _ w2 Hw2. destruct (Hz w2 Hw2) as (w3 & S3 & T3). apply (leads_same c flag w3 w2 S3).
           eapply leads_step; [apply T3|apply T3|]. auto.
        -- intros E. exists w. split; auto. apply Hw. auto.
        -- intros _ Hn2 w2 Hw2 T2. destruct (Hz w2 T2) as (w3 & S3 & T3).
           apply (Hprev Hl (proj1 Hn1) w'); auto. apply rk_rf; [lia|].
           replace (n - 1) with (S (n - 1 - 1)) by lia.
           apply (rf_step c flag J D _ (n - 1 - 1) w3 w' (v_frames _ _ _ _ _ _ _ Hp)); auto.
           apply (rk_same c flag J D _ _ w2 w3 (v_frames _ _ _ _ _ _ _ Hp)); auto. apply same_latches_sym; auto.
      * cbn [fst t_cube]. intros w2 Hw2. destruct (Hz w2 Hw2) as (w3 & S3 & T3). apply (near_same c flag _ w3 w2 S3).
        replace (ext st2) with (S (ext st)) by lia. apply (near_step c flag _ w3 w' T3). auto.
    + eapply near_entry_le; [apply stronger_refl|exact Hle|]. apply Hq, Hin. auto.
Qed.

Lemma pdr_loop_calls inner : forall outer D st, pinv D st -> D <= states c + 1 ->
  forall d st', pdr_loop b R SS s inner outer st = Ok (ProofCTX d, st') -> bad_before (S (ext st')).
Proof.
  induction outer as [|outer IH]; intros D st Hp HD d st'; [discriminate|]. cbn [pdr_loop].
  pose proof (get_bad_ok c flag J s b Hsys Hwf Hn He SS HS D st Hp) as HG.
  destruct (z_get_bad_cube b SS s st) as [(o & st1)| |] eqn:E1; cbn [bind]; try discriminate.
  cbn [post fst snd] in HG. destruct HG as (Hp1 & Ef1 & Ho).
  destruct o as [z|].
  - destruct Ho as (Hz & Hwit & Hbad). rewrite (pdr_depth_ok c flag J s SS D) by auto. cbn [bind].
    rewrite <- Ef1 in *.
    pose proof (rec_block_cube_ok c flag s b Hsys Hf Hwf Hn He SS HS R HR D inner z st1 Hp1 Hz Hwit Hbad) as HB.
    destruct (rec_block_cube b R SS s inner (mkTCube z (FOk D)) st1) as [(bl & st2)| |] eqn:E2; cbn [bind]; try discriminate.
    cbn [post fst snd] in HB. destruct HB as (Hp2 & _ & _). destruct bl; [apply (IH D); auto|].
    destruct (pdr_depth SS st2); cbn [bind]; try discriminate. destruct (depth_of_frame _); cbn [bind]; try discriminate.
    intros X. injection X as _ <-. unfold rec_block_cube in E2. cbn [t_frame] in E2.
    eapply (rec_block_loop_calls D inner _ st1 Hp1); [|exact E2|reflexivity].
    unfold queue_push. cbn [existsb app]. constructor; [|constructor].
    pose proof (v_frames _ _ _ _ _ _ _ Hp1) as Hfi. destruct Hwit as (w & Hw & Tw). split.
    + exists z, D. split; auto. split; auto. split; auto. split; [exists w; auto|]. split; [|split].
      * intros _ u Hu. apply bad_leads. auto.
      * intros E0. subst D. exists w. split; auto. apply Hw. reflexivity.
      * intros _ HD1 u Hu Tu. destruct (Hbad Hl u Tu) as (u' & U1 & U2 & U3).
        apply (f_safe _ _ _ _ _ Hfi (D - 1) u' ltac:(lia) U1); auto.
        apply (rk_same c flag J D _ _ u u' Hfi); auto. apply same_latches_sym; auto.
    + cbn [fst t_cube]. intros u Hu. apply (near_le c flag 0); [lia|]. apply near_bad. auto.
  - rewrite <- Ef1 in Ho.
    destruct (new_frame_ok c flag J s b Hsys Hwf Hn He SS HS D st1 Hp1 Ho) as (st2 & E2 & Hp2 & _ & _).
    rewrite E2. cbn [bind].
    unfold propagate_blocked_cubes. rewrite (pdr_depth_ok c flag J s SS (S D)) by auto. cbn [bind].
    replace (S D - 1) with D by lia.
    destruct (propagate_frames_ok c flag J s b Hsys Hf Hwf Hn He SS HS (S D) D 1 st2 Hp2) as ((o & st3) & E3 & Hp3 & _ & Hres); [lia|lia|intros j Hj; lia|].
    rewrite E3. cbn [bind fst snd] in *. destruct o as [k|].
    + destruct (get_r_i SS s st3 k); cbn [bind]; discriminate.
    + assert (Hsz : S D <= S (size c (pdr_f st3) (S D))).
      { apply (grows_size c flag J (S D)); auto; [apply (v_frames _ _ _ _ _ _ _ Hp3)|lia]. }
      assert (Hle : size c (pdr_f st3) (S D) <= states c) by apply size_le.
      apply (IH (S D)); auto. lia.
Qed.

End Bound.

Lemma pdr_calls b c flag s R SS fuel d n : system_of b c flag s -> numbering_fits c flag ->
  random_ok R -> stateful_correct SS -> bad_latches_read c flag ->
  pdr_run b R SS fuel s = Ok (ProofCTX d, n) ->
  exists w t, run c w /\ is_bad c flag (w t) /\ t <= calls_extract_model n.
Proof.
  intros Hs Hf HR HS Hl. destruct (system_encodes _ _ _ _ Hs (or_intror Hf)) as (Hwf & Hn & He).
  unfold pdr_run, pdr_prove. cbn [pdr_new pdr_f app].
  destruct (first_frame_ok c flag (b = Debug \/ bad_latches_read c flag) s b Hs Hwf Hn He SS HS) as (st & E & Hp & Ef).
  match goal with |- context [new_frame b SS s ?x] => change (new_frame b SS s x) with (new_frame b SS s (with_f SS (pdr_new SS) [[]])) end.
  rewrite E. cbn [bind].
  destruct (pdr_loop b R SS s fuel fuel st) as [(r & st')| |] eqn:E2; cbn [bind]; try discriminate.
  intros X. injection X as -> <-.
  destruct (pdr_loop_calls c flag s b Hs Hf Hwf Hn He SS HS R HR Hl fuel fuel 0 st Hp ltac:(lia) d st' E2) as (w & t & H1 & H2 & H3).
  exists w, t. split; auto. split; auto. unfold ext in H3. lia.
Qed.

Lemma pdr_calls_shortest b c flag s R SS fuel d n m : system_of b c flag s -> numbering_fits c flag ->
  random_ok R -> stateful_correct SS -> bad_latches_read c flag -> shortest c flag m ->
  pdr_run b R SS fuel s = Ok (ProofCTX d, n) -> m <= calls_extract_model n.
Proof.
  intros Hs Hf HR HS Hl (Hm & _) E. destruct (pdr_calls b c flag s R SS fuel d n Hs Hf HR HS Hl E) as (w & t & H1 & H2 & H3).
  destruct (Nat.lt_ge_cases t m) as [L|L]; [|lia]. elim (Hm w H1 t L H2).
Qed.
